(** What the block partition must achieve. *)
From Coq Require Import ZArith QArith List Lia Bool.
From Verif Require Import Base Mem Num Model_Partition Model_Pairs.
Import ListNotations.
Open Scope Z_scope.

Section Spec.
Context {F : num}.

(** Node [i] owns the point at position [p]. *)
Definition owns (a : tarrays F) (i p : Z) : bool :=
  match ld (a_cluster a) (i * 2 + 0), ld (a_cluster a) (i * 2 + 1) with
  | Some s, Some e => (s <=? p) && (p <=? e)
  | _, _ => false
  end.

(** Number of node pairs (n0, n1) in the list with p in n0 and q in n1. *)
Definition coverage (a : tarrays F) (l : list (Z * Z)) (p q : Z) : Z :=
  zcount (fun '(n0, n1) => owns a n0 p && owns a n1 q) l.

Definition is_leaf (a : tarrays F) (i : Z) : Prop := ld (a_nchild a) i = Some 0.

(** The two points lie in the same leaf. *)
Definition same_leaf (a : tarrays F) (n_node p q : Z) : Prop :=
  exists i, 0 <= i < n_node /\ is_leaf a i /\ owns a i p = true /\ owns a i q = true.

(** Every node has a box. *)
Definition boxes_set (pt_dim n_node : Z) (a : tarrays F) : Prop :=
  forall i k, 0 <= i < n_node -> 0 <= k < pt_dim * 2 -> exists v, ld (a_box a) (i * (pt_dim * 2) + k) = Some v.

(** The box test, in one dimension [j], on boxes given by corner and width. *)
Definition separated (alpha c0 w0 c1 w1 : F) : bool :=
  nle (nadd (nmul alpha (nmin w0 w1)) (nmul (nlit (1#2)) (nadd w0 w1)))
      (nabs (nsub (nadd c0 (nmul (nlit (1#2)) w0)) (nadd c1 (nmul (nlit (1#2)) w1)))).

(** The boxes of nodes n0 and n1 are separated in some dimension. *)
Definition boxes_admissible (pt_dim : Z) (alpha : F) (a : tarrays F) (n0 n1 : Z) : Prop :=
  exists j c0 w0 c1 w1, 0 <= j < pt_dim /\
    ld (a_box a) (n0 * (pt_dim * 2) + j) = Some c0 /\ ld (a_box a) (n0 * (pt_dim * 2) + (pt_dim + j)) = Some w0 /\
    ld (a_box a) (n1 * (pt_dim * 2) + j) = Some c1 /\ ld (a_box a) (n1 * (pt_dim * 2) + (pt_dim + j)) = Some w1 /\
    separated alpha c0 w0 c1 w1 = true.

(** n0 and n1 are on the same level, or the higher one is a leaf. *)
Definition levels_fit (a : tarrays F) (n0 n1 : Z) : Prop :=
  exists l0 l1, ld (a_level a) n0 = Some l0 /\ ld (a_level a) n1 = Some l1 /\
    (l0 = l1 \/ (l0 < l1 /\ is_leaf a n0) \/ (l1 < l0 /\ is_leaf a n1)).

(** The box of [n1] moved by the shift is separated from that of [n0]. *)
Definition boxes_admissible_shifted (pt_dim : Z) (alpha : F) (shift : Z -> F) (a : tarrays F) (n0 n1 : Z) : Prop :=
  exists j c0 w0 c1 w1, 0 <= j < pt_dim /\
    ld (a_box a) (n0 * (pt_dim * 2) + j) = Some c0 /\ ld (a_box a) (n0 * (pt_dim * 2) + (pt_dim + j)) = Some w0 /\
    ld (a_box a) (n1 * (pt_dim * 2) + j) = Some c1 /\ ld (a_box a) (n1 * (pt_dim * 2) + (pt_dim + j)) = Some w1 /\
    separated alpha c0 w0 (nadd c1 (shift j)) w1 = true.

(** The coordinate shift of lattice [l]: root box width times lattice vector. *)
Definition is_lattice_shift (pt_dim : Z) (lattices : mem F) (n_node : Z) (a : tarrays F) (l : Z) (shift : Z -> F) : Prop :=
  forall j, 0 <= j < pt_dim -> exists w v, ld (a_box a) ((n_node - 1) * (pt_dim * 2) + (pt_dim + j)) = Some w /\
    ld lattices (l * pt_dim + j) = Some v /\ shift j = nmul w v.

(** The shift is taken as non-zero: a component exceeds 1e-10. *)
Definition shifted (pt_dim : Z) (shift : Z -> F) : Prop :=
  exists j, 0 <= j < pt_dim /\ nlt (nlit (e10 1 10)) (nabs (shift j)) = true.

(** Number of triples of a lattice covering (p, q). *)
Definition coverage_per (a : tarrays F) (l : list (bool * (Z * Z * Z))) (lat p q : Z) : Z :=
  zcount (fun '(_, (n0, n1, k)) => (k =? lat) && owns a n0 p && owns a n1 q) l.

End Spec.
