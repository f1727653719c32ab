(** Specification vocabulary for the FSAI preconditioner. *)
From Coq Require Import ZArith QArith List Lia Bool Permutation.
From Verif Require Import Base Mem Num CRing Spec_Lapack.
Import ListNotations.
Open Scope Z_scope.

(** The comparison < of numbers is total (no NaN): "not b < a" is a total
    preorder, and < is asymmetric. *)
Record total_lt {A} (lt : A -> A -> bool) : Prop := {
  tl_asym : forall a b, lt a b = true -> lt b a = false;
  tl_trans : forall a b c, lt b a = false -> lt c b = false -> lt c a = false }.

(** ** Neighbours *)
Section Knn.
Context {F : num}.

(** Squared distance of two points, coordinates summed in order. *)
Definition dist2 (p q : list F) : F :=
  fold_left (fun s ab => let d := nsub (fst ab) (snd ab) in nadd s (nmul d d)) (combine p q) (nlit 0%Q).

(** The list [nn] is a valid neighbour list of point [i] for at most [m]
    neighbours: distinct points numbered up to i, point i last. *)
Definition nbr_list (m i : Z) (nn : list Z) : Prop :=
  1 <= zlen nn <= m /\ NoDup nn /\ (forall j, In j nn -> 0 <= j <= i) /\ getz nn (zlen nn - 1) = Some i.

(** ... made of the nearest earlier points: all of them when there are fewer than
    m, otherwise m - 1 of them, none of which is farther away than an earlier
    point left out. *)
Definition nearest_earlier (m i : Z) (pt : Z -> list F) (nn : list Z) : Prop :=
  nbr_list m i nn /\ zlen nn = Z.min m (i + 1) /\
  forall j k, In j nn -> j <> i -> 0 <= k < i -> ~ In k nn -> nlt (dist2 (pt i) (pt k)) (dist2 (pt i) (pt j)) = false.
End Knn.

(** The array [coord] holds the coordinates X j d (point j, dimension d) of [n]
    points from offset [co] on, one row per dimension, rows [ldc] apart. *)
Definition coords_at {F : num} (coord : mem F) (co ldc n dim : Z) (X : Z -> Z -> F) : Prop :=
  forall j d, 0 <= j < n -> 0 <= d < dim -> ld coord (co + d * ldc + j) = Some (X j d).
(** Point j as a list of coordinates. *)
Definition pt_of {F : num} (dim : Z) (X : Z -> Z -> F) (j : Z) : list F := map (X j) (zrange 0 dim).

(** Row i of [nn_idx] (rows of [m] cells) is the list [l], and its length is in
    cell 1 + i of [cnt]. *)
Definition row_is (m : Z) (nn_idx cnt : mem Z) (i : Z) (l : list Z) : Prop :=
  ld cnt (1 + i) = Some (zlen l) /\ forall a, 0 <= a < zlen l -> ld nn_idx (i * m + a) = getz l a.

(** [ord] lists 0, ..., n-1 in some order. *)
Definition any_order (n : Z) (ord : list Z) : Prop := Permutation ord (zrange 0 n).

(** The matrix with entries v i a at (i, nn i a), a < cnt i. *)
Definition sp_entry {K : cring} (cnt : Z -> Z) (nn : Z -> Z -> Z) (v : Z -> Z -> K) (i j : Z) : K :=
  rsum 0 (cnt i) (fun a => if (nn i a =? j)%Z then v i a else c0).

(** G is a factorised sparse approximate inverse of S for the neighbour lists
    [nb]: row i of G has support in nb i; S G^T vanishes at (r, i) for the other
    r in nb i; and G is scaled so that (G S G^T)(i, i) = 1. *)
Definition fsai_rows {K : cring} (n : Z) (S : Z -> Z -> K) (nb : Z -> list Z) (G : Z -> Z -> K) : Prop :=
  forall i, 0 <= i < n ->
  (forall j, ~ In j (nb i) -> G i j = c0) /\
  (forall r, In r (nb i) -> r <> i -> rsum 0 n (fun j => cmul (S r j) (G i j)) = c0) /\
  rsum 0 n (fun r => cmul (G i r) (rsum 0 n (fun j => cmul (S r j) (G i j)))) = c1.

(** The matrix K(X, X) + mu I of n points with coordinates X. *)
Definition shifted_kernel {F : num} {K : cring} (kern : list F -> list F -> Z -> Z -> K) (dim : Z) (X : Z -> Z -> F) (mu : K) (i j : Z) : K :=
  cadd (kern (pt_of dim X i) (pt_of dim X j) 0 0) (cmul mu (delta i j)).
(** ... minus P P^T for an n-by-k matrix P. *)
Definition fsai_target {F : num} {K : cring} (kern : list F -> list F -> Z -> Z -> K) (dim : Z) (X : Z -> Z -> F) (k : Z) (P : Z -> Z -> K) (mu : K) (i j : Z) : K :=
  csub (shifted_kernel kern dim X mu i j) (rsum 0 k (fun l => cmul (P i l) (P j l))).

(** The kernel is symmetric on the n points. *)
Definition kernel_symmetric {F : num} {K : cring} (kern : list F -> list F -> Z -> Z -> K) (n dim : Z) (X : Z -> Z -> F) : Prop :=
  forall i j, 0 <= i < n -> 0 <= j < n -> kern (pt_of dim X i) (pt_of dim X j) 0 0 = kern (pt_of dim X j) (pt_of dim X i) 0 0.
