(** What the HSS ULV factorisations and solves must achieve, and for which
    representations. *)
From Coq Require Import ZArith List Lia Bool Permutation.
From Verif Require Import Base Mem Num CRing Conc Model_Utils Spec_Utils Model_Dense Spec_Dense Model_Partition Spec_Tree Model_Matvec Spec_Matvec Model_Build Spec_Build Spec_Lapack.
Import ListNotations.
Open Scope Z_scope.

Section Spec.
Context {F : num} {K : cring}.
Local Open Scope ring_K.
Implicit Type h : h2rep F K.

(** Rows of the basis of a node. *)
Definition nrows h i : Z := if nchild h i =? 0 then msize h i else choff h i (nchild h i).

(** HSS structure: compression everywhere below the root, every two children of a
    node are an admissible pair, in the order of the children and once, and
    there are no other pairs; no basis has more columns than rows. *)
Record hss_ok h : Prop := {
  hs_inadm : h_inadm h = [];
  hs_min : h_minlevel h = 1;
  hs_sib : forall q n0 n1, getz (h_adm h) q = Some (n0, n1) ->
    exists i k l, 0 <= i < h_nnode h /\ 0 <= k < l /\ l < nchild h i /\ n0 = child h i k /\ n1 = child h i l;
  hs_all : forall i k l, 0 <= i < h_nnode h -> 0 <= k < l -> l < nchild h i -> exists q, getz (h_adm h) q = Some (child h i k, child h i l);
  hs_once : NoDup (h_adm h);
  hs_rank : forall i, 0 <= i < h_nnode h -> 1 <= level h i -> rank h i <= nrows h i }.

(** Block lookup yields the blocks of the representation. *)
Definition gets_ok h (getB getD : Z -> Z -> dmat K -> option (option (dmat K))) : Prop :=
  (forall q n0 n1 o, getz (h_adm h) q = Some (n0, n1) -> dm_ok o ->
     exists o', getB n0 n1 o = Some (Some o') /\ dm_ok o' /\ block_view o' false (Bnrow h q) (Bncol h q) (Bval h q)) /\
  (forall k o, 0 <= k < h_nleaf h -> dm_ok o ->
     exists o', getD (leaf h k) (leaf h k) o = Some (Some o') /\ dm_ok o' /\
       block_view o' false (msize h (leaf h k)) (msize h (leaf h k)) (Dval h k)).

(** The diagonal blocks are symmetric. *)
Definition diag_sym h : Prop := forall k r c, 0 <= k < h_nleaf h -> 0 <= r < msize h (leaf h k) -> 0 <= c < msize h (leaf h k) -> Dval h k r c = Dval h k c r.

(** A schedule of the loops over the nodes of each level. *)
Definition sweep_ok h (sched : Z -> list (Z * Z)) : Prop := forall i n, 0 <= i <= h_maxlevel h -> ld (a_level_n (h_t h)) i = Some n ->
  omp_for (Z.min n (h_nthread h)) n (sched i).

(** The matrix of the system, in H2Pack's ordering and in the user's (user row i
    is row bwd[i] there): H + shift I. *)
Definition Smat h (shift : K) (p q : Z) : K := Hmat h p q + shift * delta p q.
Definition Suser h (shift : K) (i j : Z) : K := Smat h shift (nthz (h_bwd h) i) (nthz (h_bwd h) j).

End Spec.
