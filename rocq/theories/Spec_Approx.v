(** Approximate compression: what the error of a product is bounded by.  Not a
    model of code. *)
From Coq Require Import ZArith QArith List Lia Bool Reals.
From Verif Require Import Base Mem Num CRing FNum Model_Dense Spec_Dense Model_Partition Spec_Tree Spec_Pairs Model_Matvec Spec_Matvec Model_Build Spec_Build Model_ID Spec_ID Model_UJ Spec_UJ.
Import ListNotations.
Open Scope Z_scope.

Section Spec.
Context {F : num}.
Variable h : h2rep F Rring.

(** Every row of every expanded basis sums, in absolute value, to at most [lam]. *)
Definition row_sums_below (lam : R) : Prop :=
  forall i p, 0 <= i < h_nnode h -> h_minlevel h <= level h i -> inside h i p = true ->
    (Rsum 0 (rank h i) (fun c => Rabs (@basis F Rring h i p c)) <= lam)%R.

(** The rows a node's U interpolates (its own rows for a leaf, its children's
    skeleton rows otherwise) are reproduced from its skeleton rows up to [eps] on
    every far column.  With eps = 0 this is [interpolates]. *)
Definition interpolates_up_to (js : Z -> list Z) (KM : Z -> Z -> R) (eps : R) : Prop :=
  forall i q, 0 <= i < h_nnode h -> h_minlevel h <= level h i -> far h i q ->
    (nchild h i = 0 -> forall r, 0 <= r < msize h i ->
       (Rabs (@KMp F Rring h KM (mfirst h i + r) q - Rsum 0 (rank h i) (fun c => @Uval F Rring h i r c * @KMp F Rring h KM (skel_row h js i c) q)) <= eps)%R) /\
    (forall k d, 0 <= k < nchild h i -> 0 <= d < rank h (child h i k) ->
       (Rabs (@KMp F Rring h KM (skel_row h js (child h i k) d) q
              - Rsum 0 (rank h i) (fun c => @Uval F Rring h i (choff h i k + d)%Z c * @KMp F Rring h KM (skel_row h js i c) q)) <= eps)%R).

(** The proxy points reproduce the far field: the field any far source has on the
    points of a node is produced by strengths on the proxy points of the node's
    level, of norm at most [W]. *)
Definition proxies_reproduce_far_field (kern : list F -> list F -> Z -> Z -> R) (c : uctx F Rnum) (KM : Z -> Z -> R) (W : R) : Prop :=
  forall i q, 0 <= i < h_nnode h -> h_minlevel h <= level h i -> far h i q ->
    let m := n_proxy (c_pp c) (level h i) * c_kdim c in
    exists w : Z -> R, (sqrt (Rsum 0 m (fun l => w l * w l)) <= W)%R /\
      forall p t, owns (c_t c) i p = true -> 0 <= t < c_kdim c ->
        @KMp F Rring h KM (c_kdim c * p + t) q = Rsum 0 m (fun l => @proxy_block F Rnum kern c [p] i t l * w l)%R.
End Spec.

(** The tolerance of the decomposition of any node is at most [T] (for a relative
    tolerance: T is the tolerance at the largest norm of a point's block). *)
Definition tolerance_below {F : num} (kern : list F -> list F -> Z -> Z -> R) (c : uctx F Rnum) (n_node minlevel : Z) (T : R) : Prop :=
  match c_stop c with QR_RANK _ => False | _ => True end /\
  forall i p, 0 <= i < n_node -> minlevel <= lev (c_t c) i -> owns (c_t c) i p = true ->
    let m := n_proxy (c_pp c) (lev (c_t c) i) * c_kdim c in
    (tolerance (c_dbl c) (c_stop c) (c_kdim c) m (grp_norm (c_kdim c) m (@proxy_block F Rnum kern c [p] i) 0) <= T)%R.
