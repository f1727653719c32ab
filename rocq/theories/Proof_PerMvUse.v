(** The periodic matvec on periodic handles; histories that mix it with the periodic
    product. *)
From Coq Require Import ZArith QArith List Lia Bool Permutation.
From Verif Require Import Base Mem Num CRing Conc Model_Utils Spec_Utils Proof_Utils Model_Dense Spec_Dense Proof_Dense Model_CSR Spec_CSR Model_Partition Spec_Tree Spec_Partition
  Model_Pairs Spec_Pairs Model_Matvec Spec_Matvec Model_Build Spec_Build Spec_Matmul Model_Matmul Model_Periodic Spec_Periodic Proof_PerBlock Proof_PerTop Model_JIT Proof_JitBlk Proof_PerUse Model_PerMv Proof_PerMvTop.
Import ListNotations.
Open Scope Z_scope.

Section Use.
Context {F : num} {K : cring}.
Local Open Scope ring_K.
Variable kern : list F -> list F -> Z -> Z -> K.

Lemma val_zeros n i : val c0 (ld (repeat (Some (c0 (c := K))) n) i) = c0.
Proof.
  destruct (ld (repeat (Some c0) n) i) as [v|] eqn:E; [|reflexivity]. cbn [val]. apply ld_getz in E. apply getz_In in E. apply repeat_spec in E. congruence.
Qed.

(** The four vectors of the handle are at least as long as the matrix is wide. *)
Definition vecs_ok (h : h2rep F K) (zx : pst F K * mem K) : Prop :=
  h_kms h <= zlen (s_px (fst (fst zx))) /\ h_kms h <= zlen (s_py (fst (fst zx))) /\ h_kms h <= zlen (s_yT (fst (fst zx))) /\ h_kms h <= zlen (snd zx).

Theorem matvec_per_rep (simd : Z) (mv : bool) (h : h2rep F K) pt js adm inadm sB sD O c sc z (x y : mem K) (xf : Z -> K) :
  1 <= simd -> per_rep_ok h adm -> per_ok h pt js adm inadm sB sD O c ->
  pv_sched_ok h sc -> pst_ok h (fst z) -> vecs_ok h z ->
  (forall j, 0 <= j < h_kms h -> ld x j = Some (xf j)) -> h_kms h <= zlen y ->
  exists z' y', matvec_periodic kern simd 1 mv h c sc z x y = Some (z', y') /\ pst_ok h (fst z') /\ vecs_ok h z' /\ zlen y' = zlen y /\
    (forall i, 0 <= i < h_kms h -> ld y' i = Some (rsum 0 (h_kms h) (fun j => Hper kern h pt js adm inadm sB sD O (nthz (h_bwd h) i) (nthz (h_bwd h) j) * xf j))) /\
    forall i, h_kms h <= i -> getz y' i = getz y i.
Proof.
  intros Hs R PO Hsc Hz Hv Hx Hy.
  assert (R' : rep_ok (strip h)) by exact (strip_ok h adm R).
  destruct (matvec_periodic_spec kern simd Hs (strip h) R' (proj1 (proj2 (proj2 (proj2 (proj2 (proj2 (pr_dims _ _ R)))))))) with (pt := pt) (js := js) (adm := adm) (inadm := inadm) (sB := sB) (sD := sD) (O := O) (c := c) (mv := mv) (sc := sc) (z := z) (x := x) (y := y) (xf := xf)
    as (z' & y' & E & (Hz' & Hv') & Zy & Vy & Fy); auto.
  - intros k r q _ _ _. unfold Dval. apply val_zeros.
  - destruct PO. constructor; assumption.
  - intros k i n1 n G L. destruct (po_adm _ _ _ _ _ _ _ _ _ PO _ _ _ G) as (Hi & _). destruct (proj2 (pr_nr _ _ R) i Hi) as (n' & L' & Hn). change (h_nr (strip h)) with (h_nr h) in L. rewrite L in L'. injection L' as <-. eauto.
  - destruct Hsc. constructor; assumption.
  - split; [destruct Hz; constructor; assumption|exact Hv].
  - exists z', y'. split; [exact E|]. split; [destruct Hz'; constructor; assumption|]. split; [exact Hv'|]. split; [auto|]. split; [|exact Fy].
    intros i Hi. etransitivity; [exact (Vy i Hi)|]. f_equal. unfold vprod. apply rsum_ext. intros j Hj. rewrite Hper_strip. reflexivity.
Qed.
End Use.
