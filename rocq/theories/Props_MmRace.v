(** C31: the parallel regions of H2P_matmul are race free. *)
From Coq Require Import ZArith List Lia Bool Permutation.
From Verif Require Import Base Mem Num CRing Conc Race Model_Utils Model_Dense Spec_Dense Model_Partition Spec_Tree Model_CSR Model_Pairs Model_Matvec Spec_Matvec Model_Build Spec_Build Model_Matmul Spec_Matmul
  Proof_MvTree Proof_MvFwd Proof_MvTop Proof_MmFwd Proof_MmMid Proof_BuildUse Proof_MmTop Proof_MmUse Model_MvFine Model_MmFine Proof_MvRace Proof_MmRace Ex_Matvec Ex_Build Props_Matvec Props_Build Props_Matmul.
Import ListNotations.
Open Scope Z_scope.

(** For every built handle, layout, batch width, number of columns and previous
    state of the buffers, with the blocks stored or evaluated again at every use:
    whatever nodes the OpenMP runtime gives to which thread in the sweeps, and
    however the single memory accesses of the threads interleave, in no reachable
    state are two threads about to access the same location, one of them writing;
    no thread accesses memory outside an array or reads an unset cell; and the
    matrix returned is the H2 matrix times each column, the other cells of y being
    unchanged.  ([matmul_fine] is a chain of [par], which says this of each region
    by [safe], Race.v.) *)
Theorem C31_matmul_race_free :
  forall (F : num) (K : cring) (kern : list F -> list F -> Z -> Z -> K) fuel rnd pt_dim xpt_dim kdim n_point n_thread (coord0 : mem F)
    max_leaf_points max_leaf_size root_enbox alpha depth t ps U J Jc js blkB blkD0 blkD1 sc h bm dm,
    build_inputs fuel rnd pt_dim xpt_dim kdim n_point n_thread coord0 max_leaf_points max_leaf_size root_enbox alpha depth t ps U J Jc js blkB blkD0 blkD1 sc ->
    h2_build kern pt_dim xpt_dim kdim n_point n_thread t ps U J Jc blkB blkD0 blkD1 sc = Some (h, bm, dm) ->
    forall regen Bd Dd, storage_for regen (h_Bdata h) Bd -> storage_for regen (h_Ddata h) Dd ->
    let getB := get_Bij kern (ctx_of pt_dim xpt_dim kdim n_point t Jc) bm Bd regen in
    let getD := get_Dij kern (ctx_of pt_dim xpt_dim kdim n_point t Jc) dm Dd regen in
    forall mmx col_major fc n_vec s (x : mem K) ldx (y : mem K) ldy (xf : Z -> Z -> K),
    1 <= mmx -> 0 <= n_vec -> (forall b, mm_choices_ok h (fc b)) -> state_ok h s ->
    (forall j v, 0 <= j < h_kms h -> 0 <= v < n_vec -> ld x (mat_cell col_major ldx j v) = Some (xf j v)) ->
    mat_fits col_major (h_kms h) n_vec ldy (zlen y) ->
    matmul_fine h getB getD bm dm mmx col_major fc n_vec s x ldx y ldy (fun s' y' =>
      state_ok h s' /\
      (forall i v, 0 <= i < h_kms h -> 0 <= v < n_vec ->
        ld y' (mat_cell col_major ldy i v) = Some (rsum 0 (h_kms h) (fun j => cmul (Hmat h (nthz (h_bwd h) i) (nthz (h_bwd h) j)) (xf j v)))) /\
      (forall k, (forall i v, 0 <= i < h_kms h -> 0 <= v < n_vec -> k <> mat_cell col_major ldy i v) -> getz y' k = getz y k)).
Proof.
  intros F K kern fuel rnd pt_dim xpt_dim kdim n_point n_thread coord0 mlp mls rbox alpha depth t ps U J Jc js blkB blkD0 blkD1 sc h bm dm BI EB regen Bd Dd SB SD getB getD mmx col fc n_vec s x ldx y ldy xf Hm Hv C Hst Hx Hy.
  destruct (build_rows kern _ _ _ _ _ _ _ _ _ _ _ _ _ _ _ _ _ _ _ _ _ _ _ BI h bm dm EB) as (R & _). pose proof (kms_nonneg h R) as Hk.
  destruct (matmul_top kern _ _ _ _ _ _ _ _ _ _ _ _ _ _ _ _ _ _ _ _ _ _ _ BI h bm dm EB regen Bd Dd mmx col (fun b => mm_sched_of (fc b)) n_vec s x ldx y ldy xf SB SD Hm Hv (fun b => mm_sched_of_ok h _ (C b)) Hst Hx Hy) as (s' & y' & E & S' & _ & V & O).
  unfold getB, getD in *. destruct (get_data kern (ctx_of pt_dim xpt_dim kdim n_point t Jc) bm _ _ _ SB) as (EqB & _). destruct (get_data kern (ctx_of pt_dim xpt_dim kdim n_point t Jc) dm _ _ _ SD) as (_ & EqD).
  rewrite EqB, EqD in *.
  unfold matmul_fine. eapply mm_batches_fine_mono; [|eapply (matmul_fine_built kern _ _ _ _ _ _ _ _ _ _ _ _ _ _ _ _ _ _ _ _ _ _ _ BI h bm dm EB regen regen mmx col fc n_vec s x ldx y ldy xf); auto].
  - intros s1 y1 E1. cbv beta in E1. rewrite E in E1. injection E1 as <- <-. split; [exact S'|]. split; [exact V|exact O].
  - destruct Hst; constructor; auto.
  - unfold fits_mat, fits. unfold mat_fits in Hy. destruct col; repeat (split; [lia|]); intros A B; destruct Hy as (_ & Hy); specialize (Hy ltac:(lia) ltac:(lia)); lia.
Qed.
Print Assumptions C31_matmul_race_free.

(** ** A concrete case: the handle of Ex_Build on two threads *)
Definition mfc5 : mm_choices := {|
  mf_fwd := fun i => if i =? 2 then [[0; 3]; [2; 1]] else [[1]; [0]];
  mf_mid := [[1; 2; 4; 6; 8]; [0; 3; 5; 7]];
  mf_bwd := fun i => if i =? 2 then [[0]; [3; 2; 1]] else [[1; 0]; []];
  mf_den := [[8; 0; 2]; [1; 3; 4; 5; 6; 7]] |}.
Lemma mfc5_ok : mm_choices_ok h5 mfc5.
Proof.
  constructor; try (split; [reflexivity|apply zperm_ok; reflexivity]);
    intros i n Hi En; cbn [h_minlevel h_maxlevel h5] in Hi; (assert (i = 2 \/ i = 3) as [-> | ->] by lia); vm_compute in En; injection En as <-; (split; [reflexivity|apply zperm_ok; reflexivity]).
Qed.
Example C31_matmul_instance : exists xf : Z -> Z -> Zring, matmul_fine h5 (get_Bij kern5 (ctx_of 1 1 2 5 tree5b Jc5) (snd (fst built5)) [] true) (get_Dij kern5 (ctx_of 1 1 2 5 tree5b Jc5) (snd built5) [] true)
    (snd (fst built5)) (snd built5) 2 true (fun _ => mfc5) 3 fresh5b x5m 10 (alloc 34) 12 (fun _ y' =>
  forall i v, 0 <= i < 10 -> 0 <= v < 3 -> ld y' (v * 12 + i) = Some (rsum 0 10 (fun j => @cmul Zring (Hmat h5 (nthz (h_bwd h5) i) (nthz (h_bwd h5) j)) (xf j v)))).
Proof.
  exists (fun j v => ((v * 10 + j) * (v * 10 + j) - 7 : Zring)). unfold matmul_fine.
  eapply mm_batches_fine_mono; [|eapply (C31_matmul_race_free _ _ kern5 _ _ _ _ _ _ _ _ _ _ _ _ _ _ _ _ _ _ _ _ _ _ _ _ _ _ inputs5 built5_parts true [] [] (or_introl eq_refl) (or_introl eq_refl)
    2 true (fun _ => mfc5) 3 fresh5b x5m 10 (alloc 34) 12 (fun j v => ((v * 10 + j) * (v * 10 + j) - 7 : Zring)));
  [lia|lia|intros _; exact mfc5_ok|exact fresh5b_ok| |]].
  - intros s' y' (_ & V & _). exact V.
  - intros j v Hj Hv. unfold mat_cell. change (h_kms h5) with 10 in Hj. apply x5m_val. lia.
  - unfold mat_fits. change (h_kms h5) with 10. rewrite zlen_alloc; lia.
Qed.
