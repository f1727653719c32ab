(** Property C29 (and C30 for mixed calls). *)
From Coq Require Import ZArith QArith List Lia Bool Permutation.
From Verif Require Import Base Mem Num CRing Conc Model_Utils Spec_Utils Proof_Utils Model_Dense Spec_Dense Model_CSR Spec_CSR Model_Partition Spec_Tree Spec_Partition
  Model_Pairs Spec_Pairs Model_Matvec Spec_Matvec Proof_MvTop Proof_MvCor Props_Matvec Model_Build Spec_Build Proof_BuildUse Proof_Sched
  Model_Matmul Spec_Matmul Proof_MvBwd Proof_MmMid Proof_MmTop Proof_MmUse Ex_Matvec Ex_Build Props_Build.
Import ListNotations.
Open Scope Z_scope.

(** The storage that block retrieval reads: what H2P_build filled, or anything
    when blocks are evaluated again at every use (just-in-time mode). *)
Definition storage_for {A} (regen : bool) (built used : mem A) : Prop := regen = true \/ used = built.

Lemma get_data {F : num} {K : cring} (kern : list F -> list F -> Z -> Z -> K) c m (d d' : mem K) regen : storage_for regen d d' ->
  get_Bij kern c m d' regen = get_Bij kern c m d regen /\ get_Dij kern c m d' regen = get_Dij kern c m d regen.
Proof. intros [->| ->]; split; reflexivity. Qed.

Section Top.
Context {F : num} {K : cring}.
Variables (kern : list F -> list F -> Z -> Z -> K) (fuel : nat) (rnd : Z -> F) (pt_dim xpt_dim kdim n_point n_thread : Z) (coord0 : mem F) (mlp : Z) (mls : F) (rbox : option (mem F))
  (alpha : F) (depth : nat) (t : tree_result F) (ps : pairs) (U : list (dmat K)) (J : list int_vec) (Jc : list (dmat F)) (js : Z -> list Z) (blkB blkD0 blkD1 : int_vec) (sc : build_sched).
Hypothesis BI : build_inputs fuel rnd pt_dim xpt_dim kdim n_point n_thread coord0 mlp mls rbox alpha depth t ps U J Jc js blkB blkD0 blkD1 sc.
Variables (h : h2rep F K) (bm dm : bmeta).
Hypothesis EB : h2_build kern pt_dim xpt_dim kdim n_point n_thread t ps U J Jc blkB blkD0 blkD1 sc = Some (h, bm, dm).
Notation ctx := (ctx_of pt_dim xpt_dim kdim n_point t Jc).

Lemma matmul_top regen Bd Dd mmx col msc n_vec s x ldx y ldy (xf : Z -> Z -> K) :
  storage_for regen (h_Bdata h) Bd -> storage_for regen (h_Ddata h) Dd ->
  1 <= mmx -> 0 <= n_vec -> (forall b, mm_sched_ok h (msc b)) -> state_ok h s ->
  (forall j v, 0 <= j < h_kms h -> 0 <= v < n_vec -> ld x (mat_cell col ldx j v) = Some (xf j v)) ->
  mat_fits col (h_kms h) n_vec ldy (zlen y) ->
  exists s' y', matmul h (get_Bij kern ctx bm Bd regen) (get_Dij kern ctx dm Dd regen) bm dm mmx col msc n_vec s x ldx y ldy = Some (s', y') /\ state_ok h s' /\ zlen y' = zlen y /\
    (forall i v, 0 <= i < h_kms h -> 0 <= v < n_vec -> ld y' (mat_cell col ldy i v) = Some (prodv h xf i v)) /\
    (forall k, (forall i v, 0 <= i < h_kms h -> 0 <= v < n_vec -> k <> mat_cell col ldy i v) -> getz y' k = getz y k).
Proof.
  intros SB SD Hm Hv Hsc [S1 S2 S3 S4 S5 S6 S7] Hx Hy. destruct (get_data kern ctx bm _ _ _ SB) as (-> & _). destruct (get_data kern ctx dm _ _ _ SD) as (_ & ->).
  destruct (build_rows kern _ _ _ _ _ _ _ _ _ _ _ _ _ _ _ _ _ _ _ _ _ _ _ BI h bm dm EB) as (R & _). pose proof (kms_nonneg h R) as Hk.
  destruct (matmul_built kern _ _ _ _ _ _ _ _ _ _ _ _ _ _ _ _ _ _ _ _ _ _ _ BI h bm dm EB regen regen mmx col msc n_vec s x ldx y ldy xf) as (s' & y' & E & [M1 M2 M3] & [P1 P2] & T1 & T2 & Z' & V' & O'); auto.
  { constructor; auto. }
  { unfold fits_mat, fits. unfold mat_fits in Hy. destruct col; repeat (split; [lia|]); intros A B; destruct Hy as (_ & Hy); specialize (Hy ltac:(lia) ltac:(lia)); lia. }
  exists s', y'. split; [exact E|]. split; [|auto]. constructor; auto; try (rewrite T1; auto); try (rewrite T2; auto); [rewrite P1|rewrite P2]; nia.
Qed.

(** Handles after any mix of matvec and matmul calls (batch width [mmx]). *)
Inductive after_any_calls (regen : bool) (Bd Dd : mem K) (mmx : Z) : mvst K -> Prop :=
| any_none s : after_calls h s -> after_any_calls regen Bd Dd mmx s
| any_matvec s msc x y s' y' : after_any_calls regen Bd Dd mmx s -> schedule_ok h msc ->
    (forall j, 0 <= j < h_kms h -> exists v, ld x j = Some v) -> h_kms h <= zlen y ->
    matvec h msc s x y = Some (s', y') -> after_any_calls regen Bd Dd mmx s'
| any_matmul s col msc n_vec x ldx y ldy s' y' : after_any_calls regen Bd Dd mmx s -> (forall b, mm_sched_ok h (msc b)) -> 0 <= n_vec ->
    (forall j v, 0 <= j < h_kms h -> 0 <= v < n_vec -> exists w, ld x (mat_cell col ldx j v) = Some w) ->
    mat_fits col (h_kms h) n_vec ldy (zlen y) ->
    matmul h (get_Bij kern ctx bm Bd regen) (get_Dij kern ctx dm Dd regen) bm dm mmx col msc n_vec s x ldx y ldy = Some (s', y') ->
    after_any_calls regen Bd Dd mmx s'.

Lemma after_any_calls_ok regen Bd Dd mmx s : storage_for regen (h_Bdata h) Bd -> storage_for regen (h_Ddata h) Dd -> 1 <= mmx ->
  after_any_calls regen Bd Dd mmx s -> state_ok h s.
Proof.
  intros SB SD Hm A. destruct (build_rows kern _ _ _ _ _ _ _ _ _ _ _ _ _ _ _ _ _ _ _ _ _ _ _ BI h bm dm EB) as (R & _).
  induction A as [s A|s msc x y s' y' A IH Hs Hx Hy E|s col msc n_vec x ldx y ldy s' y' A IH Hs Hv Hx Hy E].
  - apply after_calls_ok; auto.
  - assert (Hx' : forall j, 0 <= j < h_kms h -> ld x j = Some (val c0 (ld x j))) by (intros j Hj; destruct (Hx j Hj) as (v & ->); reflexivity).
    destruct (matvec_spec h R msc s x y _ Hs IH Hx' Hy) as (s2 & y2 & E2 & S2 & _). rewrite E in E2. now injection E2 as <- <-.
  - assert (Hx' : forall j v, 0 <= j < h_kms h -> 0 <= v < n_vec -> ld x (mat_cell col ldx j v) = Some (val c0 (ld x (mat_cell col ldx j v)))) by (intros j v Hj Hv'; destruct (Hx j v Hj Hv') as (w & ->); reflexivity).
    destruct (matmul_top regen Bd Dd mmx col msc n_vec s x ldx y ldy _ SB SD Hm Hv Hs IH Hx' Hy) as (s2 & y2 & E2 & S2 & _). rewrite E in E2. now injection E2 as <- <-.
Qed.
End Top.

(** For every built handle, layout, number of columns, batch width, schedules of
    the batches and previous state of the working buffers, whether the blocks are
    stored or evaluated again at every use: column v of the result is exactly what
    H2P_matvec returns for column v of the input (which by C19 is the operator
    applied to it), and no other cell of the output is touched. *)
Theorem C29_matmul_is_matvec_of_each_column :
  forall (F : num) (K : cring) (kern : list F -> list F -> Z -> Z -> K) fuel rnd pt_dim xpt_dim kdim n_point n_thread (coord0 : mem F)
    max_leaf_points max_leaf_size root_enbox alpha depth t ps U J Jc js blkB blkD0 blkD1 sc h bm dm,
    build_inputs fuel rnd pt_dim xpt_dim kdim n_point n_thread coord0 max_leaf_points max_leaf_size root_enbox alpha depth t ps U J Jc js blkB blkD0 blkD1 sc ->
    h2_build kern pt_dim xpt_dim kdim n_point n_thread t ps U J Jc blkB blkD0 blkD1 sc = Some (h, bm, dm) ->
    forall regen Bd Dd, storage_for regen (h_Bdata h) Bd -> storage_for regen (h_Ddata h) Dd ->
    let getB := get_Bij kern (ctx_of pt_dim xpt_dim kdim n_point t Jc) bm Bd regen in
    let getD := get_Dij kern (ctx_of pt_dim xpt_dim kdim n_point t Jc) dm Dd regen in
    forall mmx col_major msc n_vec s (x : mem K) ldx (y : mem K) ldy (xf : Z -> Z -> K),
    1 <= mmx -> 0 <= n_vec -> (forall b, mm_sched_ok h (msc b)) -> state_ok h s ->
    (forall j v, 0 <= j < kdim * n_point -> 0 <= v < n_vec -> ld x (mat_cell col_major ldx j v) = Some (xf j v)) ->
    mat_fits col_major (kdim * n_point) n_vec ldy (zlen y) ->
    exists s' y', matmul h getB getD bm dm mmx col_major msc n_vec s x ldx y ldy = Some (s', y') /\ state_ok h s' /\
      zlen y' = zlen y /\
      (forall k, (forall i v, 0 <= i < kdim * n_point -> 0 <= v < n_vec -> k <> mat_cell col_major ldy i v) -> getz y' k = getz y k) /\
      forall v vsc sv (xv yv : mem K), 0 <= v < n_vec -> schedule_ok h vsc -> state_ok h sv ->
        (forall j, 0 <= j < kdim * n_point -> ld xv j = Some (xf j v)) -> kdim * n_point <= zlen yv ->
        exists sv' yv', matvec h vsc sv xv yv = Some (sv', yv') /\
          forall i, 0 <= i < kdim * n_point -> exists w, ld yv' i = Some w /\ ld y' (mat_cell col_major ldy i v) = Some w.
Proof.
  intros F K kern fuel rnd pt_dim xpt_dim kdim n_point n_thread coord0 mlp mls rbox alpha depth t ps U J Jc js blkB blkD0 blkD1 sc h bm dm BI EB regen Bd Dd SB SD getB getD mmx col msc n_vec s x ldx y ldy xf Hm Hv Hsc Hst.
  destruct (build_all kern _ _ _ _ _ _ _ _ _ _ _ _ _ _ _ _ _ _ _ _ _ _ _ BI) as (h' & bm' & dm' & E' & R & _ & _ & (_ & _ & _ & _ & E5 & _) & _).
  assert (X : (h', bm', dm') = (h, bm, dm)) by congruence. injection X as -> -> ->. rewrite <- E5. intros Hx Hy.
  destruct (matmul_top kern _ _ _ _ _ _ _ _ _ _ _ _ _ _ _ _ _ _ _ _ _ _ _ BI h bm dm EB regen Bd Dd mmx col msc n_vec s x ldx y ldy xf SB SD Hm Hv Hsc Hst Hx Hy) as (s' & y' & E & S' & Z' & V' & O').
  exists s', y'. split; [exact E|]. split; [exact S'|]. split; [exact Z'|]. split; [exact O'|].
  intros v vsc sv xv yv Hvv Hvs Hvst Hxv Hyv. destruct (matvec_spec h R vsc sv xv yv (fun j => xf j v) Hvs Hvst Hxv Hyv) as (sv' & yv' & Ev & _ & _ & Gv & _).
  exists sv', yv'. split; [exact Ev|]. intros i Hi. exists (prodv h xf i v). split; [apply Gv; auto|apply V'; auto].
Qed.
Print Assumptions C29_matmul_is_matvec_of_each_column.

(** With a symmetric kernel and bases that interpolate it exactly, the columns
    are the kernel matrix of the user's points, in the user's order, times the
    columns of the input. *)
Theorem C29_exact_interpolation_gives_the_kernel_product :
  forall (F : num) (K : cring) (kern : list F -> list F -> Z -> Z -> K) fuel rnd pt_dim xpt_dim kdim n_point n_thread (coord0 : mem F)
    max_leaf_points max_leaf_size root_enbox alpha depth t ps U J Jc js blkB blkD0 blkD1 sc h bm dm,
    let KM := kernel_matrix kern kdim (coords_of xpt_dim n_point coord0) in
    build_inputs fuel rnd pt_dim xpt_dim kdim n_point n_thread coord0 max_leaf_points max_leaf_size root_enbox alpha depth t ps U J Jc js blkB blkD0 blkD1 sc ->
    h2_build kern pt_dim xpt_dim kdim n_point n_thread t ps U J Jc blkB blkD0 blkD1 sc = Some (h, bm, dm) ->
    (forall p q a b, kern p q a b = kern q p b a) -> interpolates h js KM ->
    forall regen Bd Dd, storage_for regen (h_Bdata h) Bd -> storage_for regen (h_Ddata h) Dd ->
    forall mmx col_major msc n_vec s (x : mem K) ldx (y : mem K) ldy (xf : Z -> Z -> K),
    1 <= mmx -> 0 <= n_vec -> (forall b, mm_sched_ok h (msc b)) -> state_ok h s ->
    (forall j v, 0 <= j < kdim * n_point -> 0 <= v < n_vec -> ld x (mat_cell col_major ldx j v) = Some (xf j v)) ->
    mat_fits col_major (kdim * n_point) n_vec ldy (zlen y) ->
    exists s' y', matmul h (get_Bij kern (ctx_of pt_dim xpt_dim kdim n_point t Jc) bm Bd regen) (get_Dij kern (ctx_of pt_dim xpt_dim kdim n_point t Jc) dm Dd regen)
        bm dm mmx col_major msc n_vec s x ldx y ldy = Some (s', y') /\
      forall i v, 0 <= i < kdim * n_point -> 0 <= v < n_vec ->
        ld y' (mat_cell col_major ldy i v) = Some (rsum 0 (kdim * n_point) (fun j => cmul (KM i j) (xf j v))).
Proof.
  intros F K kern fuel rnd pt_dim xpt_dim kdim n_point n_thread coord0 mlp mls rbox alpha depth t ps U J Jc js blkB blkD0 blkD1 sc h bm dm KM BI EB Sym HI regen Bd Dd SB SD mmx col msc n_vec s x ldx y ldy xf Hm Hv Hsc Hst Hx Hy.
  destruct (C29_matmul_is_matvec_of_each_column _ _ kern _ _ _ _ _ _ _ _ _ _ _ _ _ _ _ _ _ _ _ _ _ _ _ h bm dm BI EB regen Bd Dd SB SD mmx col msc n_vec s x ldx y ldy xf Hm Hv Hsc Hst Hx Hy) as (s' & y' & E & _ & _ & _ & G).
  exists s', y'. split; [exact E|]. intros i v Hi Hvv.
  destruct (build_all kern _ _ _ _ _ _ _ _ _ _ _ _ _ _ _ _ _ _ _ _ _ _ _ BI) as (h' & bm' & dm' & E' & R & _ & _ & (_ & _ & _ & _ & E5 & _) & _).
  assert (X : (h', bm', dm') = (h, bm, dm)) by congruence. injection X as -> -> ->.
  assert (Hk : 0 <= kdim * n_point) by lia.
  destruct (ro_dims _ R) as (_ & _ & Dt & _). destruct (schedule_exists h Dt) as (vsc & Hvs).
  set (xv := map (fun j => Some (xf j v)) (zrange 0 (kdim * n_point)) : mem K).
  assert (Hxv : forall j, 0 <= j < kdim * n_point -> ld xv j = Some (xf j v)).
  { intros j Hj. unfold ld, xv. rewrite getz_map, getz_zrange by lia. reflexivity. }
  destruct (G v vsc s xv (alloc (kdim * n_point)) Hvv Hvs Hst Hxv ltac:(rewrite zlen_alloc; lia)) as (sv' & yv' & Ev & Gv).
  destruct (C34_exact_interpolation_gives_the_kernel_product _ _ kern _ _ _ _ _ _ _ _ _ _ _ _ _ _ _ _ _ _ _ _ _ _ _ h bm dm BI EB Sym HI vsc s xv (alloc (kdim * n_point)) (fun j => xf j v) Hvs Hst Hxv ltac:(rewrite zlen_alloc; lia)) as (sv2 & yv2 & Ev2 & Gv2).
  rewrite Ev in Ev2. injection Ev2 as <- <-. destruct (Gv i Hi) as (w & W1 & W2). rewrite W2. rewrite <- W1. apply Gv2; auto.
Qed.
Print Assumptions C29_exact_interpolation_gives_the_kernel_product.

(** ** C30 for mixed calls: after any sequence of matvec and matmul calls, in any
    layouts, both return what they return on a fresh handle. *)
Theorem C30_independent_of_mixed_history :
  forall (F : num) (K : cring) (kern : list F -> list F -> Z -> Z -> K) fuel rnd pt_dim xpt_dim kdim n_point n_thread (coord0 : mem F)
    max_leaf_points max_leaf_size root_enbox alpha depth t ps U J Jc js blkB blkD0 blkD1 sc h bm dm,
    build_inputs fuel rnd pt_dim xpt_dim kdim n_point n_thread coord0 max_leaf_points max_leaf_size root_enbox alpha depth t ps U J Jc js blkB blkD0 blkD1 sc ->
    h2_build kern pt_dim xpt_dim kdim n_point n_thread t ps U J Jc blkB blkD0 blkD1 sc = Some (h, bm, dm) ->
    forall regen Bd Dd mmx, storage_for regen (h_Bdata h) Bd -> storage_for regen (h_Ddata h) Dd -> 1 <= mmx ->
    let reached := after_any_calls kern pt_dim xpt_dim kdim n_point t Jc h bm dm regen Bd Dd mmx in
    let getB := get_Bij kern (ctx_of pt_dim xpt_dim kdim n_point t Jc) bm Bd regen in
    let getD := get_Dij kern (ctx_of pt_dim xpt_dim kdim n_point t Jc) dm Dd regen in
    forall s1 s2, reached s1 -> reached s2 ->
    (forall sc1 sc2 (x y1 y2 : mem K), schedule_ok h sc1 -> schedule_ok h sc2 ->
      (forall j, 0 <= j < h_kms h -> exists v, ld x j = Some v) -> h_kms h <= zlen y1 -> h_kms h <= zlen y2 ->
      exists s1' y1' s2' y2', matvec h sc1 s1 x y1 = Some (s1', y1') /\ matvec h sc2 s2 x y2 = Some (s2', y2') /\
        forall i, 0 <= i < h_kms h -> exists v, ld y1' i = Some v /\ ld y2' i = Some v) /\
    (forall col sc1 sc2 n_vec (x : mem K) ldx (y1 y2 : mem K) ldy, (forall b, mm_sched_ok h (sc1 b)) -> (forall b, mm_sched_ok h (sc2 b)) -> 0 <= n_vec ->
      (forall j v, 0 <= j < h_kms h -> 0 <= v < n_vec -> exists w, ld x (mat_cell col ldx j v) = Some w) ->
      mat_fits col (h_kms h) n_vec ldy (zlen y1) -> mat_fits col (h_kms h) n_vec ldy (zlen y2) ->
      exists s1' y1' s2' y2', matmul h getB getD bm dm mmx col sc1 n_vec s1 x ldx y1 ldy = Some (s1', y1') /\
        matmul h getB getD bm dm mmx col sc2 n_vec s2 x ldx y2 ldy = Some (s2', y2') /\
        forall i v, 0 <= i < h_kms h -> 0 <= v < n_vec -> exists w, ld y1' (mat_cell col ldy i v) = Some w /\ ld y2' (mat_cell col ldy i v) = Some w).
Proof.
  intros F K kern fuel rnd pt_dim xpt_dim kdim n_point n_thread coord0 mlp mls rbox alpha depth t ps U J Jc js blkB blkD0 blkD1 sc h bm dm BI EB regen Bd Dd mmx SB SD Hm reached getB getD s1 s2 A1 A2.
  pose proof (after_any_calls_ok kern _ _ _ _ _ _ _ _ _ _ _ _ _ _ _ _ _ _ _ _ _ _ _ BI h bm dm EB regen Bd Dd mmx s1 SB SD Hm A1) as O1.
  pose proof (after_any_calls_ok kern _ _ _ _ _ _ _ _ _ _ _ _ _ _ _ _ _ _ _ _ _ _ _ BI h bm dm EB regen Bd Dd mmx s2 SB SD Hm A2) as O2.
  destruct (build_all kern _ _ _ _ _ _ _ _ _ _ _ _ _ _ _ _ _ _ _ _ _ _ _ BI) as (h' & bm' & dm' & E' & R & _).
  assert (X : (h', bm', dm') = (h, bm, dm)) by congruence. injection X as -> -> ->. split.
  - intros sc1 sc2 x y1 y2 H1 H2 Hx Y1 Y2.
    assert (Hx' : forall j, 0 <= j < h_kms h -> ld x j = Some (val c0 (ld x j))) by (intros j Hj; destruct (Hx j Hj) as (v & ->); reflexivity).
    destruct (matvec_spec h R sc1 s1 x y1 _ H1 O1 Hx' Y1) as (s1' & y1' & E1 & _ & _ & G1 & _).
    destruct (matvec_spec h R sc2 s2 x y2 _ H2 O2 Hx' Y2) as (s2' & y2' & E2 & _ & _ & G2 & _).
    exists s1', y1', s2', y2'. split; [auto|]. split; [auto|]. intros i Hi. eexists. split; [apply G1; auto|]. exact (G2 i Hi).
  - intros col sc1 sc2 n_vec x ldx y1 y2 ldy H1 H2 Hv Hx Y1 Y2.
    assert (Hx' : forall j v, 0 <= j < h_kms h -> 0 <= v < n_vec -> ld x (mat_cell col ldx j v) = Some (val c0 (ld x (mat_cell col ldx j v)))) by (intros j v Hj Hv'; destruct (Hx j v Hj Hv') as (w & ->); reflexivity).
    destruct (matmul_top kern _ _ _ _ _ _ _ _ _ _ _ _ _ _ _ _ _ _ _ _ _ _ _ BI h bm dm EB regen Bd Dd mmx col sc1 n_vec s1 x ldx y1 ldy _ SB SD Hm Hv H1 O1 Hx' Y1) as (s1' & y1' & E1 & _ & _ & G1 & _).
    destruct (matmul_top kern _ _ _ _ _ _ _ _ _ _ _ _ _ _ _ _ _ _ _ _ _ _ _ BI h bm dm EB regen Bd Dd mmx col sc2 n_vec s2 x ldx y2 ldy _ SB SD Hm Hv H2 O2 Hx' Y2) as (s2' & y2' & E2 & _ & _ & G2 & _).
    exists s1', y1', s2', y2'. split; [exact E1|]. split; [exact E2|]. intros i v Hi Hvv. eexists. split; [apply G1; auto|]. exact (G2 i v Hi Hvv).
Qed.
Print Assumptions C30_independent_of_mixed_history.

(** ** The hypotheses can be met: the handle of Ex_Build, three columns in
    batches of two, column-major with padding, evaluated just in time with no
    stored blocks at all. *)
Definition msched5 : mm_sched := {|
  mc_fwd := lev5; mc_mid := [(1, 0); (0, 1); (0, 2); (1, 3); (1, 5); (0, 4); (0, 6); (1, 7); (0, 8)]; mc_bwd := lev5;
  mc_den := [(0, 0); (1, 1); (0, 2); (1, 3); (1, 5); (0, 4); (0, 6); (1, 7); (0, 8)] |}.
Lemma msched5_ok : mm_sched_ok h5 msched5.
Proof.
  constructor; try (apply omp_for_check; reflexivity);
    intros i n Hi En; cbn [h_minlevel h_maxlevel h5] in Hi; (assert (i = 2 \/ i = 3) as [-> | ->] by lia); vm_compute in En; injection En as <-; apply omp_for_check; reflexivity.
Qed.
Definition x5m : mem Zring := map Some (map (fun k => k * k - 7) (zrange 0 30)).
Lemma built5_parts : h2_build kern5 1 1 2 5 2 tree5b ps5 U5 J5 Jc5 (iv1 []) (iv1 []) (iv1 []) bsched5 = Some (h5, snd (fst built5), snd built5).
Proof. rewrite built5_eq. reflexivity. Qed.
Lemma x5m_val k : 0 <= k < 30 -> ld x5m k = Some (k * k - 7 : Zring).
Proof. intros Hk. unfold ld, x5m. rewrite !getz_map, getz_zrange by lia. cbn. f_equal; f_equal; lia. Qed.
Example C29_example : exists s' y', matmul h5 (get_Bij kern5 (ctx_of 1 1 2 5 tree5b Jc5) (snd (fst built5)) [] true) (get_Dij kern5 (ctx_of 1 1 2 5 tree5b Jc5) (snd built5) [] true)
    (snd (fst built5)) (snd built5) 2 true (fun _ => msched5) 3 fresh5b x5m 10 (alloc 34) 12 = Some (s', y') /\
  forall i v, 0 <= i < 10 -> 0 <= v < 3 -> ld y' (v * 12 + i) = Some (rsum 0 10 (fun j => @cmul Zring (KM5b i j) ((v * 10 + j) * (v * 10 + j) - 7))).
Proof.
  apply (C29_exact_interpolation_gives_the_kernel_product _ _ kern5 _ _ _ _ _ _ _ _ _ _ _ _ _ _ _ _ _ _ _ _ _ _ _ _ _ _ inputs5 built5_parts kern5_sym interp5 true [] [] (or_introl eq_refl) (or_introl eq_refl)
    2 true (fun _ => msched5) 3 fresh5b x5m 10 (alloc 34) 12 (fun j v => ((v * 10 + j) * (v * 10 + j) - 7 : Zring)));
  [lia|lia|intros _; exact msched5_ok|exact fresh5b_ok| |].
  - intros j v Hj Hv. unfold mat_cell. apply x5m_val. lia.
  - unfold mat_fits. rewrite zlen_alloc; lia.
Qed.
