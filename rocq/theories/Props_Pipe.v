(** C38: the whole way from the points to the product, with its error. *)
From Coq Require Import ZArith QArith List Lia Bool Permutation Reals Qreals Lra.
From Verif Require Import Base Mem Num CRing FNum Conc Model_Utils Spec_Utils Proof_Utils Model_Dense Spec_Dense Model_Partition Spec_Tree Spec_Partition
  Model_Pairs Spec_Pairs Proof_PairsTop Model_Matvec Spec_Matvec Proof_MvTop Model_Build Spec_Build Proof_Build Proof_BuildTop Proof_BuildUse
  Model_ID Spec_ID Proof_IDMath Model_UJ Spec_UJ Props_UJ Spec_Approx Proof_Approx Proof_Sched Proof_Pipe Props_Pairs Ex_Matvec Ex_Build Ex_UJ.
Import ListNotations.
Open Scope Z_scope.

(** If every node's basis reproduces the far columns up to [eps] and the rows of
    the expanded bases sum to at most [lam], every component of the product errs
    by at most eps (1 + L lam) (1 + lam) times the sum of |x|, L being the number of
    levels between the cut and the deepest leaf. *)
Theorem C38_product_error :
  forall (F : num) (h : h2rep F Rring) js (KM : Z -> Z -> R) eps lam sc s (x y : mem R) (xf : Z -> R),
    rep_ok h -> covered_once h -> @blocks_are_kernel F Rring h js KM -> (forall i j, KM i j = KM j i) ->
    (forall i c, 0 <= i < h_nnode h -> h_minlevel h <= level h i -> 0 <= c < rank h i -> inside h i (skel_row h js i c) = true) ->
    interpolates_up_to h js KM eps -> row_sums_below h lam -> (0 <= eps)%R -> (1 <= lam)%R ->
    schedule_ok h sc -> @state_ok F Rring h s -> (forall j, 0 <= j < h_kms h -> ld x j = Some (xf j)) -> h_kms h <= zlen y ->
    exists s' y', @matvec F Rring h sc s x y = Some (s', y') /\
      forall i, 0 <= i < h_kms h -> exists v, ld y' i = Some v /\
        (Rabs (v - Rsum 0 (h_kms h) (fun j => KM i j * xf j))
         <= eps * (1 + IZR (h_maxlevel h - h_minlevel h) * lam) * (1 + lam) * Rsum 0 (h_kms h) (fun j => Rabs (xf j)))%R.
Proof.
  intros F h js KM eps lam sc s x y xf R_ok Cov BK Sym Own HI Hl He Hl1 Hs Hst Hx Hy.
  exact (product_err h R_ok js KM eps lam Sym HI BK Own Hl He Hl1 sc s x y xf Cov Hs Hst Hx Hy).
Qed.
Print Assumptions C38_product_error.

(** The whole way, in exact arithmetic: partition, pairs, bases from proxy
    points, blocks, product.  For every point set, every symmetric kernel and
    every proxy points that see all points, every phase returns whatever the
    schedules, and the product is the kernel matrix of the user's points, in the
    user's order, times the vector, up to: tolerance T, times the norm W of the
    strengths by which the proxy points reproduce far sources, times the
    amplification by the nested bases (row sums lam).  (Blocks of more than one
    row per point: if the construction of the bases returns.) *)
Theorem C38_points_to_product :
  forall (F : num) (kern : list F -> list F -> Z -> Z -> R) fuel rnd pt_dim xpt_dim kdim n_point n_thread (coord0 : mem F)
    max_leaf_points max_leaf_size root_enbox alpha depth t ps pp dbl stp n_thread' tb evs,
    let c := @UCtx F Rnum pt_dim xpt_dim kdim n_point (r_coord t) (r_arrays t) pp dbl stp in
    let KM := @kernel_matrix F Rring kern kdim (coords_of xpt_dim n_point coord0) : Z -> Z -> R in
    1 <= kdim -> 1 <= n_thread -> (forall p q a b, kern p q a b = kern q p b a) ->
    points_ok pt_dim xpt_dim n_point coord0 root_enbox ->
    build_tree fuel rnd pt_dim xpt_dim n_point coord0 max_leaf_points max_leaf_size root_enbox = Some (Some t) ->
    2 * r_n_node t <= Z.of_nat depth ->
    calc_reduced_adm_pairs depth pt_dim alpha 0 (r_n_node t) (r_max_level t) (r_arrays t) = Some ps ->
    ps_adm ps <> [] ->
    (* proxy points for every compressed level, which see every point *)
    (forall l, ps_min_level ps <= l <= r_max_level t -> exists m, getz pp l = Some m /\ 0 <= dm_ncol m /\
       forall d j, 0 <= d < xpt_dim -> 0 <= j < dm_ncol m -> exists v, ld (dm_data m) (d * dm_ncol m + j) = Some v) ->
    visible kern c (r_n_node t) (ps_min_level ps) ->
    uj_team c (r_n_node t) (ps_min_level ps) n_thread' tb evs ->
    (kdim = 1 \/ @h2_UJ_proxy F Rnum kern c (r_n_node t) tb evs <> None) ->
    exists U J Jc, @h2_UJ_proxy F Rnum kern c (r_n_node t) tb evs = Some (U, J, Jc) /\
    forall blkB blkD0 blkD1 sc, (exists l, iv_holds blkB l) -> (exists l, iv_holds blkD0 l) -> (exists l, iv_holds blkD1 l) ->
      build_sched_ok kdim n_thread t ps J blkB blkD0 blkD1 sc ->
    exists h bm dm, @h2_build F Rring kern pt_dim xpt_dim kdim n_point n_thread t ps U J Jc blkB blkD0 blkD1 sc = Some (h, bm, dm) /\
      rep_ok h /\ h_kms h = kdim * n_point /\
    forall msc s (x y : mem R) (xf : Z -> R), schedule_ok h msc -> @state_ok F Rring h s ->
      (forall j, 0 <= j < kdim * n_point -> ld x j = Some (xf j)) -> kdim * n_point <= zlen y ->
    exists s' y', @matvec F Rring h msc s x y = Some (s', y') /\
    forall T W lam, (0 <= T)%R -> (0 <= W)%R -> (1 <= lam)%R ->
      tolerance_below kern c (r_n_node t) (ps_min_level ps) T -> proxies_reproduce_far_field h kern c KM W -> row_sums_below h lam ->
    forall i, 0 <= i < kdim * n_point -> exists v, ld y' i = Some v /\
      (Rabs (v - Rsum 0 (kdim * n_point) (fun j => KM i j * xf j))
       <= T * W * (1 + IZR (r_max_level t - ps_min_level ps) * lam) * (1 + lam) * Rsum 0 (kdim * n_point) (fun j => Rabs (xf j)))%R.
Proof.
  intros F kern fuel rnd pt_dim xpt_dim kdim n_point n_thread coord0 mlp mls rbox alpha depth t ps pp dbl stp n_thread' tb evs c KM Hk Hth Sym Hok Ht Hdep Hp Hs Hpp Vis Team Hret.
  pose proof (pipe_input fuel rnd pt_dim xpt_dim kdim n_point coord0 mlp mls rbox alpha depth t ps pp dbl stp Hk Hok Ht Hdep Hp Hs Hpp) as UI. fold c in UI.
  destruct (C36_every_basis_meets_the_tolerance F kern c (r_n_node t) (r_max_level t) (r_n_leaf t) (ps_min_level ps) n_thread' tb evs UI Team Vis Hret) as (U & J & Jc & js & E1 & SK & _ & BO).
  exists U, J, Jc. split; [exact E1|]. intros blkB blkD0 blkD1 sc HB0 HB1 HB2 Hsc.
  assert (BI : @build_inputs F Rring fuel rnd pt_dim xpt_dim kdim n_point n_thread coord0 mlp mls rbox alpha depth t ps U J Jc js blkB blkD0 blkD1 sc) by (constructor; auto).
  destruct (build_all (K := Rring) kern _ _ _ _ _ _ _ _ _ _ _ _ _ _ _ _ _ _ _ _ _ _ _ BI) as (h & bm & dm & E2 & R_ok & Cov & BK & (Q1 & Q2 & Q3 & Q4 & Q5 & Q6 & Q7 & Q8 & Q9 & Q10) & _ & _ & _ & Own & _).
  exists h, bm, dm. split; [exact E2|]. split; [exact R_ok|]. split; [exact Q5|]. destruct (build_fields (K := Rring) kern _ _ _ _ _ _ _ _ _ _ _ _ _ _ _ _ _ E2) as (P1 & P2 & P3).
  intros msc s x y xf Hsch Hst Hx Hy. rewrite <- Q5 in *.
  destruct (matvec_spec h R_ok msc s x y xf Hsch Hst Hx Hy) as (s' & y' & E3 & _). exists s', y'. split; [exact E3|].
  intros T W lam T0 W0 L1 HT HW HL i Hi.
  rewrite <- Q2 in UI, SK, HT. rewrite <- Q7 in UI, SK, HT, BO. rewrite <- Q8 in SK, BO.
  assert (HI : interpolates_up_to h js KM (T * W)) by (apply (pipe_interp kern c h R_ok (r_max_level t) (r_n_leaf t) js J Jc Q1 Q4 P1 UI SK BO KM T W HT HW)).
  assert (SymK : forall i j, KM i j = KM j i) by (intros; unfold KM, kernel_matrix; apply Sym).
  destruct (C38_product_error F h js KM (T * W) lam msc s x y xf R_ok Cov BK SymK Own HI HL ltac:(apply Rmult_le_pos; auto) L1 Hsch Hst Hx Hy) as (s2 & y2 & E4 & G).
  rewrite E3 in E4. injection E4 as <- <-. rewrite <- P3, <- Q7. apply G; auto.
Qed.
Print Assumptions C38_points_to_product.

(** All hypotheses can be met together: the five points of Ex_Build.v, a constant
    kernel, a relative tolerance of 1/2, two threads; T = 2 and W = 1. *)
Definition c5R : uctx Qred_num Rnum := ctx5 Rnum (@QR_REL_NRM Rnum (1 / 2)%R).
Definition one5 (_ _ : list Qred_num) (_ _ : Z) : R := 1%R.
Lemma m5 i : 0 <= i < 9 -> 2 <= lev (r_arrays tree5b) i -> n_proxy pp5 (lev (r_arrays tree5b) i) * 1 = 2.
Proof. intros Hi Hl. cases_below 9%nat Hi; try reflexivity; exfalso; apply Hl; reflexivity. Qed.

Example C38_example : exists U J Jc sc h bm dm s s' y' lam,
  @h2_UJ_proxy Qred_num Rnum one5 c5R 9 (tb5 Rnum) evs5 = Some (U, J, Jc) /\
  @h2_build Qred_num Rring one5 1 1 1 5 2 tree5b ps5 U J Jc (iv1 []) (iv1 []) (iv1 []) sc = Some (h, bm, dm) /\
  (exists msc, @matvec Qred_num Rring h msc s (map (fun i => Some (IZR i)) (zrange 0 5)) (alloc 5) = Some (s', y')) /\ (1 <= lam)%R /\ row_sums_below h lam /\
  forall i, 0 <= i < 5 -> exists v, ld y' i = Some v /\ (Rabs (v - 10) <= 2 * 1 * (1 + IZR (3 - 2) * lam) * (1 + lam) * 10)%R.
Proof.
  destruct C36_example as (_ & Team & Vis).
  assert (PP : forall l, 2 <= l <= 3 -> exists m, getz pp5 l = Some m /\ 0 <= dm_ncol m /\
       forall d j, 0 <= d < 1 -> 0 <= j < dm_ncol m -> exists v, ld (dm_data m) (d * dm_ncol m + j) = Some v) by (apply (ui_pp _ _ _ _ _ (input5 Rnum (@QR_REL_NRM Rnum (1 / 2)%R)))).
  destruct (C38_points_to_product Qred_num one5 6 (fun _ => (1#3)%Q) 1 1 1 5 2 pts5b 1 (0%Q : Qred_num) None ALPHA_H2 18 tree5b ps5 pp5 true (@QR_REL_NRM Rnum (1 / 2)%R) 2 (tb5 Rnum) evs5
    ltac:(lia) ltac:(lia) (fun _ _ _ _ => eq_refl) pts5b_ok tree5b_built ltac:(vm_compute; discriminate) pairs5b ltac:(discriminate) PP Vis Team (or_introl eq_refl)) as (U & J & Jc & E1 & G).
  assert (HI : exists l, iv_holds (iv1 []) l) by (exists []; split; [reflexivity|]; split; [reflexivity|]; split; [vm_compute; discriminate|]; intros k Hk; zlia).
  destruct (build_sched_exists 1 2 tree5b ps5 J (iv1 []) (iv1 []) (iv1 [])) as (sc & Hsc).
  destruct (G _ _ _ sc HI HI HI Hsc) as (h & bm & dm & E2 & R_ok & Ek & G2). clear G. change (1 * 5) with 5 in *.
  destruct (build_fields (K := Rring) one5 _ _ _ _ _ _ _ _ _ _ _ _ _ _ _ _ _ E2) as (P1 & P2 & P3).
  assert (Ht : 1 <= h_nthread h) by (destruct (ro_dims h R_ok) as (_ & _ & Q & _); exact Q).
  destruct (schedule_exists h Ht) as (msc & Hm). destruct (state_exists h ltac:(lia) ltac:(lia)) as (s & Hs).
  destruct (G2 msc s (map (fun i => Some (IZR i)) (zrange 0 5)) (alloc 5) (fun i => IZR i) Hm Hs) as (s' & y' & E3 & G3).
  { intros j Hj. cases_below 5%nat Hj; reflexivity. }
  { vm_compute; discriminate. }
  destruct (row_sums_exist h R_ok) as (lam & L1 & HL).
  exists U, J, Jc, sc, h, bm, dm, s, s', y', lam. do 2 (split; [assumption|]). split; [exists msc; exact E3|]. do 2 (split; [assumption|]).
  assert (HT : tolerance_below one5 c5R (r_n_node tree5b) (ps_min_level ps5) 2%R).
  { split; [exact I|]. intros i p Hi Hl Ho m. destruct Vis as (_ & Vis). destruct (Vis i p Hi Hl Ho) as (_ & V). eapply Rle_trans; [exact V|]. clear V.
    change (n_proxy (c_pp _) _ * c_kdim _) with (n_proxy pp5 (lev (r_arrays tree5b) i) * 1). rewrite (m5 i Hi Hl).
    unfold grp_norm, proxy_block, Rsum. change (zrange 0 (c_kdim _)) with [0]. change (zrange 0 2) with [0; 1]. cbn [map fold_right].
    apply Rle_trans with (sqrt (2 * 2)); [apply sqrt_le_1_alt; lra|]. rewrite sqrt_square; lra. }
  assert (HW : proxies_reproduce_far_field h one5 c5R (@kernel_matrix Qred_num Rring one5 1 (coords_of 1 5 pts5b)) 1%R).
  { intros i q Hi Hl _ m. exists (fun _ => (1 / 2)%R). 
    assert (Em : m = 2).
    { unfold m. destruct (build_fields_tree (K := Rring) one5 _ _ _ _ _ _ _ _ _ _ _ _ _ _ _ _ _ E2) as (T1 & T2 & T3). unfold level in *. rewrite T3 in *. rewrite T2 in Hl. rewrite T1 in Hi. apply (m5 i Hi Hl). }
    rewrite Em. split.
    - unfold Rsum. change (zrange 0 2) with [0; 1]. cbn [map fold_right]. apply Rle_trans with (sqrt (1 * 1)); [apply sqrt_le_1_alt; lra|]. rewrite sqrt_square; lra.
    - intros p t _ _. unfold KMp, kernel_matrix, proxy_block, one5, Rsum. change (zrange 0 2) with [0; 1]. cbn [map fold_right]. lra. }
  assert (S10 : Rsum 0 5 (fun j => 1 * IZR j)%R = 10%R) by (unfold Rsum; change (zrange 0 5) with [0;1;2;3;4]; cbn [map fold_right]; lra).
  assert (A10 : Rsum 0 5 (fun j => Rabs (IZR j)) = 10%R) by (unfold Rsum; change (zrange 0 5) with [0;1;2;3;4]; cbn [map fold_right]; rewrite !Rabs_pos_eq by lra; lra).
  intros i Hi. destruct (G3 2%R 1%R lam ltac:(lra) ltac:(lra) L1 HT HW HL i Hi) as (v & Ev & B). exists v. split; [exact Ev|].
  change (@kernel_matrix Qred_num Rring one5 1 (coords_of 1 5 pts5b)) with (fun _ _ : Z => 1%R) in B. cbv beta in B.
  rewrite S10, A10 in B. exact B.
Qed.
