(** Bases and skeletons from proxy points: C35, C36, C37; C24 again. *)
From Coq Require Import ZArith QArith List Lia Bool Permutation Reals Qreals Lra FunctionalExtensionality.
From Verif Require Import Base Mem Num CRing FNum Conc Model_Utils Spec_Utils Proof_Utils Model_Dense Spec_Dense Proof_Dense Model_Partition Spec_Tree Spec_Pairs Spec_Matvec
  Model_Build Spec_Build Proof_Build Model_ID Spec_ID Proof_IDQR Proof_IDQRk Proof_IDMath Proof_IDFinal Proof_IDResid Props_ID Model_UJ Spec_UJ Proof_UJ Proof_UJNode Proof_UJSweep Proof_UJReal Proof_UJDet Ex_Matvec Ex_Build Ex_UJ.
Import ListNotations.
Open Scope Z_scope.

(** C24: the decomposition is a function of the matrix alone: not of the
    schedules of the parallel loops, nor of the buffers. *)
Theorem C24_independent_of_schedule : forall (F : fnum) dbl (stp : @stop F) kdim npt n m want_U a ord0 ord A J l ord0' ord' A' J' l',
  div_total F -> 1 <= kdim -> 1 <= n -> n = npt * kdim ->
  dm_holds A n m a -> (1 < kdim -> n * dm_ld A <= zlen (dm_data A)) -> iv_holds J l -> schedules kdim n m ord0 ord ->
  dm_holds A' n m a -> (1 < kdim -> n * dm_ld A' <= zlen (dm_data A')) -> iv_holds J' l' -> schedules kdim n m ord0' ord' ->
  exists B K U B' K' U' sk, id_compress dbl stp kdim want_U ord0 ord A J = Some (B, K, if want_U then Some U else None) /\
    id_compress dbl stp kdim want_U ord0' ord' A' J' = Some (B', K', if want_U then Some U' else None) /\
    iv_holds K sk /\ iv_holds K' sk /\ same_mat U U'.
Proof.
  intros F dbl stp kdim npt n m want_U a ord0 ord A J l ord0' ord' A' J' l' Hd Hk Hn En HA Hb HJ Ho HA' Hb' HJ' Ho'.
  assert (Hnpt : 0 <= npt) by (apply (Z.mul_le_mono_pos_r _ _ kdim); lia). assert (Hm : 0 <= m) by (destruct HA as (_ & _ & _ & (_ & X & _) & _); auto).
  destruct (id_compress_spec dbl stp kdim npt n m want_U ord0 ord A J l a Hk Hn En HA Hb HJ Ho) as [(B & K & U & sk & u & E & H1 & H2 & H3 & H4 & H5)|(_ & X & _)]; [intros M p r _ k b _; apply Hd| |contradiction].
  destruct (id_compress_spec dbl stp kdim npt n m want_U ord0' ord' A' J' l' a Hk Hn En HA' Hb' HJ' Ho') as [(B' & K' & U' & sk' & u' & E' & H1' & H2' & H3' & H4' & H5')|(_ & X & _)]; [intros M p r _ k b _; apply Hd| |contradiction].
  destruct (id_out_det dbl stp kdim npt m n a sk u sk' u' Hk Hm Hnpt En H2 H2' H5 H5') as [<- Hu].
  exists B, K, U, B', K', U', sk. split; auto. split; auto. split; auto. split; auto.
  destruct H4 as (_ & R1 & C1 & _ & G1). destruct H4' as (_ & R1' & C1' & _ & G1'). unfold same_mat. rewrite R1, R1', C1, C1'. split; auto. split; auto. intros r q Hr Hq. rewrite G1, G1' by auto. f_equal. auto.
Qed.
Print Assumptions C24_independent_of_schedule.

(** C35: for every cluster tree, every set of proxy points, every kernel, every
    stopping rule, every arithmetic with total division, every team and every
    order in which its threads get and finish the nodes, the construction
    returns and hands on, for every node below the cut, a nonempty skeleton of
    the node's own points with their coordinates and a basis that interpolates
    the node's points (leaf) or its children's skeletons from it - unless some
    node is left without any skeleton point. *)
Theorem C35_bases_for_every_schedule :
  forall (F : num) (E : fnum) (kern : list F -> list F -> Z -> Z -> E) (c : uctx F E) n_node max_level n_leaf minlevel n_thread tb evs,
  div_total E -> uj_input c n_node max_level n_leaf minlevel -> uj_team c n_node minlevel n_thread tb evs ->
  (exists U J Jc js, h2_UJ_proxy kern c n_node tb evs = Some (U, J, Jc) /\
     skeletons_ok (c_ptdim c) (c_dim c) (c_kdim c) (c_npoint c) n_node minlevel (c_coord c) (c_t c) U J Jc js /\
     (forall i, 0 <= i < n_node -> lev (c_t c) i < minlevel -> js i = []) /\
     forall i V, getz U i = Some V -> minlevel <= lev (c_t c) i ->
       basis_of c js i V (fun i ps sk u => zlen sk <= Z.min (zlen ps) (n_proxy (c_pp c) (lev (c_t c) i)) /\ rank_limit (c_stop c) (zlen sk * c_kdim c))) \/
  empty_skeleton kern c n_node tb evs.
Proof.
  intros F E kern c n_node max_level n_leaf minlevel n_thread tb evs Hd UI ((src & dst & Ed & Hs) & Ztb & Htb).
  destruct (queue_bottom_up c n_node max_level n_leaf minlevel n_thread UI src dst evs Ed Hs) as [Hb Hall]. assert (Hk : 1 <= c_kdim c) by apply UI.
  destruct (uj_result_ok kern c n_node max_level n_leaf minlevel n_thread UI _ False (total_delivers kern c n_node minlevel Hd Hk) evs tb Ztb Htb Hb Hall) as [(_ & [])|[(U & J & Jc & js & H)|(pre & post & s & v & i & E1 & E2 & E3 & E4 & E5 & _)]].
  - left. exists U, J, Jc, js. exact H.
  - right. exists pre, post, s, v, i. auto.
Qed.
Print Assumptions C35_bases_for_every_schedule.

(** C37: whatever the number of threads, their buffers and the order of the
    nodes, the outcome is the same: skeletons, bases and coordinates agree entry
    by entry, or in both runs some node is left without skeleton points. *)
Theorem C37_result_independent_of_schedule :
  forall (F : num) (E : fnum) (kern : list F -> list F -> Z -> Z -> E) (c : uctx F E) n_node max_level n_leaf minlevel n_thread tb evs n_thread' tb' evs',
  div_total E -> uj_input c n_node max_level n_leaf minlevel -> uj_team c n_node minlevel n_thread tb evs -> uj_team c n_node minlevel n_thread' tb' evs' ->
  (exists U J Jc U' J' Jc', h2_UJ_proxy kern c n_node tb evs = Some (U, J, Jc) /\ h2_UJ_proxy kern c n_node tb' evs' = Some (U', J', Jc') /\
     (forall i V V', getz U i = Some V -> getz U' i = Some V' -> minlevel <= lev (c_t c) i -> same_mat V V') /\
     (forall i v v', getz J i = Some v -> getz J' i = Some v' -> exists l, iv_holds v l /\ iv_holds v' l) /\
     (forall i m m', getz Jc i = Some m -> getz Jc' i = Some m' -> dm_ncol m = dm_ncol m' /\
        forall d k, 0 <= d < c_dim c -> 0 <= k < dm_ncol m -> ld (dm_data m) (d * dm_ncol m + k) = ld (dm_data m') (d * dm_ncol m' + k))) \/
  (empty_skeleton kern c n_node tb evs /\ empty_skeleton kern c n_node tb' evs').
Proof.
  intros F E kern c n_node max_level n_leaf minlevel n_thread tb evs n_thread' tb' evs' Hd UI ((src & dst & Ed & Hs) & Ztb & Htb) ((src' & dst' & Ed' & Hs') & Ztb' & Htb').
  destruct (queue_bottom_up c n_node max_level n_leaf minlevel n_thread UI src dst evs Ed Hs) as [Hb Hall]. assert (Hk : 1 <= c_kdim c) by apply UI.
  destruct (queue_bottom_up c n_node max_level n_leaf minlevel n_thread' UI src' dst' evs' Ed' Hs') as [Hb' Hall'].
  pose proof (det_delivers kern c n_node minlevel Hd Hk) as Hid. pose proof (det_Q kern c n_node max_level n_leaf minlevel UI) as HQ.
  destruct (uj_result_ok kern c n_node max_level n_leaf minlevel n_thread UI _ False Hid evs tb Ztb Htb Hb Hall) as [(_ & [])|[(U & J & Jc & js & H1 & H2 & H3 & H4)|(pre & post & s & v & i & E1 & E2 & E3 & E4 & E5 & js & E6 & E7)]];
  destruct (uj_result_ok kern c n_node max_level n_leaf minlevel n_thread' UI _ False Hid evs' tb' Ztb' Htb' Hb' Hall') as [(_ & [])|[(U' & J' & Jc' & js' & H1' & H2' & H3' & H4')|(pre' & post' & s' & v' & i' & E1' & E2' & E3' & E4' & E5' & js' & E6' & E7')]].
  - left. exists U, J, Jc, U', J', Jc'. split; auto. split; auto. pose proof (same_result c n_node max_level n_leaf minlevel UI _ HQ U J Jc js U' J' Jc' js' H2 H2' H3 H3' H4 H4') as SR.
    destruct H2 as [(Z1 & Z2 & Z3) SJ SC _ _]. destruct H2' as [(Z1' & Z2' & Z3') SJ' SC' _ _]. split; [|split].
    + intros i V V' EV EV' Hl. pose proof (getz_range _ _ _ EV). apply (SR i); auto. lia.
    + intros i v v' Ev Ev'. pose proof (getz_range _ _ _ Ev). exists (js i). split; auto. destruct (SR i ltac:(lia)) as [-> _]. auto.
    + intros i m m' Em Em'. pose proof (getz_range _ _ _ Em). destruct (SR i ltac:(lia)) as [Ej _]. destruct (SC i m Em) as [C1 C2]. destruct (SC' i m' Em') as [C1' C2']. split; [congruence|].
      intros d k Hd' Hk'. rewrite C1 in Hk'. destruct (getz_in (js i) k Hk') as [p Ep]. rewrite (C2 d k p Hd' Ep). symmetry. apply C2'; auto. now rewrite <- Ej.
  - exfalso. apply (same_empty c n_node max_level n_leaf minlevel UI _ HQ U J Jc js js' (map snd pre') i' H2 H4 E7' E3' E6').
  - exfalso. apply (same_empty c n_node max_level n_leaf minlevel UI _ HQ U' J' Jc' js' js (map snd pre) i H2' H4' E7 E3 E6).
  - right. split; [exists pre, post, s, v, i|exists pre', post', s', v', i']; auto.
Qed.
Print Assumptions C37_result_independent_of_schedule.

(** C36: in exact arithmetic, if the proxy points see every point, no node is
    left without skeleton and every node's interpolation reproduces the kernel
    block of its points against the proxy points up to the tolerance (kdim > 1:
    if the construction returns at all). *)
Theorem C36_every_basis_meets_the_tolerance :
  forall (F : num) (kern : list F -> list F -> Z -> Z -> R) (c : uctx F Rnum) n_node max_level n_leaf minlevel n_thread tb evs,
  uj_input c n_node max_level n_leaf minlevel -> uj_team c n_node minlevel n_thread tb evs -> visible kern c n_node minlevel ->
  (c_kdim c = 1 \/ @h2_UJ_proxy F Rnum kern c n_node tb evs <> None) ->
  exists U J Jc js, @h2_UJ_proxy F Rnum kern c n_node tb evs = Some (U, J, Jc) /\
     skeletons_ok (c_ptdim c) (c_dim c) (c_kdim c) (c_npoint c) n_node minlevel (c_coord c) (c_t c) U J Jc js /\
     (forall i, 0 <= i < n_node -> lev (c_t c) i < minlevel -> js i = []) /\
     forall i V, getz U i = Some V -> minlevel <= lev (c_t c) i -> basis_of c js i V (accurate kern c).
Proof.
  intros F kern c n_node max_level n_leaf minlevel n_thread tb evs UI ((src & dst & Ed & Hs) & Ztb & Htb) Vis Hret.
  destruct (queue_bottom_up c n_node max_level n_leaf minlevel n_thread UI src dst evs Ed Hs) as [Hb Hall]. assert (Hk : 1 <= c_kdim c) by apply UI.
  destruct (@uj_result_ok F Rnum kern c n_node max_level n_leaf minlevel n_thread UI _ (1 < c_kdim c) (real_delivers kern c n_node minlevel Hk Vis) evs tb Ztb Htb Hb Hall)
    as [(E & Hf)|[(U & J & Jc & js & H1 & H2 & H3 & H4)|(pre & post & s & v & i & E1 & E2 & E3 & E4 & E5 & js & E6 & E7)]].
  - destruct Hret; [lia|contradiction].
  - exists U, J, Jc, js. split; auto. split; auto. split; auto. intros i V EV Hl. destruct (H4 i V EV Hl) as (sk & u & B1 & B2 & B3 & B4 & _). exists sk, u. auto.
  - exfalso. destruct (E7 i E3) as (_ & _ & (V & sk & u & B1 & _ & _ & _ & B5) & _). apply B5. rewrite B1 in E6. destruct sk; [auto|discriminate].
Qed.
Print Assumptions C36_every_basis_meets_the_tolerance.

(** What this means away from the proxy points: if a source's field [y] on the
    node's points is one that sources of strengths [w] on the proxy points
    produce, interpolating it from the skeleton errs, at every point, by at most
    the tolerance times the norm of w. *)
Theorem C36_far_field_error :
  forall (F : num) (kern : list F -> list F -> Z -> Z -> R) (c : uctx F Rnum) i ps sk u (w : Z -> R) (y : Z -> Z -> R) mu,
  let kdim := c_kdim c in let m := n_proxy (c_pp c) (lev (c_t c) i) * kdim in
  1 <= kdim -> @skeleton_of Rnum kdim (zlen ps) sk u -> accurate kern c i ps sk u -> max_norm kdim (zlen ps) m (@proxy_block F Rnum kern c ps i) mu ->
  match c_stop c with QR_RANK q => zlen sk < Z.min (Z.min m (zlen ps * kdim) / kdim) (Z.quot q kdim) | _ => True end ->
  (forall p t, In p ps -> 0 <= t < kdim -> y p t = Rsum 0 m (fun l => @proxy_block F Rnum kern c [p] i t l * w l)%R) ->
  forall j, 0 <= j < zlen ps ->
  (let err t := y (nthz ps j) t - Rsum 0 (zlen sk * kdim) (fun k => u (j * kdim + t)%Z k * y (nthz ps (nthz sk (k / kdim))) (k mod kdim)%Z) in
   sqrt (Rsum 0 kdim (fun t => err t * err t)) <= tolerance (c_dbl c) (c_stop c) kdim m mu * sqrt (Rsum 0 m (fun l => w l * w l)))%R.
Proof.
  intros F kern c i ps sk u w y mu kdim m Hk (Inc & Hsk & _) (_ & Acc) Hmu Hst Hy j Hj err. fold kdim m in Acc.
  assert (E : forall t, 0 <= t < kdim -> err t = Rsum 0 m (fun l => resid kdim sk (@proxy_block F Rnum kern c ps i) u (j * kdim + t)%Z l * w l)%R).
  { intros t Ht. apply (field_resid kern c i ps sk u w y j t); auto. }
  replace (Rsum 0 kdim (fun t => err t * err t)%R) with (Rsum 0 kdim (fun t => Rsum 0 m (fun l => resid kdim sk (@proxy_block F Rnum kern c ps i) u (j * kdim + t)%Z l * w l) * Rsum 0 m (fun l => resid kdim sk (@proxy_block F Rnum kern c ps i) u (j * kdim + t)%Z l * w l))%R).
  - eapply Rle_trans; [apply group_bound|]. apply Rmult_le_compat_r; [apply sqrt_pos|]. apply Rlt_le. apply Acc; auto.
  - rewrite !Rsum_sumR. apply sumR_ext. intros t Ht. rewrite E by auto. reflexivity.
Qed.
Print Assumptions C36_far_field_error.

(** ** The hypotheses can be met *)
Definition kz5 (p q : list Qred_num) (a b : Z) : Z := 2 + (if Qle_bool (hd (0%Q : Qred_num) p) (hd (0%Q : Qred_num) q) then 3 else 0).
Definition run5 := Eval vm_compute in @h2_UJ_proxy Qred_num Tnum kz5 (ctx5 Tnum (@QR_RANK Tnum 1)) 9 (tb5 Tnum) evs5.
Example C35_example : uj_input (ctx5 Tnum (@QR_RANK Tnum 1)) 9 3 5 2 /\ uj_team (ctx5 Tnum (@QR_RANK Tnum 1)) 9 2 2 (tb5 Tnum) evs5 /\ div_total Tnum /\
  exists U J Jc, @h2_UJ_proxy Qred_num Tnum kz5 (ctx5 Tnum (@QR_RANK Tnum 1)) 9 (tb5 Tnum) evs5 = Some (U, J, Jc) /\ map iv_len J = [1; 1; 0; 1; 1; 1; 1; 0; 0].
Proof.
  split; [apply input5|]. split; [apply team5|]. split; [apply Tnum_div|].
  assert (E : @h2_UJ_proxy Qred_num Tnum kz5 (ctx5 Tnum (@QR_RANK Tnum 1)) 9 (tb5 Tnum) evs5 = run5) by (vm_compute; reflexivity).
  rewrite E. unfold run5. do 3 eexists. split; [reflexivity|]. reflexivity.
Qed.
(** The same nodes taken by one thread in another order. *)
Example C37_example : exists U J Jc U' J' Jc', @h2_UJ_proxy Qred_num Tnum kz5 (ctx5 Tnum (@QR_RANK Tnum 1)) 9 (tb5 Tnum) evs5 = Some (U, J, Jc) /\
  @h2_UJ_proxy Qred_num Tnum kz5 (ctx5 Tnum (@QR_RANK Tnum 1)) 9 [TBuf (dm_init 0 0) (dm_init 0 0) (iv_init 0)] evs5' = Some (U', J', Jc') /\ evs5 <> evs5' /\
  forall i V V', getz U i = Some V -> getz U' i = Some V' -> 2 <= lev (r_arrays tree5b) i -> same_mat V V'.
Proof.
  destruct (C37_result_independent_of_schedule Qred_num Tnum kz5 (ctx5 Tnum (@QR_RANK Tnum 1)) 9 3 5 2 2 (tb5 Tnum) evs5 1 [TBuf (dm_init 0 0) (dm_init 0 0) (iv_init 0)] evs5' Tnum_div (input5 _ _) (team5 _ _) (team5' _ _))
    as [(U & J & Jc & U' & J' & Jc' & H1 & H2 & H3 & _)|[(pre & post & s & v & i & E1 & E2 & E3 & E4 & E5) _]].
  - exists U, J, Jc, U', J', Jc'. split; auto. split; auto. split; [discriminate|]. exact H3.
  - exfalso.
    assert (N : forall k, (k <= 6)%nat -> match Conc.run (map (fun ev => @uj_node Qred_num Tnum kz5 (ctx5 Tnum (@QR_RANK Tnum 1)) (fst ev) (snd ev)) (firstn k evs5)) (UST (arr 9 None) (arr 9 None) (arr 9 None) (tb5 Tnum)) with
      | Some s => forallb (fun o => match o with Some v => negb (iv_len v =? 0) | None => true end) (u_J s) | None => true end = true).
    { intros k Hk. do 7 (destruct k as [|k]; [vm_compute; reflexivity|]). lia. }
    assert (Ep : pre = firstn (length pre) evs5) by (rewrite E1; clear; induction pre; cbn; f_equal; auto).
    assert (Hl : (length pre <= 6)%nat) by (apply (f_equal (@length _)) in E1; rewrite app_length in E1; cbn in E1; lia).
    specialize (N _ Hl). rewrite <- Ep in N. change (Conc.run (map (fun ev => @uj_node Qred_num Tnum kz5 (ctx5 Tnum (@QR_RANK Tnum 1)) (fst ev) (snd ev)) pre) (UST (arr 9 None) (arr 9 None) (arr 9 None) (tb5 Tnum)) = Some s) in E2.
    rewrite E2 in N. rewrite forallb_forall in N. specialize (N _ (getz_In _ _ _ E4)). cbn in N. rewrite E5 in N. discriminate N.
Qed.
(** Constant kernel, relative tolerance 1/2. *)
Example C36_example : uj_input (ctx5 Rnum (@QR_REL_NRM Rnum (1 / 2)%R)) 9 3 5 2 /\ uj_team (ctx5 Rnum (@QR_REL_NRM Rnum (1 / 2)%R)) 9 2 2 (tb5 Rnum) evs5 /\
  visible (F := Qred_num) (fun _ _ _ _ => 1%R) (ctx5 Rnum (@QR_REL_NRM Rnum (1 / 2)%R)) 9 2.
Proof.
  split; [apply input5|]. split; [apply team5|]. split; [exact I|]. intros i p Hi Hl Ho m g.
  assert (Em : m = 2). { unfold m. cbn [ctx5 c_pp c_t c_kdim]. cases_below 9%nat Hi; try reflexivity; exfalso; apply Hl; reflexivity. }
  assert (Eg : g = sqrt 2).
  { unfold g. fold m. rewrite Em. unfold grp_norm, proxy_block, Rsum. cbn [ctx5 c_kdim]. change (zrange 0 1) with [0]. change (zrange 0 2) with [0; 1]. cbn [map fold_right]. f_equal. lra. }
  assert (Pg : (0 < g)%R) by (rewrite Eg; apply sqrt_lt_R0; lra). split; auto. unfold tolerance. cbn [ctx5 c_stop c_dbl c_kdim]. fold m. rewrite Em, sqrt_1.
  rewrite <- (Rmult_1_l g) at 2. apply Rmult_le_compat_r; [lra|]. apply Rmax_lub; [|lra].
  assert (S2 : (sqrt 2 <= 2)%R) by (rewrite <- (sqrt_square 2) at 2 by lra; apply sqrt_le_1_alt; lra). assert (Q : (Q2R (1 # 10 ^ 15) <= 1 / 2)%R).
  { unfold Q2R. cbn [Qnum Qden]. rewrite Rmult_1_l. apply Rmult_le_reg_l with (IZR (Zpos (10 ^ 15))); [apply IZR_lt; reflexivity|]. rewrite Rinv_r by (apply not_0_IZR; discriminate). assert (2 <= IZR (Zpos (10 ^ 15)))%R by (apply IZR_le; discriminate). lra. }
  assert (0 <= Q2R (1 # 10 ^ 15))%R by (unfold Q2R; cbn [Qnum Qden]; rewrite Rmult_1_l; apply Rlt_le, Rinv_0_lt_compat, IZR_lt; reflexivity).
  pose proof (sqrt_pos 2). nra.
Qed.
