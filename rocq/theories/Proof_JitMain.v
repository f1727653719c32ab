(** The whole just-in-time product (Model_JIT.v): it returns what H2P_matvec with stored blocks returns. *)
From Coq Require Import ZArith List Lia Bool Permutation.
From Verif Require Import Base Mem Num CRing Conc Model_Utils Spec_Utils Proof_Utils Model_Dense Spec_Dense Proof_Dense2 Proof_Dense3 Model_Partition Spec_Tree Model_Matvec Spec_Matvec Proof_Gemv Proof_MvTree Proof_MvFwd Proof_MvMid Proof_MvBwd Proof_MvTop Proof_Sched Model_Build Model_JIT Proof_MmFam Proof_JitBlk Proof_JitExt Proof_JitApply Proof_JitMid Proof_JitDense Proof_JitTop.
Import ListNotations.
Open Scope Z_scope.

Section JMain.
Context {F : num} {K : cring}.
Add Ring Kring : (cth K).
Local Open Scope ring_K.
Variable kern : list F -> list F -> Z -> Z -> K.
Variables (simd esz : Z) (h : h2rep F K) (c : jctx F).
Notation kd := (h_kdim h).
Notation b := (jx_bimv c).
Notation nth := (h_nthread h).
Notation nt := (jx_bimv c && (1 <? h_kdim h)).
Hypothesis R : rep_ok h.
Variables (CP : Z -> list F) (SP : Z -> Z -> list F).
Hypothesis J : jit_data kern simd esz h c CP SP.
Notation Ly := (Ly h c).
Notation ly := (ly h c).

Lemma nt_cases : (nt = true /\ b = true /\ 1 < kd) \/ (nt = false /\ (forall p, Ly p = p) /\ (forall i k, ly i k = k)).
Proof.
  pose proof (kd_pos h R). unfold Proof_JitMid.Ly, Proof_JitMid.ly. destruct (jx_bimv c); cbn [andb].
  - destruct (Z.ltb_spec 1 kd); [left; auto|]. right. split; auto. replace kd with 1 by lia. split; intros; apply lay_one.
  - right. unfold lay. auto.
Qed.

Lemma jx_spec js px (xT : mem K) (xv : Z -> K) : jschedule_ok h js -> 1 <= nth -> 0 <= h_npoint h ->
  (forall p, 0 <= p < h_kms h -> ld px p = Some (xv p)) -> h_kms h <= zlen xT ->
  exists xT', (if nt then transpose_dmat (jc_ordx js) nth (h_npoint h) kd px kd xT (h_npoint h) else Some xT) = Some xT' /\ zlen xT' = zlen xT /\
    forall p, 0 <= p < h_kms h -> ld (if nt then xT' else px) (Ly p) = Some (xv p).
Proof.
  intros Sc Hn Hp Hx Hl. pose proof (kd_pos h R) as Kp. pose proof (kms_pts h R) as Ek.
  destruct nt_cases as [(-> & B & Hk)|(-> & L & _)].
  - destruct (transpose_dmat_spec (jc_ordx js) nth (h_npoint h) kd px xT kd (h_npoint h) (fun r a => xv (r * kd + a)%Z)) as (d & E & Zd & G); auto.
    { apply (jo_ordx _ _ Sc). }
    { intros r a Hr Ha. apply Hx. nia. }
    { apply fits_full; nia. }
    exists d. split; auto. split; auto. intros p Hp'. destruct (comp_range kd (h_npoint h) p Kp ltac:(lia)) as (B1 & B2 & B3).
    unfold Proof_JitMid.Ly, lay. rewrite B. rewrite (G (p mod kd) (p / kd)%Z) by auto. rewrite <- B3. reflexivity.
  - exists xT. split; auto. split; auto. intros p Hp'. rewrite L. auto.
Qed.

Lemma jy0_spec js xv s y0 : jschedule_ok h js -> s_y0 s = Some y0 -> zlen y0 = h_nnode h -> Forall dm_ok y0 -> y0_shapes h (Some y0) ->
  m0_ok h (s_m0 s) -> (forall i, 0 <= i < h_nnode h -> h_minlevel h <= level h i -> y0_good h xv y0 i) ->
  exists y0' m0', (if nt then run (map (fun ev => trans_y0_node h (fst ev) (snd ev)) (jc_t0 js)) s else Some s) = Some (set_y0 (set_m0 s m0') y0') /\ zlen y0' = h_nnode h /\ Forall dm_ok y0' /\
    y0_shapes h (Some y0') /\ m0_ok h m0' /\
    forall i, 0 <= i < h_nnode h -> h_minlevel h <= level h i -> exists m, getz y0' i = Some m /\ forall k, 0 <= k < rank h i -> ld (dm_data m) (ly i k) = Some (yhat h xv i k).
Proof.
  intros Sc E Z0 F0 S0 O0 G0. destruct nt_cases as [(-> & B & Hk)|(-> & _ & L)].
  - eapply trans_y0_spec; eauto. apply (jo_t0 _ _ Sc).
  - exists y0, (s_m0 s). split; [destruct s; cbn in *; now subst|]. do 4 (split; auto). intros i Hi Hl. destruct (G0 i Hi Hl) as (m & Em & _ & V).
    exists m. split; auto. intros k Hk. rewrite L. auto.
Qed.

Lemma jy1_spec js s y1 : jschedule_ok h js -> s_y1 s = Some y1 -> zlen y1 = h_nnode h -> Forall mok y1 -> y1_shapes h y1 ->
  m0_ok h (s_m0 s) -> (forall i, 0 <= i < h_nnode h -> narrow h y1 i) ->
  exists y1' m0', (if nt then run (map (fun ev => trans_y1_node h (fst ev) (snd ev)) (jc_t1 js)) s else Some s) = Some (set_y1 (set_m0 s m0') y1') /\ zlen y1' = h_nnode h /\ Forall mok y1' /\
    m0_ok h m0' /\ (forall i, 0 <= i < h_nnode h -> narrow h y1' i) /\
    forall i k, 0 <= i < h_nnode h -> h_minlevel h <= level h i -> 0 <= k < rank h i -> y1val y1' i k = y1val y1 i (ly i k).
Proof.
  intros Sc E Z0 F0 S0 O0 G0. destruct nt_cases as [(-> & B & Hk)|(-> & _ & L)].
  - eapply trans_y1_spec; eauto. apply (jo_t1 _ _ Sc).
  - exists y1, (s_m0 s). split; [destruct s; cbn in *; now subst|]. do 4 (split; auto). intros i k Hi Hl Hk. now rewrite L.
Qed.

(** The reduction and the final transposition. *)
Lemma jred_spec js s (xT : mem K) : jschedule_ok h js -> 1 <= nth -> 0 <= h_npoint h -> ty_ok h (s_ty s) -> py_ok h (s_py s) -> h_kms h <= zlen xT -> zlen (s_yT s) = h_kms h ->
  (forall p, 0 <= p < h_kms h -> ld (s_yT s) p = Some c0) ->
  exists py' yT' xT',
    (s <- run (map (if nt then reduce_yT h else reduce_y h) (sc_red (jc_sc js))) s;
     (if nt then
      xT <- transpose_dmat (jc_ordy js) nth kd (h_npoint h) (s_yT s) (h_npoint h) xT kd;
      py <- zfor 0 (h_kms h) (fun i py => v <- ld xT i; madd py i v) (s_py s);
      Some (set_py s py, xT)
    else Some (s, xT))) = Some (set_py (set_yT s yT') py', xT') /\ zlen yT' = h_kms h /\ zlen xT' = zlen xT /\ py_ok h py' /\
    forall p, 0 <= p < h_kms h -> pyval py' p = pyval (s_py s) p + tysum h (s_ty s) (Ly p).
Proof.
  intros Sc Hn Hp Ot Op HxT ZyT VyT. pose proof (kd_pos h R) as Kp. pose proof (kms_pts h R) as Ek.
  destruct nt_cases as [(-> & B & Hk)|(-> & L & _)].
  - destruct (reduce_spec h R (set_py s (s_yT s)) (sc_red (jc_sc js)) Ot) as (v & E & Ov & Vv).
    { split; [cbn; lia|]. intros p Hp'. exists c0. cbn. auto. }
    { apply (jo_red _ _ Sc). }
    apply reduce_yT_run in E. replace (set_yT s (s_yT s)) with s in E by (destruct s; reflexivity). cbn [set_py s_py] in E.
    rewrite E. cbn [bind]. cbn [set_yT s_yT s_py].
    assert (Zv : zlen v = h_kms h).
    { (* the reduction keeps the length *)
      clear -E ZyT. revert s ZyT E. generalize (sc_red (jc_sc js)) as team. induction team as [|tid team IH]; intros s ZyT E; cbn [map run] in E.
      - injection E as E. apply (f_equal (@s_yT K)) in E. cbn in E. now rewrite <- E.
      - destruct (reduce_yT h tid s) as [s1|] eqn:E1; [|discriminate]. cbn [bind] in E. unfold reduce_yT in E1.
        destruct (calc_block_spos_len _ _ _) as [[sp len]|]; [|discriminate]. cbn [bind] in E1.
        match type of E1 with bind ?e _ = _ => destruct e as [yT|] eqn:E2; [|discriminate] end. cbn [bind] in E1. injection E1 as <-.
        apply (IH (set_yT s yT)); [|destruct s; exact E]. cbn [set_yT s_yT].
        rewrite <- ZyT. revert E2. apply zfor_zlen. intros t z z' E3. destruct (getz (s_ty s) t) as [src|]; [|discriminate]. cbn [bind] in E3. revert E3.
        apply zfor_zlen. intros i w w' E4. destruct (ld src i); [|discriminate]. cbn [bind] in E4. unfold madd in E4. destruct (ld w i); [|discriminate]. cbn [bind] in E4.
        eapply st_zlen; eauto. }
    pose (g := fun p => val c0 (ld v p)).
    assert (Hg : forall p, 0 <= p < h_kms h -> ld v p = Some (g p)). { intros p Hp'. destruct Ov as [_ Ov]. destruct (Ov p Hp') as [w Hw]. unfold g. now rewrite Hw. }
    destruct (transpose_dmat_spec (jc_ordy js) nth kd (h_npoint h) v xT (h_npoint h) kd (fun a r => g (a * h_npoint h + r)%Z)) as (d & Ed & Zd & Gd); auto; try lia.
    { apply (jo_ordy _ _ Sc). }
    { intros a r Ha Hr. apply Hg. rewrite Ek, (Z.mul_comm (h_npoint h)). now apply grid_range. }
    { apply fits_full; nia. }
    rewrite Ed. cbn [bind].
    assert (Hd : forall p, 0 <= p < h_kms h -> ld d p = Some (g (Ly p))).
    { intros p Hp'. destruct (comp_range kd (h_npoint h) p Kp ltac:(lia)) as (B1 & B2 & B3). unfold Proof_JitMid.Ly, lay. rewrite B. rewrite B3 at 1. apply Gd; auto. }
    destruct Op as [Zpy Vpy].
    destruct (zfor_inv (fun k (py : mem K) => zlen py = zlen (s_py s) /\ forall p, 0 <= p < h_kms h -> ld py p = Some (if (p <? k)%Z then pyval (s_py s) p + g (Ly p) else pyval (s_py s) p))
      0 (h_kms h) (fun i py => v <- ld d i; madd py i v) (s_py s)) as (py' & E' & Zp' & Vp').
    { nia. }
    { split; auto. intros p Hp'. destruct (Z.ltb_spec p 0); [lia|]. destruct (Vpy p Hp') as [w Hw]. unfold pyval. now rewrite Hw. }
    { intros k py Hk' (Z1 & V1). rewrite Hd by lia. cbn [bind]. pose proof (V1 k ltac:(lia)) as Vk. destruct (Z.ltb_spec k k); [lia|].
      destruct (madd_spec py k (g (Ly k)) _ Vk) as (py' & E1 & Z2 & V2). exists py'. split; auto. split; [lia|]. intros p Hp'. rewrite V2.
      destruct (Z.eqb_spec k p).
      - subst p. destruct (Z.ltb_spec k (k + 1)); [auto|lia].
      - rewrite V1 by auto. destruct (Z.ltb_spec p k), (Z.ltb_spec p (k + 1)); auto; lia. }
    rewrite E'. cbn [bind]. exists py', v, d. split; [reflexivity|]. do 2 (split; auto). split.
    + split; [lia|]. intros p Hp'. rewrite Vp' by auto. eauto.
    + intros p Hp'. unfold pyval at 1. rewrite Vp' by auto. destruct (Z.ltb_spec p (h_kms h)); [|lia]. cbn [val]. f_equal.
      pose proof (Ly_range h c R p Hp') as RL. specialize (Vv (Ly p) RL). cbn [set_py s_py s_ty] in Vv. unfold pyval in Vv. rewrite (VyT _ RL) in Vv. cbn [val] in Vv.
      unfold g. rewrite Vv. ring.
  - destruct (reduce_spec h R s (sc_red (jc_sc js)) Ot Op) as (py' & E & Opy & Vpy).
    { apply (jo_red _ _ Sc). }
    rewrite E. cbn [bind]. exists py', (s_yT s), xT. split; [destruct s; reflexivity|]. do 3 (split; auto). intros p Hp'. rewrite L. auto.
Qed.

Lemma reset_y_yT s s' : reset_y h s = Some s' -> zlen (s_yT s) = h_kms h -> forall p, 0 <= p < h_kms h -> ld (s_yT s') p = Some c0.
Proof.
  intros E Z0 p Hp. unfold reset_y in E. match type of E with bind ?e _ = _ => destruct e as [ty|]; [|discriminate] end. cbn [bind] in E.
  destruct (mzero c0 (s_py s) (h_kms h)) as [py|]; [|discriminate]. cbn [bind] in E.
  destruct (mzero_spec c0 (s_yT s) (h_kms h) ltac:(lia)) as (yT & EyT & ZyT & GyT). rewrite EyT in E. cbn [bind] in E. injection E as <-. cbn [set_yT s_yT]. auto.
Qed.

Lemma run_sum_shapes evs s s' y1 : s_y1 s = Some y1 -> y1_shapes h y1 -> run (map (fun ev : Z * Z => sum_y1_node h (snd ev)) evs) s = Some s' ->
  forall y1', s_y1 s' = Some y1' -> y1_shapes h y1'.
Proof.
  intros E H E' y1' Ey. assert (HH : exists y, s_y1 s' = Some y /\ y1_shapes h y); [|destruct HH as (y & Hy & S); replace y1' with y by congruence; exact S].
  apply (run_inv (fun s => exists y1, s_y1 s = Some y1 /\ y1_shapes h y1) (map (fun ev : Z * Z => sum_y1_node h (snd ev)) evs) s s'); [eauto| |exact E'].
  intros a s1 s2 Ha (y & Hy & S) E1. apply in_map_iff in Ha as (ev & <- & _). eapply sum_y1_shapes; eauto.
Qed.

Theorem matvec_jit_spec js s xT x y (xf : Z -> K) : jschedule_ok h js -> jstate_ok h (s, xT) ->
  (forall j, 0 <= j < h_kms h -> ld x j = Some (xf j)) -> h_kms h <= zlen y ->
  exists s' xT' y', matvec_jit kern simd esz h c js (s, xT) x y = Some (s', xT', y') /\ jstate_ok h (s', xT') /\ zlen y' = zlen y /\
    (forall i, 0 <= i < h_kms h -> ld y' i =
       Some (rsum 0 (h_kms h) (fun j => Hmat h (nthz (h_bwd h) i) (nthz (h_bwd h) j) * xf j))) /\
    (forall i, h_kms h <= i -> getz y' i = getz y i).
Proof.
  intros Sc (S & Sh & HxT) Hx Hy. cbn [fst snd] in S, Sh, HxT. destruct S as [S1 S2 [S3 S3'] [S4 S4'] S5 S6 S7]. unfold matvec_jit. cbv zeta.
  destruct (ro_pmt _ R) as (Pf & Pb & Pp).
  assert (Hk : 0 <= h_kms h) by (pose proof (zlen_nonneg (s_yT s)); lia).
  pose proof (kd_pos h R) as Kp. pose proof (kms_pts h R) as Ek.
  assert (Hn : 1 <= nth) by (destruct (ro_dims _ R); lia).
  assert (Hnp : 0 <= h_npoint h) by nia.
  destruct (gather_vector_spec (h_kms h) (h_fwd h) x (s_px s) 0 0 xf (h_kms h)) as (px & Epx & Zpx & Gpx & _); auto; try lia.
  { intros i Hi. apply In_getz in Hi as (k & Hk'). pose proof (getz_range _ _ _ Hk') as Rk. destruct (Pp k ltac:(lia)) as (A & _).
    apply nthz_eq in Hk'. lia. }
  rewrite Epx. cbn [bind].
  pose (xv := fun p => xf (nthz (h_fwd h) p)).
  assert (Hpx : forall p, 0 <= p < h_kms h -> ld px p = Some (xv p)) by (intros p Hp; specialize (Gpx p Hp); now rewrite Z.add_0_l in Gpx).
  destruct (reset_y_spec h (set_px s px)) as (ty & py & yT & E1 & O1 & O2 & O3 & O4); auto. 
  pose proof (reset_y_yT _ _ E1 S7) as VyT. rewrite E1. cbn [bind].
  match goal with |- context [fwd_transform h _ ?s] => set (sa := s) in * end.
  destruct (jx_spec js px xT xv Sc Hn Hnp Hpx HxT) as (xT1 & Ex & ZxT & Vx).
  change (s_px sa) with px. rewrite Ex. cbn [bind]. set (x_ := if nt then xT1 else px) in *.
  destruct (fwd_transform_spec h R xv (sc_fwd (jc_sc js)) sa) as (y0 & E2 & Z0 & F0 & G0); auto.
  { apply (jo_fwd _ _ Sc). }
  pose proof (fwd_transform_shapes h R _ sa _ Sh E2) as Sh0. cbn [set_y0 s_y0] in Sh0.
  rewrite E2. cbn [bind].
  destruct (jy0_spec js xv (set_y0 sa y0) y0 Sc eq_refl Z0 F0 Sh0 ltac:(split; auto) G0) as (y0' & m0a & E2' & Z0' & F0' & Sh' & Om & Hy0). rewrite E2'. cbn [bind].
  unfold intmd_mult_jit. set (sb0 := set_y0 (set_m0 (set_y0 sa y0) m0a) y0').
  destruct (init_y1_spec h R (sc_team (jc_sc js)) sb0) as (y1 & E3 & Z1 & F1 & W1 & A1 & V1); auto.
  { apply (jo_team _ _ Sc). }
  rewrite E3. cbn [bind]. set (sb := set_y1 sb0 y1).
  destruct (jmid_events_spec kern simd esz h c R CP SP J y0' x_ xv Hy0 Vx sb (sc_mid (jc_sc js)) sb) as (sd & E4 & M4 & T4).
  { apply (jo_mid _ _ Sc). }
  { repeat (split; auto). exists y1. repeat (split; auto). }
  rewrite E4. cbn [bind]. destruct M4 as (M1 & M2 & M3 & M4 & M5 & M6 & y1d & M7 & M8 & M9 & M10 & M11).
  destruct (sum_events_spec h R (sc_sum (jc_sc js)) sd y1d) as (y1e & E5 & Ze & Fe & Ge); auto.
  { apply (jo_sum _ _ Sc). }
  assert (She : y1_shapes h y1e).
  { refine (run_sum_shapes _ _ _ y1d M7 _ E5 _ eq_refl). intros i m Gi Hl. pose proof (getz_range _ _ _ Gi) as Ri. destruct (M10 i ltac:(lia)) as (m' & Gm & [Hm|Hm]);
      replace m' with m in * by congruence; [contradiction|]. apply Hm. }
  rewrite E5. cbn [bind].
  destruct (jy1_spec js (set_y1 sd y1e) y1e Sc eq_refl Ze Fe She M3) as (y1e' & m0b & E5' & Ze' & Fe' & Omb & Ne' & Ve').
  { intros i Hi. apply Ge; auto. }
  rewrite E5'. cbn [bind].
  assert (Ese : set_y1 (set_m0 (set_y1 sd y1e) m0b) y1e' = bwd_st sd y1e' m0b py).
  { unfold bwd_st, set_y1. f_equal; auto. }
  rewrite Ese.
  destruct (bwd_transform_spec h R (sc_bwd (jc_sc js)) sd y1e' m0b py) as (y1f & m0f & pyf & E6 & (B1 & B2 & B3 & (B4 & B4') & B5) & V6).
  { apply (jo_bwd _ _ Sc). }
  { split; auto. }
  rewrite E6. cbn [bind]. set (sf := bwd_st sd y1f m0f pyf).
  destruct (dense_mult_jit_spec kern simd esz h c R CP SP J x_ xv Vx sf (sc_den (jc_sc js)) sf) as (sg & E7 & O7 & V7).
  { apply (jo_den _ _ Sc). }
  { exists m0f, (s_ty sd). split; [reflexivity|]. split; [split; auto|auto]. }
  rewrite E7. cbn [bind]. destruct O7 as (m0g & tyg & -> & Omg & Otg). set (sg := set_m0 (set_ty sf tyg) m0g).
  destruct (jred_spec js sg xT1 Sc Hn Hnp) as (pyg & yTg & xT2 & E8 & ZyT & ZxT2 & O8 & V8); auto.
  { lia. }
  { cbn. rewrite M5. auto. }
  { cbn. rewrite M5. auto. }
  match type of E8 with bind ?e _ = _ => destruct e as [sh|]; [|discriminate] end. cbn [bind] in E8 |- *. rewrite E8. cbn [bind]. cbn [set_py s_py].
  assert (Hpy : forall p, 0 <= p < h_kms h -> ld pyg p = Some (rsum 0 (h_kms h) (fun q => Hmat h p q * xv q))).
  { intros p Hp. destruct O8 as [_ O8]. destruct (O8 p Hp) as [v Hv]. rewrite Hv. f_equal. specialize (V8 p Hp). unfold pyval at 1 in V8. rewrite Hv in V8. cbn [val] in V8.
    rewrite V8. specialize (V7 p Hp). unfold jdt in V7. cbn [set_m0 set_ty s_ty s_py sf sg bwd_st] in V7 |- *. rewrite V6, V7 by auto. rewrite Hmat_sum.
    destruct (O4 p Hp) as [Tz Pz]. rewrite Pz.
    specialize (T4 p Hp). unfold jtot in T4. rewrite M7 in T4. cbn [sb set_y1 s_y1 s_ty sb0 set_y0 set_m0 sa set_yT set_py set_ty] in T4.
    destruct (O4 (Ly p) (Ly_range h c R p Hp)) as [Tz' _]. rewrite Tz' in T4.
    rewrite (rsum_zero 0 (h_nnode h) (fun i => rsum 0 (rank h i) (fun k => basis h i p k * rsum 0 nth (fun tid => y1val y1 i (tid * rank h i + ly i k))))) in T4.
    2:{ intros i Hi. destruct (Z.lt_ge_cases (level h i) (h_minlevel h)) as [Hl|Hl].
        - destruct (U_at h R i Hi) as (U & _ & _ & HU & _). rewrite (HU Hl). now apply rsum_empty.
        - apply rsum_zero. intros k Hk'. rewrite rsum_zero; [ring|]. intros tid Ht. apply V1; auto. apply (ly_range kern simd esz h c R CP SP J); auto. }
    rewrite (rsum_ext 0 (h_nnode h) (fun i => rsum 0 (rank h i) (fun k => basis h i p k * y1val y1e' i k))
      (fun i => rsum 0 (rank h i) (fun k => basis h i p k * rsum 0 nth (fun tid => y1val y1d i (tid * rank h i + ly i k))))).
    2:{ intros i Hi. apply rsum_ext. intros k Hk'. f_equal.
        destruct (Z.lt_ge_cases (level h i) (h_minlevel h)) as [Hl|Hl].
        - destruct (U_at h R i Hi) as (U & _ & _ & HU & _). rewrite (HU Hl) in Hk'. lia.
        - rewrite Ve' by auto. destruct (Ge i Hi) as [_ Gv]. apply Gv. apply (ly_range kern simd esz h c R CP SP J); auto. }
    transitivity (tysum h (s_ty sd) (Ly p) + rsum 0 (h_nnode h) (fun i => rsum 0 (rank h i) (fun k => basis h i p k * rsum 0 nth (fun tid => y1val y1d i (tid * rank h i + ly i k)))) +
      (rsum 0 (h_nleaf h) (fun k => diagc h xv k p) + rsum 0 (zlen (h_inadm h)) (fun k => offc h xv k p))); [ring|].
    rewrite T4. ring. }
  destruct (gather_vector_spec (h_kms h) (h_bwd h) pyg y 0 0 (fun p => rsum 0 (h_kms h) (fun q => Hmat h p q * xv q)) (h_kms h)) as (y' & Ey' & Zy' & Gy' & Oy'); auto; try lia.
  { intros i Hi. apply In_getz in Hi as (k & Hk'). pose proof (getz_range _ _ _ Hk') as Rk. destruct (Pp k ltac:(lia)) as (_ & A & _).
    apply nthz_eq in Hk'. lia. }
  rewrite Ey'. cbn [bind]. eexists _, _, y'. split; [reflexivity|]. split; [|split; [auto|split]].
  - destruct Otg as [O7 O7'].
    assert (Ft : Forall (fun y => zlen y = h_kms h) tyg).
    { rewrite Forall_forall. intros m Hm. apply In_getz in Hm as (k & Hk'). pose proof (@getz_range (mem K) _ _ _ Hk') as Rk.
      change (0 <= k < zlen tyg) in Rk. rewrite O7 in Rk.
      destruct (O7' k Rk) as (m' & Em' & Zm' & _). assert (Em : Some m' = Some m) by (rewrite <- Em'; exact Hk'). injection Em as <-. exact Zm'. }
    split; [|split]; cbn [fst snd].
    + constructor; cbn.
      * rewrite M1. apply mats_of; auto.
      * apply mats_mof; auto.
      * split; auto.
      * apply Omg.
      * rewrite M2. cbn. lia.
      * apply O8.
      * auto.
    + cbn. rewrite M1. auto.
    + lia.
  - intros i Hi. specialize (Gy' i Hi). rewrite Z.add_0_l in Gy'. rewrite Gy'. f_equal.
    destruct (Pp i Hi) as (_ & Hb & _). set (p := nthz (h_bwd h) i) in *.
    unfold rsum. rewrite (lsum_perm _ (zrange 0 (h_kms h)) (map (nthz (h_bwd h)) (zrange 0 (h_kms h)))).
    + rewrite lsum_map. apply lsum_ext. intros j Hj. apply In_zrange in Hj. unfold xv. destruct (Pp j ltac:(lia)) as (_ & _ & _ & ->). reflexivity.
    + apply NoDup_Permutation_bis.
      * apply NoDup_zrange.
      * rewrite map_length. auto.
      * intros q Hq. apply In_zrange in Hq. apply in_map_iff. destruct (Pp q ltac:(lia)) as (A & _ & B & _).
        exists (nthz (h_fwd h) q). split; auto. apply In_zrange. lia.
  - intros i Hi. apply Oy'. lia.
Qed.
End JMain.
