(** The periodic matvec: the whole product (Model_PerMv.v). *)
From Coq Require Import ZArith QArith List Lia Bool Permutation.
From Verif Require Import Base Mem Num CRing Conc Model_Utils Spec_Utils Proof_Utils Model_Dense Spec_Dense Proof_Dense Proof_Dense2 Proof_Dense3 Model_Partition Spec_Tree Model_CSR Spec_CSR Model_Pairs Spec_Pairs Model_Matvec Spec_Matvec
  Model_Build Spec_Build Proof_Build Proof_BuildFill Proof_Gemv Proof_MvTree Proof_MvFwd Proof_MvMid Proof_MvBwd Model_Matmul Proof_Gemm Proof_MmFwd Proof_MmMid Proof_MmTop Proof_MmFam
  Model_Periodic Spec_Periodic Proof_PerBlock Proof_PerMid Proof_PerTop Model_JIT Proof_JitBlk Proof_JitExt Proof_JitApply Proof_JitMid Proof_JitTop Model_PerMv Proof_PerMvExt Proof_PerMvMid Proof_PerMvNode Proof_PerMvDen.
Import ListNotations.
Open Scope Z_scope.

Section Top.
Context {F : num} {K : cring}.
Add Ring Kring : (cth K).
Local Open Scope ring_K.
Variable kern : list F -> list F -> Z -> Z -> K.
Variable simd : Z.
Hypothesis Hsimd : 1 <= simd.
Variable h : h2rep F K.
Hypothesis R : rep_ok h.
Hypothesis M0 : h_minlevel h = 0.
(* the non-periodic parts of the handle are not used *)
Hypothesis Hadm : h_adm h = [].
Hypothesis Hinadm : h_inadm h = [].
Hypothesis HD0 : forall k r q, 0 <= k < h_nleaf h -> 0 <= r < msize h (leaf h k) -> 0 <= q < msize h (leaf h k) -> Dval h k r q = c0.
Variables (pt : Z -> list F) (js : Z -> list Z) (adm inadm : list (Z * Z)) (sB sD : Z -> Z -> F) (O : Z -> Z -> K) (c : pctx F K).
Hypothesis PO : per_ok h pt js adm inadm sB sD O c.
Hypothesis Hnz : forall k i n1 n, getz adm k = Some (i, n1) -> ld (h_nr h) i = Some n -> n <> 0.
Notation kd := (h_kdim h).
Notation np := (h_npoint h).
Notation nth := (h_nthread h).
Variable mv : bool.
Notation nt := (mv && (1 <? h_kdim h)).
Notation pLy := (pLy h mv).
Notation ply := (ply h mv).
Notation yv_ok := (yv_ok h mv).

(** *** The transpositions of the coefficients *)
Definition fake_jctx : jctx F := JCtx 0 [] (map (fun n => mkDM 0 (zlen (js n)) (zlen (js n)) 0 []) (zrange 0 (h_nnode h))) true.
Lemma fake_jit : jit_data (fun _ _ _ _ => c0) 1 1 h fake_jctx (fun _ => []) (fun _ _ => []).
Proof.
  constructor.
  - cbn. lia.
  - intros i Hi. reflexivity.
  - intros n Hn _. cbn [fake_jctx jx_Jc jx_dim]. rewrite getz_map, getz_zrange by lia. cbn [option_map]. eexists. split; [reflexivity|]. cbn [dm_ncol]. replace (0 + n)%Z with n by lia. split.
    + apply (ply_eq h R pt js adm inadm sB sD O c PO mv n 0 Hn).
    + intros i Hi. reflexivity.
  - intros k n0 n1 G. rewrite Hadm in G. apply getz_range in G. zlia.
  - intros k Hk r q Hr Hq. rewrite HD0 by auto. reflexivity.
  - intros k n0 n1 G. rewrite Hinadm in G. apply getz_range in G. zlia.
  - discriminate.
  - discriminate.
Qed.

Lemma nt_cases : (nt = true /\ mv = true /\ 1 < kd) \/ (nt = false /\ (forall p, pLy p = p) /\ (forall i k, ply i k = k)).
Proof.
  pose proof (kd1 h R) as H1. unfold Proof_PerMvMid.pLy, Proof_PerMvMid.ply. destruct mv; cbn [andb].
  - destruct (Z.ltb_spec 1 kd); [left; auto|]. right. split; auto. replace kd with 1 by lia. split; intros; apply lay_one.
  - right. unfold lay. auto.
Qed.
Lemma ply_true i k : mv = true -> ply i k = Proof_JitMid.ly h fake_jctx i k.
Proof. intros E. unfold Proof_PerMvMid.ply, Proof_JitMid.ly. cbn [fake_jctx jx_bimv]. now rewrite E. Qed.

Lemma pvy0_spec xv evs s y0 : omp_for nth (h_nnode h) evs -> s_y0 s = Some y0 -> zlen y0 = h_nnode h -> Forall dm_ok y0 -> m0_ok h (s_m0 s) ->
  (forall i, 0 <= i < h_nnode h -> y0_good h xv y0 i) ->
  exists y0' m0', (if nt then run (map (fun ev => trans_y0_node h (fst ev) (snd ev)) evs) s else Some s) = Some (set_y0 (set_m0 s m0') y0') /\ zlen y0' = h_nnode h /\ Forall dm_ok y0' /\ m0_ok h m0' /\
    forall i, 0 <= i < h_nnode h -> exists m, getz y0' i = Some m /\ forall k, 0 <= k < rank h i -> ld (dm_data m) (ply i k) = Some (yhat h xv i k).
Proof.
  intros Ev E Z0 F0 Om G0. destruct nt_cases as [(-> & B & Hk)|(-> & _ & L)].
  - destruct (trans_y0_spec (fun _ _ _ _ => c0) 1 1 h fake_jctx R _ _ fake_jit eq_refl xv evs s y0 Ev E Z0 F0) as (y0' & m0' & E' & Z' & F' & _ & O' & G'); auto.
    { intros l i m El Em. injection El as <-. right. pose proof (getz_range _ _ _ Em) as Ri. destruct (G0 i ltac:(lia)) as (m' & Em' & (Hn & _) & _). congruence. }
    exists y0', m0'. split; auto. split; auto. split; auto. split; auto. intros i Hi. destruct (G' i Hi) as (m & Em & Vm). { pose proof (level_range h R i Hi). lia. }
    exists m. split; auto. intros k Hk'. rewrite ply_true by auto. auto.
  - exists y0, (s_m0 s). split; [destruct s; cbn in *; now subst|]. do 3 (split; auto). intros i Hi. destruct (G0 i Hi) as (m & Em & _ & V).
    exists m. split; auto. intros k Hk. rewrite L. auto.
Qed.

Lemma doney_narrow y1 i : 0 <= i < h_nnode h -> doney h y1 i -> narrow h y1 i.
Proof.
  intros Hi (m & Em & Hm). exists m. split; auto. destruct Hm as [?|(H1 & H2 & H3 & H4)]; [auto|]. right. split; auto. split; [|auto]. pose proof (level_range h R i Hi). lia.
Qed.

Lemma pvy1_spec evs s y1 : omp_for nth (h_nnode h) evs -> s_y1 s = Some y1 -> zlen y1 = h_nnode h -> Forall mok y1 -> m0_ok h (s_m0 s) -> (forall i, 0 <= i < h_nnode h -> doney h y1 i) ->
  exists y1' m0', (if nt then run (map (fun ev => trans_y1_node h (fst ev) (snd ev)) evs) s else Some s) = Some (set_y1 (set_m0 s m0') y1') /\ zlen y1' = h_nnode h /\ Forall mok y1' /\
    m0_ok h m0' /\ (forall i, 0 <= i < h_nnode h -> narrow h y1' i) /\
    forall i k, 0 <= i < h_nnode h -> 0 <= k < rank h i -> y1val y1' i k = y1val y1 i (ply i k).
Proof.
  intros Ev E Z0 F0 Om G0. destruct nt_cases as [(-> & B & Hk)|(-> & _ & L)].
  - destruct (trans_y1_spec (fun _ _ _ _ => c0) 1 1 h fake_jctx R _ _ fake_jit eq_refl evs s y1 Ev E Z0 F0) as (y1' & m0' & E' & Z' & F' & O' & N' & G'); auto.
    { intros i m Em Hl. pose proof (getz_range _ _ _ Em) as Ri. destruct (G0 i ltac:(lia)) as (m' & Em' & [?|(Hn & _)]); congruence. }
    { intros i Hi. apply doney_narrow; auto. }
    exists y1', m0'. do 5 (split; auto). intros i k Hi Hk'. rewrite ply_true by auto. apply G'; auto. pose proof (level_range h R i Hi). lia.
  - exists y1, (s_m0 s). split; [destruct s; cbn in *; now subst|]. do 3 (split; auto). split; [intros; apply doney_narrow; auto|]. intros i k Hi Hk. now rewrite L.
Qed.

(** *** The block of the root *)
Lemma root_node : 0 <= root h < h_nnode h.
Proof. destruct (ct_root _ _ _ _ _ _ (ro_tree _ R)) as (H1 & _). unfold root. lia. Qed.

Lemma pv_root_spec xv s y0 y1 : s_y0 s = Some y0 -> s_y1 s = Some y1 -> zlen y0 = h_nnode h -> zlen y1 = h_nnode h -> Forall dm_ok y0 -> Forall mok y1 -> m0_ok h (s_m0 s) ->
  (forall i, 0 <= i < h_nnode h -> exists m, getz y0 i = Some m /\ forall k, 0 <= k < rank h i -> ld (dm_data m) (ply i k) = Some (yhat h xv i k)) ->
  exists y0' y1' m0', pv_root nt h c s = Some (set_y1 (set_y0 (set_m0 s m0') y0') y1') /\ zlen y0' = h_nnode h /\ Forall dm_ok y0' /\ zlen y1' = h_nnode h /\ Forall mok y1' /\ m0_ok h m0' /\
    (forall j, j <> root h -> getz y1' j = getz y1 j) /\ narrow h y1' (root h) /\
    forall r, 0 <= r < rank h (root h) -> y1val y1' (root h) r = rsum 0 (rank h (root h)) (fun k => O r k * yhat h xv (root h) k).
Proof.
  intros E0 E1 Z0 Z1 F0 F1 Om G0. pose proof root_node as Hr. unfold pv_root. rewrite E0, E1. cbn [bind]. fold (root h).
  destruct (G0 (root h) Hr) as (yr & Ey & Vy). rewrite Ey. cbn [bind].
  destruct (getz_in y1 (root h) ltac:(lia)) as [m Em]. rewrite Em. cbn [bind]. cbv zeta.
  destruct (po_root _ _ _ _ _ _ _ _ _ PO) as (Ej & _ & HO). destruct (po_dims _ _ _ _ _ _ _ _ _ PO) as (_ & _ & Ek & _). destruct (po_js _ _ _ _ _ _ _ _ _ PO (root h) Hr) as (Erk & _).
  replace (q_Jroot c * q_kdim c)%Z with (rank h (root h)) by (rewrite Ej, Ek, Erk; lia). set (rk := rank h (root h)) in *.
  destruct (U_at h R (root h) Hr) as (U & _ & _ & _ & HU). destruct (HU ltac:(pose proof (level_range h R (root h) Hr); lia)) as (Hrk & _). fold rk in Hrk.
  pose proof (Forall_getz _ _ _ _ F1 Em) as Km. pose proof (Forall_getz _ _ _ _ F0 Ey) as Oy.
  assert (Hroot : exists m0' e, (if nt then
      tmp <- get_m0 0 (q_Jroot c) (q_kdim c) s;
      d <- transpose_dmat (@concat _) 1 (q_kdim c) (q_Jroot c) (dm_data yr) (q_Jroot c) (dm_data tmp) (q_kdim c);
      s <- put_m0 0 (dm_set_data tmp d) s;
      e <- mcpy (dm_data yr) 0 d 0 rk;
      Some (s, e)
    else Some (s, dm_data yr)) = Some (set_m0 s m0', e) /\ m0_ok h m0' /\ zlen e = zlen (dm_data yr) /\ forall k, 0 <= k < rk -> ld e k = Some (yhat h xv (root h) k)).
  { destruct nt_cases as [(-> & B & Hk)|(-> & _ & L)].
    - rewrite Ej, Ek. set (n := zlen (js (root h))) in *. assert (Hn : 1 <= n) by nia. assert (Hth : 1 <= nth) by (destruct (ro_dims _ R); lia).
      destruct (get_m0_spec h (fun s => m0_ok h (s_m0 s)) (fun _ H => H) 0 n kd s Om ltac:(lia) ltac:(nia)) as (tm & Et & Ot & _ & _ & Lt). rewrite Et. cbn [bind].
      assert (Pl : forall a r, 0 <= a < kd -> 0 <= r < n -> ply (root h) (r * kd + a) = (a * n + r)%Z).
      { intros a r Ha Hr'. rewrite (proj1 (ply_eq h R pt js adm inadm sB sD O c PO mv (root h) (r * kd + a)%Z Hr)), B. apply lay_comp; lia. }
      destruct (transpose_dmat_spec (@concat _) 1 kd n (dm_data yr) (dm_data tm) n kd (fun a r => yhat h xv (root h) (r * kd + a)%Z)) as (d & E2 & Zd & Gd); auto; try lia.
      { intros ths. apply inter_concat. }
      { intros a r Ha Hr'. rewrite <- Pl by auto. apply Vy. nia. }
      { apply fits_full; nia. }
      rewrite E2. cbn [bind]. unfold put_m0. destruct Om as [Zm Fm]. destruct (setz_Some (s_m0 s) 0 (dm_set_data tm d)) as [l El]; [lia|]. rewrite El. cbn [bind].
      assert (Lr : rk <= zlen (dm_data yr)).
      { specialize (Vy (rk - 1)%Z ltac:(lia)). replace (rk - 1)%Z with ((n - 1) * kd + (kd - 1))%Z in Vy by lia. rewrite Pl in Vy by lia. apply ld_range in Vy. nia. }
      destruct (mcpy_spec (dm_data yr) 0 d 0 rk) as (e & Ee & Ze & Ge); try nia. rewrite Ee. cbn [bind]. exists l, e. split; auto. split.
      { split; [rewrite (setz_zlen _ _ _ _ El); auto|]. eapply (Forall_setz _ _ _ _ _ Fm); [|exact El]. apply dm_set_data_ok; auto. }
      split; auto. intros k Hk'. rewrite (ld_mcpy _ _ _ _ _ Ee) by nia. destruct (comp_range kd n k ltac:(lia) ltac:(lia)) as (B1 & B2 & B3). rewrite B3 at 1. rewrite Gd by auto. rewrite <- B3. reflexivity.
    - exists (s_m0 s), (dm_data yr). split; [destruct s; reflexivity|]. split; auto. split; auto. intros k Hk. rewrite <- Vy by auto. now rewrite L. }
  destruct Hroot as (m0' & e & -> & Om' & Ze & Ve). cbn [bind].
  destruct (dm_resize_ok m 1 rk (proj1 Km) ltac:(lia)) as (R1 & R2 & R3 & R4 & R5).
  assert (Okm : mok (dm_resize m 1 rk)) by (apply mok_resize; [apply Km|lia]). set (m' := dm_resize m 1 rk) in *.
  destruct (gemv_n_spec rk rk (q_blk c) 0 rk (fun k => ld e k) false (dm_data m') 0 O (yhat h xv (root h)) (fun _ => c0)) as (d & Ed & Zd & Vd & _); try lia.
  { intros r cc Hr' Hc. rewrite Z.add_0_l. apply HO; auto. }
  { auto. }
  rewrite Ed. cbn [bind]. destruct (setz_Some y0 (root h) (dm_set_data yr e)) as [y0' Es0]; [lia|]. rewrite Es0. cbn [bind].
  destruct (setz_Some y1 (root h) (dm_set_data m' d)) as [y1' Es]; [lia|]. rewrite Es. cbn [bind].
  assert (Gy : forall j, getz y1' j = if root h =? j then Some (dm_set_data m' d) else getz y1 j) by (intros j; apply (getz_setz _ _ _ _ _ Es)).
  exists y0', y1', m0'. split; [reflexivity|]. split; [rewrite (setz_zlen _ _ _ _ Es0); auto|]. split; [eapply (Forall_setz _ _ _ _ _ F0); [|exact Es0]; now apply dm_set_data_ok|].
  split; [rewrite (setz_zlen _ _ _ _ Es); auto|]. split; [eapply (Forall_setz _ _ _ _ _ F1); [|exact Es]; now apply mok_set_data|]. split; auto. split.
  { intros j Hj. rewrite Gy. destruct (Z.eqb_spec (root h) j); [congruence|auto]. }
  split.
  { exists (dm_set_data m' d). rewrite Gy, Z.eqb_refl. split; auto. cbn [dm_set_data dm_data dm_ld]. right. fold rk. split; auto. split; [pose proof (level_range h R (root h) Hr); lia|]. split; [lia|].
    intros k Hk. rewrite <- (Z.add_0_l k), Vd by auto. eauto. }
  intros r Hr'. unfold y1val. rewrite Gy, Z.eqb_refl. cbn [dm_set_data dm_data dm_ld]. rewrite R4. destruct (Z.eqb_spec rk 0); [lia|].
  rewrite <- (Z.add_0_l r), Vd by auto. cbn [val]. rewrite Z.add_0_l. ring.
Qed.

(** *** The whole product *)
Lemma bwd_st_id (s : mvst K) y1 m0 py : s_y1 s = Some y1 -> s_m0 s = m0 -> s_py s = py -> bwd_st s y1 m0 py = s.
Proof. destruct s; cbn. intros -> -> ->. reflexivity. Qed.
Definition vst_ok (zx : pst F K * mem K) : Prop :=
  pst_ok h (fst zx) /\ h_kms h <= zlen (s_px (fst (fst zx))) /\ h_kms h <= zlen (s_py (fst (fst zx))) /\ h_kms h <= zlen (s_yT (fst (fst zx))) /\ h_kms h <= zlen (snd zx).
Definition vprod (xf : Z -> K) (i : Z) : K := rsum 0 (h_kms h) (fun j => Hper kern h pt js adm inadm sB sD O (nthz (h_bwd h) i) (nthz (h_bwd h) j) * xf j).

Lemma pLy_range p : 0 <= p < h_kms h -> 0 <= pLy p < h_kms h.
Proof. intros Hp. rewrite (kms_np h R) in *. apply lay_range; [apply (kd1 h R)|lia]. Qed.

Lemma px_spec ordx px (xT : mem K) (xv : Z -> K) : (forall ths, inter ths (ordx ths)) ->
  (forall p, 0 <= p < h_kms h -> ld px p = Some (xv p)) -> h_kms h <= zlen xT ->
  exists xT', (if nt then transpose_dmat ordx nth np kd px kd xT np else Some xT) = Some xT' /\ zlen xT' = zlen xT /\
    forall p, 0 <= p < h_kms h -> ld (if nt then xT' else px) (pLy p) = Some (xv p).
Proof.
  intros Sc Hx Hl. pose proof (kd1 h R) as Kp. pose proof (kms_np h R) as Ek. pose proof (kms_nonneg h R) as Hk0. assert (Hn : 1 <= nth) by (destruct (ro_dims _ R); lia). assert (Hp : 0 <= np) by nia.
  destruct nt_cases as [(-> & B & Hk)|(-> & L & _)].
  - destruct (transpose_dmat_spec ordx nth np kd px xT kd np (fun r a => xv (r * kd + a)%Z)) as (d & E & Zd & G); auto.
    { intros r a Hr Ha. apply Hx. nia. }
    { apply fits_full; nia. }
    exists d. split; auto. split; auto. intros p Hp'. destruct (comp_range kd np p Kp ltac:(lia)) as (B1 & B2 & B3).
    unfold Proof_PerMvMid.pLy, lay. rewrite B. rewrite (G (p mod kd) (p / kd)%Z) by auto. rewrite <- B3. reflexivity.
  - exists xT. split; auto. split; auto. intros p Hp'. rewrite L. auto.
Qed.

Lemma py_spec ordy (yT xT py : mem K) (g f : Z -> K) : (forall ths, inter ths (ordy ths)) -> yv_ok yT g -> (forall p, 0 <= p < h_kms h -> ld py p = Some (f p)) -> h_kms h <= zlen xT -> nt = true ->
  exists py' xT', (xT <- transpose_dmat ordy nth kd np yT np xT kd; py <- zfor 0 (h_kms h) (fun i py => v <- ld xT i; madd py i v) py; Some (py, xT)) = Some (py', xT') /\ zlen py' = zlen py /\ zlen xT' = zlen xT /\
    forall p, 0 <= p < h_kms h -> ld py' p = Some (f p + g p).
Proof.
  intros Sc Hy Hf Hl Hnt. pose proof (kd1 h R) as Kp. pose proof (kms_np h R) as Ek. pose proof (kms_nonneg h R) as Hk0. assert (Hn : 1 <= nth) by (destruct (ro_dims _ R); lia). assert (Hp : 0 <= np) by nia.
  destruct (transpose_dmat_spec ordy nth kd np yT xT np kd (fun a r => g (r * kd + a)%Z)) as (d & Ed & Zd & Gd); auto; try lia.
  { intros a r Ha Hr. rewrite <- Hy by nia. f_equal. unfold Proof_PerMvMid.pLy. apply andb_true_iff in Hnt as [-> _]. rewrite lay_comp by lia. reflexivity. }
  { apply fits_full; nia. }
  rewrite Ed. cbn [bind].
  assert (Hd : forall p, 0 <= p < h_kms h -> ld d p = Some (g p)).
  { intros p Hp'. destruct (comp_range kd np p Kp ltac:(lia)) as (B1 & B2 & B3). rewrite B3 at 1. rewrite Gd by auto. now rewrite <- B3. }
  destruct (zfor_inv (fun k (py' : mem K) => zlen py' = zlen py /\ forall p, 0 <= p < h_kms h -> ld py' p = Some (if (p <? k)%Z then f p + g p else f p))
    0 (h_kms h) (fun i py => v <- ld d i; madd py i v) py) as (py' & E' & Zp' & Vp').
  { nia. }
  { split; auto. intros p Hp'. destruct (Z.ltb_spec p 0); [lia|]. auto. }
  { intros k py1 Hk' (Z1 & V1). rewrite Hd by lia. cbn [bind]. pose proof (V1 k ltac:(lia)) as Vk. destruct (Z.ltb_spec k k); [lia|].
    destruct (madd_spec py1 k (g k) _ Vk) as (py' & E1 & Z2 & V2). exists py'. split; auto. split; [lia|]. intros p Hp'. rewrite V2.
    destruct (Z.eqb_spec k p).
    - subst p. destruct (Z.ltb_spec k (k + 1)); [auto|lia].
    - rewrite V1 by auto. destruct (Z.ltb_spec p k), (Z.ltb_spec p (k + 1)); auto; lia. }
  rewrite E'. cbn [bind]. exists py', d. do 3 (split; auto). intros p Hp'. rewrite Vp' by auto. destruct (Z.ltb_spec p (h_kms h)); [auto|lia].
Qed.

Theorem matvec_periodic_spec sc z x y (xf : Z -> K) : pv_sched_ok h sc -> vst_ok z ->
  (forall j, 0 <= j < h_kms h -> ld x j = Some (xf j)) -> h_kms h <= zlen y ->
  exists z' y', matvec_periodic kern simd 1 mv h c sc z x y = Some (z', y') /\ vst_ok z' /\ zlen y' = zlen y /\
    (forall i, 0 <= i < h_kms h -> ld y' i = Some (vprod xf i)) /\ (forall i, h_kms h <= i -> getz y' i = getz y i).
Proof.
  destruct z as [[s ms] xT]. intros Sc ([S1 S2 S3 S4] & Lpx & Lpy & LyT & LxT) Hx Hy. cbn [fst snd] in *. unfold matvec_periodic. cbv zeta.
  destruct (po_dims _ _ _ _ _ _ _ _ _ PO) as (_ & _ & Ek & Enp & _). rewrite Ek, Enp. change (1 =? 1) with true. rewrite andb_true_r. cbn [negb].
  destruct (ro_pmt _ R) as (Pf & Pb & Pp). pose proof (kms_nonneg h R) as Hk.
  destruct (gather_vector_spec (h_kms h) (h_fwd h) x (s_px s) 0 0 xf (h_kms h)) as (px & Epx & Zpx & Gpx & _); auto; try lia.
  { intros i Hi. apply In_getz in Hi as (k & Hk'). pose proof (getz_range _ _ _ Hk') as Rk. destruct (Pp k ltac:(lia)) as (A & _). apply nthz_eq in Hk'. lia. }
  rewrite Epx. cbn [bind].
  pose (xv := fun p => xf (nthz (h_fwd h) p)).
  assert (Hpx : forall p, 0 <= p < h_kms h -> ld px p = Some (xv p)) by (intros p Hp; specialize (Gpx p Hp); now rewrite Z.add_0_l in Gpx).
  destruct (mzero_full c0 (s_py s) (h_kms h) ltac:(lia)) as (py0 & E0 & Zp0 & Vp0). rewrite E0. cbn [bind].
  destruct (mzero_full c0 (s_yT s) (h_kms h) ltac:(lia)) as (yT0 & E1 & Zy0 & Vy0). rewrite E1. cbn [bind].
  set (sa := set_yT (set_py (set_px s px) py0) yT0).
  destruct (px_spec (pc_ordx sc) px xT xv (pk_ordx _ _ Sc) Hpx LxT) as (xT1 & E2 & Zx1 & Vx). rewrite E2. cbn [bind].
  set (x_ := if nt then xT1 else px) in *.
  destruct (fwd_transform_spec h R xv (pc_fwd sc) sa) as (y0 & E3 & Z0 & F0 & G0); auto.
  { apply (pk_fwd _ _ Sc). }
  rewrite E3. cbn [bind].
  destruct (pvy0_spec xv (pc_t0 sc) (set_y0 sa y0) y0 (pk_t0 _ _ Sc) eq_refl Z0 F0 S3) as (y0' & m0a & E4 & Z0' & F0' & Om & Hy0).
  { intros i Hi. apply G0; auto. pose proof (level_range h R i Hi). lia. }
  rewrite E4. cbn [bind]. set (sb := set_y0 (set_m0 (set_y0 sa y0) m0a) y0').
  assert (Yb : yv_ok (y_of nt sb) (fun _ => c0)).
  { intros p Hp. pose proof (pLy_range p Hp) as Rp. unfold y_of. destruct nt; cbn; [rewrite Vy0|rewrite Vp0]; destruct (Z.leb_spec 0 (pLy p)), (Z.ltb_spec (pLy p) (h_kms h)); auto; lia. }
  destruct (mid_spec kern simd Hsimd h R M0 pt js adm inadm sB sD O c PO Hnz mv nt xv y0' x_ Z0' Hy0 Vx (pc_team sc) (pc_zero sc) (pc_mid sc) sb ms (fun _ => c0))
    as (y1 & m0b & ms1 & yb & f1 & E5 & Z1 & F1 & D1 & Omb & Oms & Zyb & Yb' & Y0 & T1); auto.
  { apply (pk_team _ _ Sc). } { apply (pk_zero _ _ Sc). } { apply (pk_mid _ _ Sc). }
  rewrite E5. cbn [bind]. set (sc1 := pv_st nt sb y1 m0b yb).
  assert (Es1 : s_y1 sc1 = Some y1) by (unfold sc1, pv_st, set_y; destruct nt; reflexivity).
  assert (Em1 : s_m0 sc1 = m0b) by (unfold sc1, pv_st, set_y; destruct nt; reflexivity).
  assert (Es0 : s_y0 sc1 = Some y0') by (unfold sc1, pv_st, set_y; destruct nt; reflexivity).
  destruct (pvy1_spec (pc_t1 sc) sc1 y1 (pk_t1 _ _ Sc) Es1 Z1 F1 ltac:(rewrite Em1; auto) D1) as (y1p & m0c & E6 & Z1p & F1p & Omc & N1p & V1p).
  rewrite E6. cbn [bind]. set (sd := set_y1 (set_m0 sc1 m0c) y1p).
  destruct (pv_root_spec xv sd y0' y1p Es0 eq_refl Z0' Z1p F0' F1p Omc Hy0) as (y0r & y1r & m0d & E7 & Z0r & F0r & Z1r & F1r & Omd & Ko & Nr & Vr).
  rewrite E7. cbn [bind]. set (se := set_y1 (set_y0 (set_m0 sd m0d) y0r) y1r).
  set (pye := s_py se). assert (Epye : pye = if nt then py0 else yb) by (unfold pye, se, sd, sc1, pv_st, set_y; destruct nt; reflexivity).
  assert (EyTe : s_yT se = if nt then yb else yT0) by (unfold se, sd, sc1, pv_st, set_y; destruct nt; reflexivity).
  assert (Ese : se = bwd_st se y1r m0d pye) by (symmetry; apply bwd_st_id; reflexivity).
  assert (Zyb' : h_kms h <= zlen yb). { rewrite Zyb. unfold y_of. destruct nt; cbn; lia. }
  pose (g0 := fun p => if nt then c0 else f1 p).
  assert (Vpye : forall p, 0 <= p < h_kms h -> ld pye p = Some (g0 p)).
  { intros p Hp. rewrite Epye. unfold g0. pose proof (Yb' p Hp) as W. destruct nt_cases as [(-> & _)|(-> & L & _)].
    - rewrite Vp0. destruct (Z.leb_spec 0 p), (Z.ltb_spec p (h_kms h)); auto; lia.
    - now rewrite L in W. }
  rewrite Ese.
  destruct (bwd_transform_spec h R (pc_bwd sc) se y1r m0d pye) as (y1f & m0f & pyf & E8 & (B1 & B2 & B3 & B4 & B5 & B6) & V8).
  { apply (pk_bwd _ _ Sc). }
  { split; auto. split; auto. split; [|split; [auto|]].
    - intros i Hi. destruct (Z.eq_dec i (root h)) as [->|Hne]; auto. destruct (N1p i Hi) as (m & Em & Hm). exists m. now rewrite Ko.
    - split; [rewrite Epye; destruct nt; lia|]. intros p Hp. eauto. }
  rewrite E8. cbn [bind]. set (sf := bwd_st se y1f m0f pyf).
  pose (bs := fun p => rsum 0 (h_nnode h) (fun i => rsum 0 (rank h i) (fun cc => basis h i p cc * y1val y1r i cc))).
  assert (Vpyf : forall p, 0 <= p < h_kms h -> ld pyf p = Some (g0 p + bs p)).
  { intros p Hp. specialize (V8 p Hp). destruct (B6 p Hp) as [v Ev]. unfold pyval in V8. rewrite Ev, Vpye in V8 by auto. cbn [val] in V8. rewrite Ev. f_equal. exact V8. }
  pose (f2 := fun p => if nt then f1 p else f1 p + bs p).
  assert (Yf : yv_ok (y_of nt sf) f2).
  { intros p Hp. unfold f2, y_of. pose proof (Vpyf p Hp) as V. unfold g0 in V. pose proof (Yb' p Hp) as W. destruct nt_cases as [(En & _)|(En & L & _)]; rewrite En in V |- *.
    - change (s_yT sf) with (s_yT se). rewrite EyTe, En. exact W.
    - change (s_py sf) with pyf. rewrite L. exact V. }
  destruct (pv_den_spec kern simd Hsimd h R M0 pt js adm inadm sB sD O c PO mv nt xv x_ Vx (pc_den sc) sf ms1 f2) as (m0g & ms2 & yg & f3 & E9 & Omg & Oms2 & Zyg & Yg & V9); auto.
  { apply (pk_den _ _ Sc). }
  rewrite E9. cbn [bind]. set (sg := den_pst nt sf m0g yg).
  assert (Hfin : exists py' xT2 sx, (if nt then
      xT <- transpose_dmat (pc_ordy sc) nth kd np (s_yT sg) np xT1 kd;
      py <- zfor 0 (h_kms h) (fun i py => v <- ld xT i; madd py i v) (s_py sg);
      Some (set_py sg py, xT)
    else Some (sg, xT1)) = Some (sx, xT2) /\ s_py sx = py' /\ s_px sx = px /\ s_y0 sx = Some y0r /\ s_y1 sx = Some y1f /\ s_m0 sx = m0g /\ h_kms h <= zlen (s_yT sx) /\ h_kms h <= zlen py' /\ zlen xT2 = zlen xT1 /\
    forall p, 0 <= p < h_kms h -> ld py' p = Some (f3 p + (if nt then bs p else c0))).
  { assert (Q1 : s_px sg = px /\ s_y0 sg = Some y0r /\ s_y1 sg = Some y1f /\ s_m0 sg = m0g).
    { unfold sg, den_pst, set_y. destruct nt; cbn; unfold pv_st, set_y; auto. }
    destruct Q1 as (Q1 & Q2 & Q3 & Q4). assert (Zg : h_kms h <= zlen yg). { rewrite Zyg. unfold y_of. destruct nt; [change (s_yT sf) with (s_yT se); rewrite EyTe|change (s_py sf) with pyf]; lia. }
    assert (Dy : s_yT sg = (if nt then yg else s_yT se)) by (unfold sg, den_pst, set_y; destruct nt; reflexivity).
    assert (Dp : s_py sg = (if nt then pyf else yg)) by (unfold sg, den_pst, set_y; destruct nt; reflexivity).
    destruct nt_cases as [(En & Bm & Hkd)|(En & L & _)]; rewrite En in Dy, Dp |- *.
    - rewrite Dy, Dp. destruct (py_spec (pc_ordy sc) yg xT1 pyf f3 (fun p => g0 p + bs p) (pk_ordy _ _ Sc) Yg Vpyf ltac:(lia) En) as (py' & xT2 & Ef & Zp' & Zx2 & Vp').
      destruct (transpose_dmat (pc_ordy sc) nth kd np yg np xT1 kd) as [xq|]; [|discriminate]. cbn [bind] in Ef |- *.
      destruct (zfor 0 (h_kms h) (fun i py => v <- ld xq i; madd py i v) pyf) as [pq|]; [|discriminate]. cbn [bind] in Ef |- *. injection Ef as -> ->.
      exists py', xT2, (set_py sg py'). split; auto. split; auto. do 4 (split; [assumption|]). split; [cbn [set_py s_yT]; rewrite Dy; lia|]. split; [lia|]. split; [auto|].
      intros p Hp. rewrite Vp' by auto. unfold g0. rewrite En. f_equal. ring.
    - exists yg, xT1, sg. split; auto. split; auto. do 4 (split; [assumption|]). split; [rewrite Dy, EyTe, En; lia|]. split; [auto|]. split; [auto|].
      intros p Hp. pose proof (Yg p Hp) as W. rewrite L in W. rewrite W. f_equal. ring. }
  destruct Hfin as (py' & xT2 & sx & -> & X1 & X2 & X3 & X4 & X5 & X6 & X7 & X8 & Vpy'). cbn [bind]. rewrite X1.
  pose (ft := fun p => f3 p + (if nt then bs p else c0)).
  assert (Hft : forall p, 0 <= p < h_kms h -> ft p = rsum 0 (h_kms h) (fun q => Hper kern h pt js adm inadm sB sD O p q * xv q)).
  { intros p Hp. rewrite <- (per_sum kern h R M0 pt js adm inadm sB sD O c PO (fun q _ => xv q) p 0 Hp).
    transitivity (f1 p + bs p + rsum 0 (h_nnode h) (fun i => lsum (fun k => dvterm kern h pt inadm sD xv i k p) (fm_ents (dfam kern h pt inadm sD) i))).
    { unfold ft. rewrite V9 by auto. unfold f2. destruct nt; ring. }
    specialize (T1 p Hp). unfold dvterm, vterm in *.
    assert (Ebs : bs p = rsum 0 (h_nnode h) (fun i => ycoef h mv y1 i p) +
      rsum 0 (rank h (root h)) (fun r => basis h (root h) p r * rsum 0 (rank h (root h)) (fun k => O r k * yhat h xv (root h) k))).
    { unfold bs. rewrite (rsum_upd 0 (h_nnode h) (fun i => ycoef h mv y1 i p) _ (root h)
        (rsum 0 (rank h (root h)) (fun r => basis h (root h) p r * rsum 0 (rank h (root h)) (fun k => O r k * yhat h xv (root h) k)))); auto.
      - apply root_node.
      - unfold ycoef. rewrite (rsum_zero 0 (rank h (root h)) (fun r => basis h (root h) p r * y1val y1 (root h) (ply (root h) r))).
        + rewrite (rsum_ext 0 (rank h (root h)) (fun cc => basis h (root h) p cc * y1val y1r (root h) cc) (fun r => basis h (root h) p r * rsum 0 (rank h (root h)) (fun k => O r k * yhat h xv (root h) k))); [ring|].
          intros r Hr. now rewrite Vr.
        + intros r Hr. rewrite (Y0 (root h)); [ring|apply root_node| |auto]. destruct (po_root _ _ _ _ _ _ _ _ _ PO) as (_ & Hno & _).
          destruct (fm_ents (bfam kern h pt js adm sB) (root h)) as [|k ks] eqn:Ee; auto. exfalso.
          pose proof (bfam_in kern h pt js adm sB (root h) k ltac:(rewrite Ee; now left)) as G. eauto.
      - intros i Hi Hne. apply rsum_ext. intros cc Hc. rewrite <- V1p by auto. unfold y1val. now rewrite Ko. }
    rewrite Ebs.
    match type of T1 with ?a + ?b = _ => match goal with |- ?a + (?b + ?r) + ?d = _ => transitivity ((a + b) + r + d); [ring|] end end.
    rewrite T1. cbv beta. change (fun p1 : Z => xv p1) with xv. ring. }
  destruct (gather_vector_spec (h_kms h) (h_bwd h) py' y 0 0 ft (h_kms h)) as (y' & Ey & Zy' & Vy & Oy); auto; try lia.
  { intros i Hi. apply In_getz in Hi as (k & Hk'). pose proof (getz_range _ _ _ Hk') as Rk. destruct (Pp k ltac:(lia)) as (_ & A & _). apply nthz_eq in Hk'. lia. }
  rewrite Ey. cbn [bind]. eexists _, y'. split; [reflexivity|]. split; [|split; [auto|split]].
  - split.
    + constructor; cbn [fst snd].
      * rewrite X3. split; auto.
      * rewrite X4. split; auto.
      * rewrite X5. exact Omg.
      * exact Oms2.
    + cbn [fst snd]. rewrite X1, X2. repeat (split; [lia|]). lia.
  - intros i Hi. rewrite <- (Z.add_0_l i), Vy by auto. f_equal. destruct (Pp i Hi) as (_ & Hb & _). rewrite Hft by auto. unfold vprod.
    set (p := nthz (h_bwd h) i) in *. unfold rsum. rewrite (lsum_perm _ (zrange 0 (h_kms h)) (map (nthz (h_bwd h)) (zrange 0 (h_kms h)))).
    + rewrite lsum_map. apply lsum_ext. intros j Hj. apply In_zrange in Hj. unfold xv. destruct (Pp j ltac:(lia)) as (_ & _ & _ & ->). reflexivity.
    + apply NoDup_Permutation_bis.
      * apply NoDup_zrange.
      * rewrite map_length. auto.
      * intros q Hq. apply In_zrange in Hq. apply in_map_iff. destruct (Pp q ltac:(lia)) as (A & _ & B & _).
        exists (nthz (h_fwd h) q). split; auto. apply In_zrange. lia.
  - intros k Hkk. apply Oy. lia.
Qed.
End Top.
