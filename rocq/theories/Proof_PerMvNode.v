(** The periodic matvec: intermediate multiplication of all nodes (Model_PerMv.v). *)
From Coq Require Import ZArith QArith List Lia Bool Permutation.
From Verif Require Import Base Mem Num CRing Conc Model_Utils Spec_Utils Proof_Utils Model_Dense Spec_Dense Proof_Dense Proof_Dense2 Model_Partition Spec_Tree Model_CSR Spec_CSR Model_Pairs Spec_Pairs Model_Matvec Spec_Matvec
  Model_Build Spec_Build Proof_Build Proof_BuildFill Proof_Gemv Proof_MvTree Proof_MvFwd Proof_MvMid Proof_MvBwd Model_Matmul Proof_Gemm Proof_MmFwd Proof_MmMid Proof_MmTop Proof_MmFam
  Model_Periodic Spec_Periodic Proof_PerBlock Proof_PerMid Proof_PerTop Model_JIT Proof_JitBlk Proof_JitExt Proof_JitApply Proof_JitTop Model_PerMv Proof_PerMvExt Proof_PerMvMid.
Import ListNotations.
Open Scope Z_scope.

Lemma mzero_full {A} (z : A) (d : mem A) n : 0 <= n <= zlen d ->
  exists d', mzero z d n = Some d' /\ zlen d' = zlen d /\ forall k, ld d' k = if (0 <=? k) && (k <? n) then Some z else ld d k.
Proof.
  intros Hn. unfold mzero.
  destruct (zfor_inv (fun i (e : mem A) => zlen e = zlen d /\ forall k, ld e k = if (0 <=? k) && (k <? i) then Some z else ld d k) 0 n
    (fun k e => st e k z) d) as (e & E & P1 & P2).
  - lia.
  - split; auto. intros k. destruct (Z.leb_spec 0 k); destruct (Z.ltb_spec k 0); cbn [andb]; auto; lia.
  - intros i e Hi (P1 & P2). destruct (st_Some e i z) as [e' E']; [lia|]. exists e'. split; auto. split; [rewrite (st_zlen _ _ _ _ E'); auto|].
    intros k. rewrite (ld_st _ _ _ _ _ E'), P2. destruct (Z.eqb_spec i k); destruct (Z.leb_spec 0 k); destruct (Z.ltb_spec k i); destruct (Z.ltb_spec k (i + 1)); cbn [andb]; auto; lia.
  - eauto.
Qed.

Section Node.
Context {F : num} {K : cring}.
Add Ring Kring : (cth K).
Local Open Scope ring_K.
Variable kern : list F -> list F -> Z -> Z -> K.
Variable simd : Z.
Hypothesis Hsimd : 1 <= simd.
Variable h : h2rep F K.
Hypothesis R : rep_ok h.
Hypothesis M0 : h_minlevel h = 0.
Variables (pt : Z -> list F) (js : Z -> list Z) (adm inadm : list (Z * Z)) (sB sD : Z -> Z -> F) (O : Z -> Z -> K) (c : pctx F K).
Hypothesis PO : per_ok h pt js adm inadm sB sD O c.
Hypothesis Hnz : forall k i n1 n, getz adm k = Some (i, n1) -> ld (h_nr h) i = Some n -> n <> 0.
Notation kd := (h_kdim h).
Notation np := (h_npoint h).
Notation nth := (h_nthread h).
Variables mv nt : bool.
Notation pLy := (pLy h mv).
Notation ply := (ply h mv).
Notation fm := (bfam kern h pt js adm sB).
Notation yv_ok := (yv_ok h mv).

(** *** y1 *)
(** A buffer of y1 that holds zeros, and one that has been filled. *)
Definition clean (y1 : list (dmat K)) (i : Z) : Prop := exists m, getz y1 i = Some m /\
  (dm_ld m = 0 \/ (dm_ncol m = rank h i /\ 1 <= rank h i /\ rank h i <= zlen (dm_data m) /\ forall k, 0 <= k < rank h i -> ld (dm_data m) k = Some c0)).
Definition live (y1 : list (dmat K)) : Prop := forall i n m, getz y1 i = Some m -> ld (h_nr h) i = Some n -> n <> 0 -> dm_ld m <> 0.

Lemma init_y1_shape_live s s' : init_y1_shape h s = Some s' -> mats_mok (h_nnode h) (s_y1 s) -> exists y1, s_y1 s' = Some y1 /\ live y1.
Proof.
  intros E Hm. destruct (init_y1_shape_spec h R s Hm) as (y1 & E1 & Z1 & _). rewrite E1 in E. injection E as <-. exists y1. split; [reflexivity|].
  unfold init_y1_shape in E1. cbv zeta in E1. match type of E1 with bind ?e _ = _ => destruct e as [y|] eqn:Ef; [|discriminate] end. cbn [bind] in E1.
  injection E1 as E1. assert (y = y1) by congruence. subst y.
  assert (HP : forall i n m, i < h_nnode h -> getz y1 i = Some m -> ld (h_nr h) i = Some n -> n <> 0 -> dm_ld m <> 0).
  { apply (zfor_inv_partial (fun j (y : list (dmat K)) => forall i n m, i < j -> getz y i = Some m -> ld (h_nr h) i = Some n -> n <> 0 -> dm_ld m <> 0) _ _ _ _ _ Ef).
    - pose proof (zlen_nonneg y1). lia.
    - intros i n m Hi G. apply getz_range in G. lia.
    - intros k y y' Hk IH Ek i n m Hi G En Hn. destruct (getz y k) as [mk|] eqn:Emk; [|discriminate]. cbn [bind] in Ek.
      destruct (ld (h_nr h) k) as [nk|] eqn:Enk; [|discriminate]. cbn [bind] in Ek. destruct (U_at h R k Hk) as (U & EU & Er & _ & HU).
      rewrite EU in Ek. cbn [bind] in Ek. rewrite (getz_setz _ _ _ _ _ Ek) in G. destruct (Z.eqb_spec k i) as [->|]; [|eapply IH; eauto; lia].
      injection G as <-. assert (nk = n) by congruence. subst nk. destruct (Z.eqb_spec n 0); [contradiction|].
      destruct (HU ltac:(pose proof (level_range h R i Hk); lia)) as (H1 & _). rewrite <- Er in H1. unfold dm_resize. destruct (_ <? _); cbn [dm_ld]; lia. }
  intros i n m G. apply (HP i n m); auto. apply getz_range in G. lia.
Qed.

Lemma init_y1_live team s s' : init_y1 h team s = Some s' -> mats_mok (h_nnode h) (s_y1 s) -> exists y1, s_y1 s' = Some y1 /\ live y1.
Proof.
  intros E Hm. unfold init_y1 in E. destruct (init_y1_shape h s) as [s1|] eqn:E1; [|discriminate]. cbn [bind] in E.
  pose proof (init_y1_shape_live s s1 E1 Hm) as H1. revert E. apply (run_inv (fun s => exists y1, s_y1 s = Some y1 /\ live y1)); auto.
  intros a s2 s3 Ha (y2 & E2 & L2) E3. apply in_map_iff in Ha as (tid & <- & _). unfold init_y1_zero in E3. rewrite E2 in E3. cbn [bind] in E3.
  match type of E3 with bind ?e _ = _ => destruct e as [y3|] eqn:Ef; [|discriminate] end. cbn [bind] in E3. injection E3 as <-. exists y3. split; [reflexivity|].
  destruct (ct_root _ _ _ _ _ _ (ro_tree _ R)) as (Hn1 & _).
  apply (zfor_inv_partial (fun _ (y : list (dmat K)) => live y) _ _ _ _ _ Ef); auto; [lia|].
  intros k y y' Hk IH Ek i n m G En Hn. destruct (getz y k) as [mk|] eqn:Emk; [|discriminate]. cbn [bind] in Ek. destruct (dm_ld mk =? 0); [injection Ek as <-; eapply IH; eauto|].
  match type of Ek with bind ?e _ = _ => destruct e as [d|]; [|discriminate] end. cbn [bind] in Ek.
  rewrite (getz_setz _ _ _ _ _ Ek) in G. destruct (Z.eqb_spec k i) as [->|]; [|eapply IH; eauto]. injection G as <-. cbn [dm_set_data dm_ld]. eapply IH; eauto.
Qed.

Definition y1_start (y1 : list (dmat K)) : Prop := zlen y1 = h_nnode h /\ Forall mok y1 /\ live y1 /\ forall i, 0 <= i < h_nnode h -> clean y1 i.

Lemma init_y1_start team s : Permutation team (zrange 0 nth) -> mats_mok (h_nnode h) (s_y1 s) ->
  exists y1, init_y1 h team s = Some (set_y1 s y1) /\ y1_start y1.
Proof.
  intros Ht Hm. destruct (init_y1_spec h R team s Ht Hm) as (y1 & E & Z1 & F1 & W1 & _ & V1). exists y1. split; auto.
  destruct (init_y1_live _ _ _ E Hm) as (y1' & E' & L'). cbn [set_y1 s_y1] in E'. injection E' as <-. split; auto. split; auto. split; auto.
  destruct (ro_dims _ R) as (_ & _ & D3 & _).
  intros i Hi. destruct (W1 i Hi) as (m & Em & Hw). exists m. split; auto. destruct (Z.eq_dec (dm_ld m) 0) as [H0|H0]; [auto|]. destruct Hw as [?|(H1 & H2 & H3 & H4 & H5)]; [contradiction|].
  right. do 2 (split; auto). split; [nia|].
  intros k Hk. destruct (H5 k ltac:(nia)) as (v & Ev). specialize (V1 i 0 k ltac:(lia) Hk). rewrite Z.mul_0_l, Z.add_0_l in V1. unfold y1val in V1. rewrite Em, Ev in V1.
  destruct (Z.eqb_spec (dm_ld m) 0); [contradiction|]. cbn [val] in V1. now rewrite Ev, V1.
Qed.

Lemma clean_zero (m : dmat K) i n : (dm_ld m = 0 \/ (dm_ncol m = rank h i /\ 1 <= rank h i /\ rank h i <= zlen (dm_data m) /\ forall k, 0 <= k < rank h i -> ld (dm_data m) k = Some c0)) ->
  0 <= n <= zlen (dm_data m) ->
  exists d, mzero c0 (dm_data m) n = Some d /\ zlen d = zlen (dm_data m) /\
   (dm_ld m = 0 \/ (dm_ncol m = rank h i /\ 1 <= rank h i /\ rank h i <= zlen d /\ forall k, 0 <= k < rank h i -> ld d k = Some c0)).
Proof.
  intros Hc Hn. destruct (mzero_full c0 (dm_data m) n Hn) as (d & E & Zd & G). exists d. split; auto. split; auto.
  destruct Hc as [?|(H1 & H2 & H3 & H4)]; auto. right. do 2 (split; auto). split; [lia|]. intros k Hk. rewrite G. destruct (_ && _); auto.
Qed.

Lemma zero_node_spec i s y1 : s_y1 s = Some y1 -> y1_start y1 -> 0 <= i < h_nnode h ->
  exists y1', pv_zero_node i s = Some (set_y1 s y1') /\ y1_start y1'.
Proof.
  intros E (Z1 & F1 & L1 & C1) Hi. unfold pv_zero_node. rewrite E. cbn [bind]. destruct (C1 i Hi) as (m & Em & Hc). rewrite Em. cbn [bind].
  destruct (Z.eqb_spec (dm_ld m) 0) as [H0|H0].
  - exists y1. split; [destruct s; cbn in *; now subst|]. repeat (split; auto).
  - destruct (clean_zero m i (dm_ncol m) Hc) as (d & Ed & Zd & Hd). { destruct Hc as [?|(H1 & H2 & H3 & _)]; [contradiction|]. lia. }
    rewrite Ed. cbn [bind]. destruct (setz_Some y1 i (dm_set_data m d)) as [y1' Es]; [lia|]. rewrite Es. cbn [bind]. exists y1'. split; auto.
    split; [rewrite (setz_zlen _ _ _ _ Es); auto|]. pose proof (Forall_getz _ _ _ _ F1 Em) as [Om Km]. split.
    { eapply (Forall_setz _ _ _ _ _ F1); [|exact Es]. split; [now apply dm_set_data_ok|]. cbn [dm_set_data dm_nrow dm_ncol dm_data]. lia. }
    split.
    + intros j n m' G. rewrite (getz_setz _ _ _ _ _ Es) in G. destruct (Z.eqb_spec i j) as [->|]; [|eapply L1; eauto]. injection G as <-. cbn [dm_set_data dm_ld]. eapply L1; eauto.
    + intros j Hj. unfold clean. rewrite (getz_setz _ _ _ _ _ Es). destruct (Z.eqb_spec i j) as [->|]; [|exact (C1 j Hj)]. exists (dm_set_data m d). split; [reflexivity|exact Hd].
Qed.

Lemma zero_spec evs s y1 : omp_for nth (h_nnode h) evs -> s_y1 s = Some y1 -> y1_start y1 ->
  exists y1', run (map (fun ev : Z * Z => pv_zero_node (snd ev)) evs) s = Some (set_y1 s y1') /\ y1_start y1'.
Proof.
  intros [_ Hp] E S0.
  destruct (run_each snd (fun ev : Z * Z => pv_zero_node (snd ev)) (fun _ s' => exists y1', s' = set_y1 s y1' /\ y1_start y1') evs [] s) as (s' & E' & y1' & -> & S').
  - eapply Permutation_NoDup; [symmetry; exact Hp|apply NoDup_zrange].
  - intros e He [].
  - exists y1. split; auto. destruct s; cbn in *; now subst.
  - intros done ev s1 He Hd (y & -> & Sy).
    assert (Hi : 0 <= snd ev < h_nnode h). { apply In_zrange. eapply Permutation_in; [exact Hp|]. now apply in_map. }
    destruct (zero_node_spec (snd ev) (set_y1 s y) y eq_refl Sy Hi) as (y' & E2 & S2). exists (set_y1 s y'). split; auto. exists y'. auto.
  - eauto.
Qed.

(** *** One node *)
Variable xv : Z -> K.
Variables (y0 : list (dmat K)) (x : mem K).
Hypothesis Zy0 : zlen y0 = h_nnode h.
Hypothesis Gy0 : forall i, 0 <= i < h_nnode h -> exists m, getz y0 i = Some m /\ forall k, 0 <= k < rank h i -> ld (dm_data m) (ply i k) = Some (yhat h xv i k).
Hypothesis Hx : forall p, 0 <= p < h_kms h -> ld x (pLy p) = Some (xv p).
Notation ntot := (ntot h).
Notation vterm := (vterm kern h pt js adm sB xv).

Definition pv_st (s : mvst K) (y1 m0 : list (dmat K)) (y : mem K) : mvst K := set_y nt (set_y1 (set_m0 s m0) y1) y.
Lemma pv_st_y s y1 m0 y : y_of nt (pv_st s y1 m0 y) = y.
Proof. unfold pv_st, y_of, set_y. destruct nt; reflexivity. Qed.
Lemma pv_st_y0 s y1 m0 y : s_y0 (pv_st s y1 m0 y) = s_y0 s.
Proof. unfold pv_st, set_y. destruct nt; reflexivity. Qed.
Lemma pv_st_y1 s y1 m0 y : s_y1 (pv_st s y1 m0 y) = Some y1.
Proof. unfold pv_st, set_y. destruct nt; reflexivity. Qed.
Lemma pv_st_m0 s y1 m0 y : s_m0 (pv_st s y1 m0 y) = m0.
Proof. unfold pv_st, set_y. destruct nt; reflexivity. Qed.
Lemma pv_st_st s y1 m0 y y1' m0' y' : set_y nt (set_y1 (set_m0 (pv_st s y1 m0 y) m0') y1') y' = pv_st s y1' m0' y'.
Proof. unfold pv_st, set_y. destruct nt; reflexivity. Qed.

(** A buffer of y1 after the product. *)
Definition doney (y1 : list (dmat K)) (i : Z) : Prop := exists m, getz y1 i = Some m /\
  (dm_ld m = 0 \/ (dm_ncol m = rank h i /\ 1 <= rank h i /\ rank h i <= zlen (dm_data m) /\ forall k, 0 <= k < rank h i -> exists v, ld (dm_data m) k = Some v)).

Lemma ply_range i k : 0 <= i < h_nnode h -> 0 <= k < rank h i -> 0 <= ply i k < rank h i.
Proof.
  intros Hi Hk. destruct (ply_eq h R pt js adm inadm sB sD O c PO mv i k Hi) as (-> & E). rewrite E in *. apply lay_range; auto. apply kd1; auto.
Qed.
Lemma ply_onto i k : 0 <= i < h_nnode h -> 0 <= k < rank h i -> exists k', 0 <= k' < rank h i /\ ply i k' = k.
Proof.
  intros Hi Hk. destruct (po_js _ _ _ _ _ _ _ _ _ PO i Hi) as (EJ & _). pose proof (kd1 h R) as Hkd. unfold Proof_PerMvMid.ply.
  rewrite EJ, (Z.mul_comm kd), Z.div_mul in * by lia. unfold lay. destruct mv; [|eauto].
  assert (Hz : 0 < zlen (js i)) by nia.
  assert (Hq : 0 <= k / zlen (js i) < kd) by (split; [apply Z.div_pos; lia|apply Z.div_lt_upper_bound; lia]).
  pose proof (Z.mod_pos_bound k (zlen (js i)) Hz) as Hr. pose proof (Z.div_mod k (zlen (js i)) ltac:(lia)) as Hd.
  exists ((k mod zlen (js i)) * kd + k / zlen (js i))%Z. split; [nia|].
  assert (E1 : ((k mod zlen (js i) * kd + k / zlen (js i)) / kd)%Z = (k mod zlen (js i))%Z) by (rewrite Z.div_add_l, (Z.div_small (k / _)) by lia; lia).
  assert (E2 : ((k mod zlen (js i) * kd + k / zlen (js i)) mod kd)%Z = (k / zlen (js i))%Z) by (rewrite Z.add_comm, Z.mod_add, Z.mod_small by lia; lia).
  rewrite E1, E2. lia.
Qed.

Definition fill_ok (y1 : list (dmat K)) (i : Z) : Prop := clean y1 i \/ doney y1 i.
Lemma live_set y1 y1' i m d : getz y1 i = Some m -> live y1 -> setz y1 i (dm_set_data m d) = Some y1' -> live y1'.
Proof.
  intros Em L Es j n m' G En Hn. rewrite (getz_setz _ _ _ _ _ Es) in G. destruct (Z.eqb_spec i j) as [->|]; [|eapply L; eauto]. injection G as <-. cbn [dm_set_data dm_ld]. eapply L; eauto.
Qed.

Lemma mid_node_spec s y1 m0 ms y f tid n0 : s_y0 s = Some y0 -> zlen y1 = h_nnode h -> Forall mok y1 -> live y1 -> clean y1 n0 -> m0_ok h m0 -> m1_ok h ms ->
  yv_ok y f -> 0 <= tid < nth -> 0 <= n0 < h_nnode h ->
  exists y1' m0' ms' y' f', pv_mid_node kern simd mv nt h c x tid n0 (pv_st s y1 m0 y, ms) = Some (pv_st s y1' m0' y', ms') /\
    zlen y1' = h_nnode h /\ Forall mok y1' /\ live y1' /\ (forall j, j <> n0 -> getz y1' j = getz y1 j) /\ doney y1' n0 /\
    m0_ok h m0' /\ m1_ok h ms' /\ zlen y' = zlen y /\ yv_ok y' f' /\
    (fm_ents fm n0 = [] -> forall r, 0 <= r < rank h n0 -> y1val y1' n0 (ply n0 r) = c0) /\
    forall p, 0 <= p < h_kms h -> ntot n0 f' (fun r => y1val y1' n0 (ply n0 r)) p = f p + lsum (fun k => vterm n0 k p) (fm_ents fm n0).
Proof.
  intros E0 Z1 F1 L1 (m & Em & Hc) (Zm & Fm) (Zs & Fs) Hy Ht Hn. unfold pv_mid_node. rewrite pv_st_y0, pv_st_y1, pv_st_m0, pv_st_y, E0. cbn [bind].
  destruct (getz_in m0 tid ltac:(lia)) as [bij Eb]. rewrite Eb. cbn [bind].
  destruct (getz_in ms tid ltac:(lia)) as [m1 Em1]. rewrite Em1. cbn [bind]. rewrite Em. cbn [bind].
  pose proof (Forall_getz _ _ _ _ F1 Em) as [Om Km].
  destruct (clean_zero m n0 (dm_nrow m * dm_ncol m) Hc Km) as (d0 & Ed & Zd & Hd0). rewrite Ed. cbn [bind].
  destruct (po_B _ _ _ _ _ _ _ _ _ PO n0 Hn) as (a & b & Ea & Eb' & Hab & Hperm). rewrite Ea, Eb'. cbn [bind].
  rewrite numbered_row in Hperm. unfold cells in Hperm.
  destruct (ro_nr _ R) as [_ Hnr]. destruct (Hnr n0 Hn) as (nn & Enn & _).
  pose (P := fun (done : list Z) (w : dmat K * dmat F * dmat K * mem K) => let '(bij, m1, y10, y') := w in exists d f' g,
    dm_ok bij /\ dm_ok m1 /\ y10 = dm_set_data m d /\ zlen d = zlen (dm_data m) /\ zlen y' = zlen y /\ yv_ok y' f' /\
    (dm_ld m <> 0 -> forall r, 0 <= r < rank h n0 -> ld d (ply n0 r) = Some (g r)) /\
    (dm_ld m = 0 -> forall r, g r = c0) /\ (done = [] -> forall r, g r = c0) /\
    forall p, 0 <= p < h_kms h -> ntot n0 f' g p = f p + lsum (fun k => vterm n0 k p) done).
  destruct (pos_loop (fm_ents fm n0) (fun i => (ld (bm_colidx (q_bm c)) i, ld (bm_val (q_bm c)) i)) (fun k => (Some (second adm k), Some (0 + k + 1)%Z)) a b
    (pv_mid_pair kern simd mv h c y0 x n0) P (bij, m1, dm_set_data m d0, y))
    as ([[[bij' m1'] y10'] y'] & done & El & (d & f' & g & Q1 & Q1' & -> & Q3 & Q4 & Q5 & Q6 & Q7 & Q7' & Q8) & Hd); auto.
  - exists d0, f, (fun _ => c0). split; [eapply Forall_getz; eauto|]. split; [eapply (Forall_getz _ _ _ _ Fs); eauto|]. do 4 (split; auto). split; [|split; [auto|split; [auto|]]].
    + intros Hl r Hr. destruct Hd0 as [?|(_ & _ & _ & Hz)]; [contradiction|]. apply Hz. apply ply_range; auto.
    + intros p Hp. unfold Proof_PerMvMid.ntot. rewrite lsum_nil. rewrite (rsum_zero 0 (rank h n0)); [ring|]. intros; ring.
  - intros k done [[[bijc m1c] y10c] yc] i Hk Hki (d & f' & g & Q1 & Q1' & -> & Q3 & Q4 & Q5 & Q6 & Q7 & Q7' & Q8). cbv beta in Hki. injection Hki as Ki1 Ki2.
    pose proof (Hnz k n0 _ nn (bfam_in kern h pt js adm sB n0 k Hk) Enn) as Hne. pose proof (L1 n0 nn m Em Enn Hne) as Hl.
    destruct (pv_mid_pair_spec kern simd Hsimd h R M0 pt js adm inadm sB sD O c PO mv xv y0 x Zy0 Gy0 Hx n0 k i bijc (dm_set_data m d) m1c yc f' g Hn Hk Ki1 Ki2 Q1 Q1')
      as (bij' & m1' & d' & y' & f2 & g2 & E2 & O2 & O2' & Zd2 & V2 & Zp2 & Hp2 & T2); auto.
    exists (bij', m1', dm_set_data m d', y'). split; [exact E2|]. exists d', f2, g2. split; auto. split; auto. split; auto. split; [cbn [dm_set_data dm_data] in Zd2; lia|].
    split; [lia|]. split; auto. split; auto. split; [intros; lia|]. split; [discriminate|]. intros p Hp. rewrite T2, Q8, lsum_cons by auto. ring.
  - rewrite El. cbn [bind]. destruct (setz_Some m0 tid bij') as [m0' Es]; [lia|]. rewrite Es. cbn [bind].
    destruct (setz_Some ms tid m1') as [ms' Esm]; [lia|]. rewrite Esm. cbn [bind].
    destruct (setz_Some y1 n0 (dm_set_data m d)) as [y1' Es1]; [lia|]. rewrite Es1. cbn [bind]. rewrite pv_st_st.
    exists y1', m0', ms', y', f'. split; [reflexivity|]. pose proof (setz_zlen _ _ _ _ Es1) as Z1'. split; [lia|].
    split; [eapply (Forall_setz _ _ _ _ _ F1); [|exact Es1]; split; [now apply dm_set_data_ok|]; cbn [dm_set_data dm_nrow dm_ncol dm_data]; lia|].
    split; [exact (live_set y1 y1' n0 m d Em L1 Es1)|].
    assert (Gy : forall j, getz y1' j = if n0 =? j then Some (dm_set_data m d) else getz y1 j) by (intros j; apply (getz_setz _ _ _ _ _ Es1)).
    assert (Yv : forall r, 0 <= r < rank h n0 -> y1val y1' n0 (ply n0 r) = g r).
    { intros r Hr. unfold y1val. rewrite Gy, Z.eqb_refl. cbn [dm_set_data dm_ld dm_data]. destruct (Z.eqb_spec (dm_ld m) 0) as [H0|H0].
      * now rewrite Q7.
      * now rewrite Q6 by auto. }
    split; [|split; [|split; [|split; [|split; [|split; [|split]]]]]]; auto.
    + intros j Hj. rewrite Gy. destruct (Z.eqb_spec n0 j); [congruence|auto].
    + exists (dm_set_data m d). rewrite Gy, Z.eqb_refl. split; auto. cbn [dm_set_data dm_ld dm_data dm_ncol].
      destruct (Z.eq_dec (dm_ld m) 0) as [H0|H0]; [auto|]. destruct Hc as [?|(H1 & H2 & H3 & _)]; [contradiction|]. right. do 2 (split; auto). split; [lia|].
      intros k Hk. destruct (ply_onto n0 k Hn Hk) as (k' & Hk' & <-). rewrite Q6; eauto.
    + split; [rewrite (setz_zlen _ _ _ _ Es); auto|]. eapply (Forall_setz _ _ _ _ _ Fm); [|exact Es]; auto.
    + split; [rewrite (setz_zlen _ _ _ _ Esm); auto|]. eapply (Forall_setz _ _ _ _ _ Fs); [|exact Esm]; auto.
    + intros Hem r Hr. rewrite Yv by auto. apply Q7'. rewrite Hem in Hd. apply Permutation_nil. now symmetry.
    + intros p Hp. rewrite <- (lsum_perm _ _ _ Hd). rewrite <- Q8 by auto. unfold Proof_PerMvMid.ntot. f_equal. apply rsum_ext. intros r Hr. f_equal. now apply Yv.
Qed.

(** What the coefficients in y1 are still to add to row p. *)
Definition ycoef (y1 : list (dmat K)) (i p : Z) : K := rsum 0 (rank h i) (fun r => basis h i p r * y1val y1 i (ply i r)).

Lemma mid_spec team zs evs s ms f : Permutation team (zrange 0 nth) -> omp_for nth (h_nnode h) zs -> omp_for nth (h_nnode h) evs -> s_y0 s = Some y0 ->
  mats_mok (h_nnode h) (s_y1 s) -> m0_ok h (s_m0 s) -> m1_ok h ms -> yv_ok (y_of nt s) f ->
  exists y1 m0 ms' y f', pv_mid kern simd mv nt h c x team zs evs (s, ms) = Some (pv_st s y1 m0 y, ms') /\
    zlen y1 = h_nnode h /\ Forall mok y1 /\ (forall i, 0 <= i < h_nnode h -> doney y1 i) /\
    m0_ok h m0 /\ m1_ok h ms' /\ zlen y = zlen (y_of nt s) /\ yv_ok y f' /\
    (forall i, 0 <= i < h_nnode h -> fm_ents fm i = [] -> forall r, 0 <= r < rank h i -> y1val y1 i (ply i r) = c0) /\
    forall p, 0 <= p < h_kms h ->
      f' p + rsum 0 (h_nnode h) (fun i => ycoef y1 i p) = f p + rsum 0 (h_nnode h) (fun i => lsum (fun k => vterm i k p) (fm_ents fm i)).
Proof.
  intros Hteam Hzs [Ht Hpm] E0 Hy1 Hm0 Hms Hy. unfold pv_mid. cbn [fst snd].
  destruct (init_y1_start team s Hteam Hy1) as (y1a & Ea & Sa). rewrite Ea. cbn [bind].
  destruct (zero_spec zs (set_y1 s y1a) y1a Hzs eq_refl Sa) as (y1b & Eb & (Zb & Fb & Lb & Cb)). rewrite Eb. cbn [bind].
  replace (set_y1 (set_y1 s y1a) y1b) with (pv_st s y1b (s_m0 s) (y_of nt s)).
  2:{ unfold pv_st, y_of, set_y. destruct nt; destruct s; reflexivity. }
  rewrite Forall_forall in Ht.
  destruct (run_each snd (fun ev => pv_mid_node kern simd mv nt h c x (fst ev) (snd ev))
    (fun done z => exists y1 m0 ms' y f', z = (pv_st s y1 m0 y, ms') /\ zlen y1 = h_nnode h /\ Forall mok y1 /\ live y1 /\
      (forall i, 0 <= i < h_nnode h -> ~ In i done -> clean y1 i) /\ (forall i, In i done -> doney y1 i) /\
      m0_ok h m0 /\ m1_ok h ms' /\ zlen y = zlen (y_of nt s) /\ yv_ok y f' /\
      (forall i r, In i done -> fm_ents fm i = [] -> 0 <= r < rank h i -> y1val y1 i (ply i r) = c0) /\
      forall p, 0 <= p < h_kms h -> f' p + lsum (fun i => ycoef y1 i p) done = f p + lsum (fun i => lsum (fun k => vterm i k p) (fm_ents fm i)) done)
    evs [] (pv_st s y1b (s_m0 s) (y_of nt s), ms))
    as (s' & Er & (y1 & m0 & ms' & y & f' & -> & Q1 & Q2 & Q3 & Q4 & Q5 & Q6 & Q7 & Q8 & Q9 & Q9' & Q10)).
  - eapply Permutation_NoDup; [symmetry; exact Hpm|]. apply NoDup_zrange.
  - intros e He [].
  - exists y1b, (s_m0 s), ms, (y_of nt s), f. split; auto. split; auto. split; auto. split; auto. split; [auto|]. split; [intros i []|]. do 4 (split; auto). split; [intros i r []|auto].
  - intros done ev s' Hev Hnd (y1 & m0 & ms' & y & f' & -> & Q1 & Q2 & Q3 & Q4 & Q5 & Q6 & Q7 & Q8 & Q9 & Q9' & Q10).
    assert (Hn : 0 <= snd ev < h_nnode h). { apply In_zrange. eapply Permutation_in; [exact Hpm|]. now apply in_map. }
    destruct (mid_node_spec s y1 m0 ms' y f' (fst ev) (snd ev) E0 Q1 Q2 Q3 (Q4 _ Hn Hnd) Q6 Q7 Q9) as (y2 & m2 & ms2 & yy & f2 & E2 & A1 & A2 & A3 & A4 & A5 & A6 & A7 & A8 & A9 & A9' & A10); auto.
    assert (Yk : forall i k, In i done -> y1val y2 i k = y1val y1 i k). { intros i k Hi. unfold y1val. rewrite A4; auto. intros ->. contradiction. }
    exists (pv_st s y2 m2 yy, ms2). split; auto. exists y2, m2, ms2, yy, f2. split; auto. split; auto. split; auto. split; auto. split.
    { intros i Hi Hni. destruct (Q4 i Hi) as (m & Em & Hm). { intros H. apply Hni. now right. } exists m. rewrite A4; auto. intros ->. apply Hni. now left. }
    split.
    { intros i [<-|Hi]; auto. destruct (Q5 i Hi) as (m & Em & Hm). exists m. rewrite A4; auto. intros ->. contradiction. }
    split; auto. split; auto. split; [lia|]. split; auto. split.
    { intros i r [<-|Hi] Hem Hr; [auto|]. rewrite Yk by auto. eauto. }
    intros p Hp. rewrite !lsum_cons.
    rewrite (lsum_ext _ (fun i => ycoef y1 i p) done).
    2:{ intros i Hi. unfold ycoef. apply rsum_ext. intros r Hr. now rewrite Yk. }
    specialize (A10 p Hp). unfold Proof_PerMvMid.ntot in A10. fold (ycoef y2 (snd ev) p) in A10.
    transitivity (f2 p + ycoef y2 (snd ev) p + lsum (fun i => ycoef y1 i p) done); [ring|].
    rewrite A10. transitivity (f' p + lsum (fun i => ycoef y1 i p) done + lsum (fun k => vterm (snd ev) k p) (fm_ents fm (snd ev))); [ring|].
    rewrite Q10 by auto. ring.
  - exists y1, m0, ms', y, f'. split; auto. rewrite app_nil_r in Q4, Q5, Q9', Q10.
    assert (Hin : forall i, 0 <= i < h_nnode h -> In i (rev (map snd evs))).
    { intros i Hi. apply -> in_rev. apply (Permutation_in _ (Permutation_sym Hpm)). apply In_zrange. lia. }
    split; auto. split; auto. split; [auto|]. split; auto. split; auto. split; auto. split; auto. split; [intros i Hi Hem r Hr; eapply Q9'; eauto|].
    intros p Hp. specialize (Q10 p Hp).
    assert (Hpr : Permutation (rev (map snd evs)) (zrange 0 (h_nnode h))) by (rewrite <- Permutation_rev; exact Hpm).
    rewrite !(lsum_perm _ _ _ Hpr) in Q10. exact Q10.
Qed.
End Node.
