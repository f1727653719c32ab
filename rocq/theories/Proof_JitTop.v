(** The whole just-in-time product (Model_JIT.v). *)
From Coq Require Import ZArith List Lia Bool Permutation.
From Verif Require Import Base Mem Num CRing Conc Model_Utils Spec_Utils Proof_Utils Model_Dense Spec_Dense Proof_Dense2 Proof_Dense3 Model_Partition Spec_Tree Model_Matvec Spec_Matvec Proof_Gemv Proof_MvTree Proof_MvFwd Proof_MvMid Proof_MvBwd Proof_MvTop Proof_Sched Model_Build Model_JIT Proof_JitBlk Proof_JitExt Proof_JitApply Proof_JitMid Proof_JitDense.
Import ListNotations.
Open Scope Z_scope.

Lemma transpose_dmat_spec {K : cring} ord n_thread nr nc (src dst : mem K) lds ldd f : 1 <= n_thread -> 0 <= nr ->
  (forall ths, inter ths (ord ths)) -> holds_at src lds nr nc f -> fits nc nr 0 ldd (zlen dst) ->
  exists d, transpose_dmat ord n_thread nr nc src lds dst ldd = Some d /\ zlen d = zlen dst /\
    forall i j, 0 <= i < nc -> 0 <= j < nr -> ld d (i * ldd + j) = Some (f j i).
Proof.
  intros Ht Hn Ho Hh Hf. unfold transpose_dmat. destruct (transpose_threads_defined n_thread nr nc src lds ldd Ht Hn) as [ths E]. rewrite E. cbn [bind].
  destruct (transpose_spec n_thread nr nc src dst lds ldd f ths (ord ths) Ht Hn Hh Hf E (Ho ths)) as (d & Ed & Zd & Gd & _). eauto.
Qed.
Lemma fits_full nc nr n : 0 <= nc -> 0 <= nr -> nc * nr <= n -> fits nc nr 0 nr n.
Proof. intros. unfold fits. do 4 (split; [lia|]). intros. nia. Qed.
Lemma ld_mcpy {A} (dst src dst' : mem A) n k : mcpy dst 0 src 0 n = Some dst' -> 0 <= n <= zlen dst -> n <= zlen src -> 0 <= k < n -> ld dst' k = ld src k.
Proof.
  intros E Hd Hs Hk. destruct (mcpy_spec dst 0 src 0 n) as (d & Ed & _ & G); try lia. replace d with dst' in * by congruence.
  unfold ld. rewrite G. destruct (Z.leb_spec 0 k); [|lia]. destruct (Z.ltb_spec k (0 + n)); [|lia]. cbn [andb]. now rewrite Z.add_0_l, Z.sub_0_r.
Qed.

Section JTop.
Context {F : num} {K : cring}.
Add Ring Kring : (cth K).
Local Open Scope ring_K.
Variable kern : list F -> list F -> Z -> Z -> K.
Variables (simd esz : Z) (h : h2rep F K) (c : jctx F).
Notation kd := (h_kdim h).
Notation b := (jx_bimv c).
Notation nth := (h_nthread h).
Hypothesis R : rep_ok h.
Variables (CP : Z -> list F) (SP : Z -> Z -> list F).
Hypothesis J : jit_data kern simd esz h c CP SP.
Notation Ly := (Ly h c).
Notation ly := (ly h c).
Notation D := (fun p => 0 <= p < h_kms h).

(** y0 buffers are empty or have as many rows as the node's basis has columns. *)
Definition y0_shapes (y0 : option (list (dmat K))) : Prop :=
  forall l i m, y0 = Some l -> getz l i = Some m -> dm_ld m = 0 \/ dm_nrow m = rank h i.
Definition jstate_ok (sx : mvst K * mem K) : Prop :=
  state_ok h (fst sx) /\ y0_shapes (s_y0 (fst sx)) /\ h_kms h <= zlen (snd sx).

Lemma fwd_node_shapes node s s' : y0_shapes (s_y0 s) -> fwd_node h node s = Some s' -> y0_shapes (s_y0 s').
Proof.
  intros H E. unfold fwd_node in E.
  destruct (ld (a_nchild (h_t h)) node) as [nc|]; [|discriminate]. cbn [bind] in E.
  destruct (getz (h_U h) node) as [U|] eqn:EU; [|discriminate]. cbn [bind] in E.
  destruct (s_y0 s) as [y0|] eqn:Ey; [|discriminate]. cbn [bind] in E.
  destruct (getz y0 node) as [yn|] eqn:En; [|discriminate]. cbn [bind] in E.
  match type of E with bind ?e _ = _ => destruct e as [d|]; [|discriminate] end. cbn [bind] in E.
  destruct (setz _ _ _) as [y0'|] eqn:Es; [|discriminate]. cbn [bind] in E. injection E as <-. cbn [set_y0 s_y0].
  intros l i m El G. injection El as <-. rewrite (getz_setz _ _ _ _ _ Es) in G. destruct (Z.eqb_spec node i).
  - injection G as <-. right. subst i. cbn [dm_set_data dm_nrow]. unfold rank. rewrite EU. unfold dm_resize. destruct (_ <? _); reflexivity.
  - eapply H; eauto.
Qed.
Lemma run_inv {St} (P : St -> Prop) (l : list (act St)) : forall s s', P s -> (forall a s s', In a l -> P s -> a s = Some s' -> P s') -> run l s = Some s' -> P s'.
Proof.
  induction l as [|a l IH]; intros s s' H0 Hs E; cbn [run] in E; [congruence|].
  destruct (a s) as [s1|] eqn:E1; [|discriminate]. cbn [bind] in E. eapply IH; [| |exact E].
  - eapply Hs; eauto. now left.
  - intros a' s2 s3 Hin. apply Hs. now right.
Qed.
Lemma fwd_transform_shapes sched s s' : y0_shapes (s_y0 s) -> fwd_transform h sched s = Some s' -> y0_shapes (s_y0 s').
Proof.
  intros H E. unfold fwd_transform in E. cbv zeta in E.
  assert (H0 : y0_shapes (s_y0 (init_y0 h s))).
  { unfold init_y0. destruct (s_y0 s) as [y|] eqn:Ey; [rewrite Ey; auto|]. cbn [set_y0 s_y0]. intros l i m El G. injection El as <-.
    rewrite getz_map in G. unfold rank. destruct (getz (h_U h) i) as [U|]; [|discriminate]. cbn [option_map] in G. injection G as <-.
    destruct (Z.ltb_spec 0 (dm_ncol U)); cbn [dm_ld dm_nrow dm_init]; lia. }
  apply (zfor_inv_partial (fun _ s => y0_shapes (s_y0 s)) _ _ _ _ _ E).
  - destruct (ro_dims _ R) as (_ & _ & _ & _ & _ & Hl). lia.
  - auto.
  - intros k s1 s2 Hk H1 E1. unfold level_sweep in E1. eapply (run_inv (fun s => y0_shapes (s_y0 s))); [exact H1| |exact E1].
    intros a s3 s4 Ha H3 E3. apply in_map_iff in Ha as (ev & <- & _). cbv beta in E3.
    destruct ev as [tid j]. match type of E3 with bind ?e _ = _ => destruct e as [nd|]; [|discriminate] end. cbn [bind] in E3. eapply fwd_node_shapes; eauto.
Qed.

Hypothesis Hb : b = true.

(** *** y0 *)
Lemma trans_y0_node_spec xv tid i s y0 : s_y0 s = Some y0 -> zlen y0 = h_nnode h -> Forall dm_ok y0 -> y0_shapes (Some y0) ->
  m0_ok h (s_m0 s) -> 0 <= tid < nth -> 0 <= i < h_nnode h -> (h_minlevel h <= level h i -> y0_good h xv y0 i) ->
  exists y0' m0', trans_y0_node h tid i s = Some (set_y0 (set_m0 s m0') y0') /\ zlen y0' = h_nnode h /\ Forall dm_ok y0' /\ y0_shapes (Some y0') /\ m0_ok h m0' /\
    (forall j, j <> i -> getz y0' j = getz y0 j) /\
    (h_minlevel h <= level h i -> exists m, getz y0' i = Some m /\ forall k, 0 <= k < rank h i -> ld (dm_data m) (ly i k) = Some (yhat h xv i k)).
Proof.
  intros Ey Zy Fy Sy Om Ht Hi Hg. unfold trans_y0_node. rewrite Ey. cbn [bind]. destruct (getz_in y0 i ltac:(lia)) as [m Em]. rewrite Em. cbn [bind].
  pose proof (Forall_getz _ _ _ _ Fy Em) as Dm. pose proof (kd_pos h R) as Kp.
  destruct (Z.eqb_spec (dm_ld m) 0) as [H0|H0].
  - exists y0, (s_m0 s). split; [destruct s; cbn in *; now subst|]. do 5 (split; auto). intros Hl. destruct (Hg Hl) as (m' & Em' & (_ & Hl1) & _). replace m' with m in * by congruence. lia.
  - assert (En : dm_nrow m = rank h i) by (destruct (Sy y0 i m eq_refl Em); [contradiction|auto]). rewrite En.
    assert (Hnpt : exists n, 0 <= n /\ rank h i = (n * kd)%Z /\ (rank h i / kd = n)%Z).
    { destruct (Z.lt_ge_cases (level h i) (h_minlevel h)) as [Hl|Hl].
      - destruct (U_at h R i Hi) as (U & _ & EU & HU & _). exists 0. rewrite (HU Hl). split; [lia|]. split; [lia|]. apply Z.div_0_l. lia.
      - apply (rank_pts kern simd esz h c R CP SP J); auto. }
    destruct Hnpt as (n & Hn & Er & Ed). rewrite Ed.
    assert (Len : (rank h i <= zlen (dm_data m))%Z /\ holds_at (dm_data m) kd n kd (fun r a => yhat h xv i (r * kd + a)%Z)).
    { destruct (Z.eq_dec n 0) as [->|Hn0].
      - split; [rewrite Er; zlia|]. intros r a Hr. lia.
      - assert (Hl : h_minlevel h <= level h i).
        { destruct (Z.lt_ge_cases (level h i) (h_minlevel h)) as [Hl|Hl]; auto. destruct (U_at h R i Hi) as (U & _ & EU & HU & _). specialize (HU Hl). nia. }
        destruct (Hg Hl) as (m' & Em' & _ & V). replace m' with m in * by congruence. split.
        + specialize (V (rank h i - 1)%Z ltac:(nia)). apply ld_range in V. lia.
        + intros r a Hr Ha. apply V. nia. }
    destruct Len as [Len Hold].
    destruct (get_m0_spec h (fun s => m0_ok h (s_m0 s)) (fun _ H => H) tid (rank h i) 1 s Om Ht ltac:(nia)) as (tm & Et & Ot & _ & _ & Lt). rewrite Et. cbn [bind].
    destruct (transpose_dmat_spec (@concat _) 1 n kd (dm_data m) (dm_data tm) kd n (fun r a => yhat h xv i (r * kd + a)%Z)) as (d & E1 & Zd & Gd); auto; try lia.
    { intros ths. apply inter_concat. }
    { apply fits_full; nia. }
    rewrite E1. cbn [bind]. unfold put_m0. destruct Om as [Zm Fm]. destruct (setz_Some (s_m0 s) tid (dm_set_data tm d)) as [l El]; [lia|]. rewrite El. cbn [bind].
    destruct (mcpy_spec (dm_data m) 0 d 0 (rank h i)) as (e & Ee & Ze & Ge); try nia. rewrite Ee. cbn [bind].
    destruct (setz_Some y0 i (dm_set_data m e)) as [y0' Es]; [lia|]. rewrite Es. cbn [bind].
    exists y0', l. split; [reflexivity|]. split; [rewrite (setz_zlen _ _ _ _ Es); auto|]. split.
    { eapply (Forall_setz _ _ _ _ _ Fy); [|exact Es]. apply dm_set_data_ok; auto. }
    split.
    { intros y i' m' Ey' G. injection Ey' as <-. rewrite (getz_setz _ _ _ _ _ Es) in G. destruct (Z.eqb_spec i i').
      - injection G as <-. subst i'. right. auto.
      - eapply Sy; eauto. }
    split.
    { split; [rewrite (setz_zlen _ _ _ _ El); auto|]. eapply (Forall_setz _ _ _ _ _ Fm); [|exact El]. apply dm_set_data_ok; auto. }
    split.
    { intros j Hj. rewrite (getz_setz _ _ _ _ _ Es). destruct (Z.eqb_spec i j); [congruence|auto]. }
    intros Hl. exists (dm_set_data m e). rewrite (getz_setz _ _ _ _ _ Es), Z.eqb_refl. split; auto. cbn [dm_set_data dm_data]. intros k Hk.
    destruct (comp_range kd n k Kp ltac:(lia)) as (B1 & B2 & B3). pose proof (ly_range kern simd esz h c R CP SP J i k Hi Hl Hk) as Rl.
    rewrite (ld_mcpy _ _ _ _ _ Ee) by nia. unfold Proof_JitMid.ly. rewrite Ed, Hb. unfold lay. rewrite (Gd (k mod kd) (k / kd)%Z) by auto. rewrite <- B3. reflexivity.
Qed.

Lemma trans_y0_spec xv evs s y0 : omp_for nth (h_nnode h) evs -> s_y0 s = Some y0 -> zlen y0 = h_nnode h -> Forall dm_ok y0 -> y0_shapes (Some y0) ->
  m0_ok h (s_m0 s) -> (forall i, 0 <= i < h_nnode h -> h_minlevel h <= level h i -> y0_good h xv y0 i) ->
  exists y0' m0', run (map (fun ev => trans_y0_node h (fst ev) (snd ev)) evs) s = Some (set_y0 (set_m0 s m0') y0') /\ zlen y0' = h_nnode h /\ Forall dm_ok y0' /\
    y0_shapes (Some y0') /\ m0_ok h m0' /\
    forall i, 0 <= i < h_nnode h -> h_minlevel h <= level h i -> exists m, getz y0' i = Some m /\ forall k, 0 <= k < rank h i -> ld (dm_data m) (ly i k) = Some (yhat h xv i k).
Proof.
  intros [Ht Hp] E Z0 F0 S0 O0 G0. rewrite Forall_forall in Ht.
  destruct (run_each snd (fun ev => trans_y0_node h (fst ev) (snd ev)) (fun done s' => exists y m0, s' = set_y0 (set_m0 s m0) y /\ zlen y = h_nnode h /\ Forall dm_ok y /\
     y0_shapes (Some y) /\ m0_ok h m0 /\ (forall i, ~ In i done -> getz y i = getz y0 i) /\
     forall i, In i done -> h_minlevel h <= level h i -> exists m, getz y i = Some m /\ forall k, 0 <= k < rank h i -> ld (dm_data m) (ly i k) = Some (yhat h xv i k)) evs [] s)
    as (s' & E' & y & m0 & -> & Z' & F' & S' & O' & N' & D').
  - eapply Permutation_NoDup; [symmetry; exact Hp|apply NoDup_zrange].
  - intros e He [].
  - exists y0, (s_m0 s). split; [destruct s; cbn in *; now subst|]. do 5 (split; auto). intros i [].
  - intros done [tid i] s1 He Hd (y & m0 & -> & Zy & Fy & Sy & Oy & Ny & Dy). cbn [fst snd] in *.
    assert (Hi : 0 <= i < h_nnode h). { apply In_zrange. eapply Permutation_in; [exact Hp|]. apply (in_map snd) in He. auto. }
    destruct (trans_y0_node_spec xv tid i (set_y0 (set_m0 s m0) y) y eq_refl Zy Fy Sy Oy (Ht _ He) Hi) as (y' & m0' & E2 & Z2 & F2 & S2 & O2 & N2 & V2).
    { intros Hl. destruct (G0 i Hi Hl) as (m & Em & Hm). exists m. rewrite Ny by auto. auto. }
    rewrite E2. eexists. split; [reflexivity|]. exists y', m0'. split; [reflexivity|]. do 4 (split; auto). split.
    + intros j Hj. rewrite N2 by (intros ->; apply Hj; now left). apply Ny. intros Hj'. apply Hj. now right.
    + intros j [<-|Hj] Hl; auto. destruct (Dy j Hj Hl) as (m & Em & Vm). exists m. split; auto. rewrite N2; auto. intros ->. contradiction.
  - exists y, m0. split; auto. do 4 (split; auto). intros i Hi Hl. apply D'; auto. rewrite app_nil_r. apply -> in_rev.
    apply (Permutation_in _ (Permutation_sym Hp)). apply In_zrange. lia.
Qed.

(** *** y1 *)
Definition y1_shapes (y1 : list (dmat K)) : Prop := forall i m, getz y1 i = Some m -> dm_ld m <> 0 -> dm_ncol m = rank h i.
Lemma sum_y1_shapes i s s' y1 : s_y1 s = Some y1 -> y1_shapes y1 -> sum_y1_node h i s = Some s' -> exists y1', s_y1 s' = Some y1' /\ y1_shapes y1'.
Proof.
  intros E H E'. unfold sum_y1_node in E'. rewrite E in E'. cbn [bind] in E'. destruct (getz y1 i) as [m|] eqn:Em; [|discriminate]. cbn [bind] in E'.
  destruct (dm_ld m =? 0); [injection E' as <-; eauto|]. match type of E' with bind ?e _ = _ => destruct e as [d|]; [|discriminate] end. cbn [bind] in E'.
  destruct (setz _ _ _) as [y|] eqn:Es; [|discriminate]. cbn [bind] in E'. injection E' as <-. exists y. split; auto. intros j m' G Hl.
  rewrite (getz_setz _ _ _ _ _ Es) in G. destruct (Z.eqb_spec i j); [|eapply H; eauto]. injection G as <-. subst j. cbn in *. eapply H; eauto.
Qed.

Lemma trans_y1_node_spec tid i s y1 : s_y1 s = Some y1 -> zlen y1 = h_nnode h -> Forall mok y1 -> y1_shapes y1 ->
  m0_ok h (s_m0 s) -> 0 <= tid < nth -> 0 <= i < h_nnode h -> narrow h y1 i ->
  exists y1' m0', trans_y1_node h tid i s = Some (set_y1 (set_m0 s m0') y1') /\ zlen y1' = h_nnode h /\ Forall mok y1' /\ y1_shapes y1' /\ m0_ok h m0' /\
    (forall j, j <> i -> getz y1' j = getz y1 j) /\ narrow h y1' i /\
    (forall k, 0 <= k < rank h i -> h_minlevel h <= level h i -> y1val y1' i k = y1val y1 i (ly i k)).
Proof.
  intros Ey Zy Fy Sy Om Ht Hi (m & Em & Hg). unfold trans_y1_node. rewrite Ey. cbn [bind]. rewrite Em. cbn [bind].
  pose proof (Forall_getz _ _ _ _ Fy Em) as Dm. pose proof (kd_pos h R) as Kp.
  destruct (Z.eqb_spec (dm_ld m) 0) as [H0|H0].
  - exists y1, (s_m0 s). split; [destruct s; cbn in *; now subst|]. do 5 (split; auto). split; [exists m; auto|].
    intros k Hk Hl. unfold y1val. rewrite Em, H0. reflexivity.
  - destruct Hg as [?|(R1 & L1 & Len & V)]; [contradiction|]. assert (En : dm_ncol m = rank h i) by (apply (Sy i m); auto). rewrite En.
    destruct (rank_pts kern simd esz h c R CP SP J i Hi L1) as (n & Hn & Er & Ed). rewrite Ed.
    pose (g := fun k => val c0 (ld (dm_data m) k)).
    assert (Hg : forall k, 0 <= k < rank h i -> ld (dm_data m) k = Some (g k)). { intros k Hk. unfold g. destruct (V k Hk) as [v Hv]. now rewrite Hv. }
    destruct (get_m0_spec h (fun s => m0_ok h (s_m0 s)) (fun _ H => H) tid (rank h i) 1 s Om Ht ltac:(lia)) as (tm & Et & Ot & _ & _ & Lt). rewrite Et. cbn [bind].
    destruct (transpose_dmat_spec (@concat _) 1 kd n (dm_data m) (dm_data tm) n kd (fun a r => g (a * n + r)%Z)) as (d & E1 & Zd & Gd); auto; try lia.
    { intros ths. apply inter_concat. }
    { intros a r Ha Hr. apply Hg. rewrite Er, (Z.mul_comm n). now apply grid_range. }
    { apply fits_full; nia. }
    rewrite E1. cbn [bind]. unfold put_m0. destruct Om as [Zm Fm]. destruct (setz_Some (s_m0 s) tid (dm_set_data tm d)) as [l El]; [lia|]. rewrite El. cbn [bind].
    destruct (mcpy_spec (dm_data m) 0 d 0 (rank h i)) as (e & Ee & Ze & Ge); try lia. rewrite Ee. cbn [bind].
    destruct (setz_Some y1 i (dm_set_data m e)) as [y1' Es]; [lia|]. rewrite Es. cbn [bind].
    assert (Val : forall k, 0 <= k < rank h i -> ld e k = Some (g (ly i k))).
    { intros k Hk. rewrite (ld_mcpy _ _ _ _ _ Ee) by lia. destruct (comp_range kd n k Kp ltac:(lia)) as (B1 & B2 & B3). rewrite B3 at 1.
      rewrite (Gd (k / kd)%Z (k mod kd)%Z) by auto. unfold Proof_JitMid.ly. rewrite Ed, Hb. reflexivity. }
    exists y1', l. split; [reflexivity|]. split; [rewrite (setz_zlen _ _ _ _ Es); auto|]. split.
    { eapply (Forall_setz _ _ _ _ _ Fy); [|exact Es]. apply mok_set_data; auto. }
    split.
    { intros i' m' G Hl. rewrite (getz_setz _ _ _ _ _ Es) in G. destruct (Z.eqb_spec i i').
      - injection G as <-. subst i'. auto.
      - eapply Sy; eauto. }
    split.
    { split; [rewrite (setz_zlen _ _ _ _ El); auto|]. eapply (Forall_setz _ _ _ _ _ Fm); [|exact El]. apply dm_set_data_ok; auto. }
    split.
    { intros j Hj. rewrite (getz_setz _ _ _ _ _ Es). destruct (Z.eqb_spec i j); [congruence|auto]. }
    split.
    { exists (dm_set_data m e). rewrite (getz_setz _ _ _ _ _ Es), Z.eqb_refl. split; auto. right. cbn [dm_set_data dm_data]. do 2 (split; auto). split; [lia|].
      intros k Hk. rewrite Val by auto. eauto. }
    intros k Hk Hl. unfold y1val. rewrite (getz_setz _ _ _ _ _ Es), Z.eqb_refl, Em. cbn [dm_set_data dm_ld dm_data]. destruct (Z.eqb_spec (dm_ld m) 0); [contradiction|].
    rewrite Val by auto. reflexivity.
Qed.

Lemma trans_y1_spec evs s y1 : omp_for nth (h_nnode h) evs -> s_y1 s = Some y1 -> zlen y1 = h_nnode h -> Forall mok y1 -> y1_shapes y1 ->
  m0_ok h (s_m0 s) -> (forall i, 0 <= i < h_nnode h -> narrow h y1 i) ->
  exists y1' m0', run (map (fun ev => trans_y1_node h (fst ev) (snd ev)) evs) s = Some (set_y1 (set_m0 s m0') y1') /\ zlen y1' = h_nnode h /\ Forall mok y1' /\
    m0_ok h m0' /\ (forall i, 0 <= i < h_nnode h -> narrow h y1' i) /\
    forall i k, 0 <= i < h_nnode h -> h_minlevel h <= level h i -> 0 <= k < rank h i -> y1val y1' i k = y1val y1 i (ly i k).
Proof.
  intros [Ht Hp] E Z0 F0 S0 O0 G0. rewrite Forall_forall in Ht.
  destruct (run_each snd (fun ev => trans_y1_node h (fst ev) (snd ev)) (fun done s' => exists y m0, s' = set_y1 (set_m0 s m0) y /\ zlen y = h_nnode h /\ Forall mok y /\
     y1_shapes y /\ m0_ok h m0 /\ (forall i, ~ In i done -> getz y i = getz y1 i) /\ (forall i, 0 <= i < h_nnode h -> narrow h y i) /\
     forall i, In i done -> forall k, 0 <= k < rank h i -> h_minlevel h <= level h i -> y1val y i k = y1val y1 i (ly i k)) evs [] s)
    as (s' & E' & y & m0 & -> & Z' & F' & S' & O' & N' & W' & D').
  - eapply Permutation_NoDup; [symmetry; exact Hp|apply NoDup_zrange].
  - intros e He [].
  - exists y1, (s_m0 s). split; [destruct s; cbn in *; now subst|]. do 6 (split; auto). intros i [].
  - intros done [tid i] s1 He Hd (y & m0 & -> & Zy & Fy & Sy & Oy & Ny & Wy & Dy). cbn [fst snd] in *.
    assert (Hi : 0 <= i < h_nnode h). { apply In_zrange. eapply Permutation_in; [exact Hp|]. apply (in_map snd) in He. auto. }
    destruct (trans_y1_node_spec tid i (set_y1 (set_m0 s m0) y) y eq_refl Zy Fy Sy Oy (Ht _ He) Hi (Wy i Hi)) as (y' & m0' & E2 & Z2 & F2 & S2 & O2 & N2 & W2 & V2).
    rewrite E2. eexists. split; [reflexivity|]. exists y', m0'. split; [reflexivity|]. do 4 (split; auto). split; [|split].
    + intros j Hj. rewrite N2 by (intros ->; apply Hj; now left). apply Ny. intros Hj'. apply Hj. now right.
    + intros j Hj. destruct (Z.eq_dec j i) as [->|Hne]; auto. destruct (Wy j Hj) as (m & Em & Hm). exists m. rewrite N2; auto.
    + intros j [<-|Hj] k Hk Hl.
      * rewrite V2 by auto. unfold y1val. now rewrite Ny.
      * rewrite <- Dy by auto. unfold y1val. rewrite N2; auto. intros ->. contradiction.
  - exists y, m0. split; auto. do 3 (split; auto). split; auto. intros i k Hi Hl Hk. apply D'; auto. rewrite app_nil_r. apply -> in_rev.
    apply (Permutation_in _ (Permutation_sym Hp)). apply In_zrange. lia.
Qed.

(** *** Reduction into yT *)
Lemma reduce_yT_run team : forall s v s', run (map (reduce_y h) team) (set_py s v) = Some s' ->
  run (map (reduce_yT h) team) (set_yT s v) = Some (set_yT s (s_py s')).
Proof.
  induction team as [|tid team IH]; intros s v s' E; cbn [map run] in *.
  - injection E as <-. reflexivity.
  - destruct (reduce_y h tid (set_py s v)) as [s1|] eqn:E1; [|discriminate]. cbn [bind] in E.
    unfold reduce_y in E1. unfold reduce_yT at 1. cbn [set_py set_yT s_ty s_py s_yT] in *.
    destruct (calc_block_spos_len _ _ _) as [[sp len]|]; [|discriminate]. cbn [bind] in *.
    match type of E1 with bind ?e _ = _ => destruct e as [py|]; [|discriminate] end. cbn [bind] in *. injection E1 as <-.
    apply (IH s py s' E).
Qed.
End JTop.
