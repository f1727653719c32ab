(** The just-in-time dense part (Model_JIT.v). *)
From Coq Require Import ZArith List Lia Bool Permutation.
From Verif Require Import Base Mem Num CRing Conc Model_Utils Spec_Utils Proof_Utils Model_Dense Spec_Dense Proof_Dense2 Model_Partition Spec_Tree Model_Matvec Spec_Matvec Proof_Gemv Proof_MvTree Proof_MvFwd Proof_MvMid Proof_MvBwd Proof_MvTop Model_Build Model_JIT Proof_JitBlk Proof_JitExt Proof_JitApply Proof_JitMid.
Import ListNotations.
Open Scope Z_scope.

Lemma madd_any_spec {K : cring} (d : mem K) j v : 0 <= j < zlen d ->
  exists d', madd_any d j v = Some d' /\ zlen d' = zlen d /\ forall k, k <> j -> ld d' k = ld d k.
Proof.
  intros Hj. unfold madd_any. destruct (getz_in d j Hj) as [[w|] Ew]; rewrite Ew.
  - destruct (st_Some d j (cadd w v) Hj) as [d' E]. exists d'. split; auto. split; [eapply st_zlen; eauto|].
    intros k Hk. rewrite (ld_st _ _ _ _ _ E). destruct (Z.eqb_spec j k); [congruence|auto].
  - exists d. auto.
Qed.

Section JDense.
Context {F : num} {K : cring}.
Add Ring Kring : (cth K).
Local Open Scope ring_K.
Variable kern : list F -> list F -> Z -> Z -> K.
Variables (simd esz : Z) (h : h2rep F K) (c : jctx F).
Notation kd := (h_kdim h).
Notation b := (jx_bimv c).
Notation nth := (h_nthread h).
Hypothesis R : rep_ok h.
Variables (CP : Z -> list F) (SP : Z -> Z -> list F).
Hypothesis J : jit_data kern simd esz h c CP SP.
Notation Ly := (Ly h c).
Notation D := (fun p => 0 <= p < h_kms h).

Variable x : mem K.
Variable xv : Z -> K.
Hypothesis Hx : forall p, 0 <= p < h_kms h -> ld x (Ly p) = Some (xv p).
Variable s0 : mvst K.

Definition jd_ok (s : mvst K) : Prop := exists m0 ty, s = set_m0 (set_ty s0 ty) m0 /\ m0_ok h m0 /\ ty_ok h ty.
Definition jdt (p : Z) (s : mvst K) : K := tysum h (s_ty s) (Ly p).

Lemma jd_m0 s l : jd_ok s -> m0_ok h l -> jd_ok (set_m0 s l) /\ forall p, D p -> jdt p (set_m0 s l) = jdt p s.
Proof. intros (m0 & ty & -> & O1 & O2) Hl. split; [|reflexivity]. exists l, ty. auto. Qed.
Lemma jd_m0_ok s : jd_ok s -> m0_ok h (s_m0 s).
Proof. intros (m0 & ty & -> & O1 & O2). auto. Qed.

Lemma jd_add tid node q v s : 0 <= tid < nth -> 0 <= node < h_nnode h -> 0 <= q < msize h node -> jd_ok s ->
  exists s', add_ty tid (if b then pfirst h node else mfirst h node) (lay b kd (h_npoint h) q) v s = Some s' /\ jd_ok s' /\
    forall p, D p -> jdt p s' = jdt p s + (if p =? mfirst h node + q then c1 else c0) * v.
Proof.
  intros Ht Hn Hq (m0 & ty & -> & O1 & O2). destruct (cluster_range h R node Hn) as (B1 & B2 & B3).
  destruct (ty_add_layout h c R ty tid (mfirst h node + q)%Z v O2 Ht ltac:(lia)) as (m & d & ty' & Em & Ed & Es & Ok & Ts).
  unfold add_ty. cbn [set_m0 set_ty s_ty]. rewrite Em. cbn [bind].
  destruct (pt_side_spec kern simd esz h c R CP SP J node Hn) as (_ & Ef & _). unfold Proof_JitMid.Ly in Ed. rewrite Ef, lay_shift, <- Ef in Ed by apply (kd_pos h R).
  rewrite Ed. cbn [bind]. rewrite Es. cbn [bind]. eexists. split; [reflexivity|]. split.
  - exists m0, ty'. auto.
  - intros p Hp. unfold jdt. cbn [set_m0 set_ty s_ty]. rewrite Ts by auto. reflexivity.
Qed.
Lemma jd_x node q : 0 <= node < h_nnode h -> 0 <= q < msize h node ->
  ld x ((if b then pfirst h node else mfirst h node) + lay b kd (h_npoint h) q) = Some (xv (mfirst h node + q)%Z).
Proof.
  intros Hnode Hq. destruct (cluster_range h R node Hnode) as (B1 & B2 & B3). rewrite <- Hx by lia. f_equal.
  destruct (pt_side_spec kern simd esz h c R CP SP J node Hnode) as (_ & Ef & _). unfold Proof_JitMid.Ly. rewrite Ef, lay_shift by apply (kd_pos h R). reflexivity.
Qed.

Lemma nleaf_nonneg : 0 <= h_nleaf h.
Proof.
  pose proof (level_range h R (h_nnode h - 1)) as Hl.
  destruct (ct_root _ _ _ _ _ _ (ro_tree _ R)) as (Hn & _). specialize (Hl ltac:(lia)).
  destruct (ct_heights _ _ _ _ _ _ (ro_tree _ R) 0 ltac:(lia)) as (ns & C & _).
  rewrite (ct_nleaf _ _ _ _ _ _ (ro_tree _ R)) in C. injection C as C. zlia.
Qed.

Lemma jdense_off_spec tid k s : jd_ok s -> 0 <= tid < nth -> 0 <= k < zlen (h_inadm h) ->
  exists s', jdense_off kern simd esz h c x tid k s = Some s' /\ jd_ok s' /\ forall p, D p -> jdt p s' = jdt p s + offc h xv k p.
Proof.
  intros Hs Ht Hk. destruct (getz_in (h_inadm h) k Hk) as [[n0 n1] En]. pose proof (kd_pos h R) as Kp.
  destruct (ro_inadm _ R _ _ _ En) as (N0 & N1). destruct (ro_D _ R _ _ _ En) as (ptr & P1 & P2 & P3 & P4).
  destruct (jd_dim _ _ _ _ _ _ _ J) as (Dd & Ds & De).
  destruct (cluster_range h R n0 N0) as (C01 & C02 & C03). destruct (cluster_range h R n1 N1) as (C11 & C12 & C13).
  destruct (pt_side_spec kern simd esz h c R CP SP J n0 N0) as (S0 & Ef0 & Es0 & Hf0 & Hp0 & Hfp0 & Pt0).
  destruct (pt_side_spec kern simd esz h c R CP SP J n1 N1) as (S1 & Ef1 & Es1 & Hf1 & Hp1 & Hfp1 & Pt1).
  unfold jdense_off. rewrite En. cbn [bind]. rewrite S0, S1. cbn [bind]. rewrite !(Z.mul_comm 2). rewrite !(ld_mfirst h R) by auto. cbn [bind fst snd].
  assert (Pre : exists blk s1, (if b then Some (0, s) else
                ncol <- ld (h_Dncol h) (h_nleaf h + k);
                blk <- jit_blk esz kd ncol;
                b <- get_m0 tid (blk * kd) ncol s;
                s <- put_m0 tid b s;
                Some (blk, s)) = Some (blk, s1) /\ jd_ok s1 /\ (forall p, D p -> jdt p s1 = jdt p s) /\
      (b = false -> 1 <= blk /\ exists m, getz (s_m0 s1) tid = Some m /\ (blk * kd * (psize h n1 * kd) <= zlen (dm_data m))%Z)).
  { destruct b eqn:Eb.
    - exists 0, s. split; auto. split; auto. split; auto. discriminate.
    - rewrite P3. cbn [bind]. unfold jit_blk. destruct (Z.eqb_spec (msize h n1) 0); [lia|]. cbn [bind].
      pose proof (jd_fitD _ _ _ _ _ _ _ J Eb (h_nleaf h + k)%Z) as Hf. unfold Dncol in Hf. rewrite P3 in Hf. cbn [val] in Hf.
      set (blk := (131072 / (esz * msize h n1) / kd)%Z) in *.
      pose proof nleaf_nonneg as Hnl.
      specialize (Hf ltac:(lia)).
      destruct (get_m0_spec h jd_ok jd_m0_ok tid (blk * kd)%Z (msize h n1) s Hs Ht) as (m & Em & Om & _ & _ & Lm); [nia|].
      rewrite Em. cbn [bind].
      destruct (put_m0_spec h jd_ok D jdt jd_m0_ok jd_m0 tid m s Hs Ht Om) as (s1 & E1 & I1 & T1 & G1 & _). rewrite E1. cbn [bind].
      exists blk, s1. split; auto. split; auto. split; auto. intros _. split; auto. exists m. split; auto. rewrite <- Es1. auto. }
  destruct Pre as (blk & s1 & E1 & I1 & T1 & B1).
  match type of E1 with ?L = _ => match goal with |- context [bind ?e _] => change e with L end end. rewrite E1. cbn [bind].
  destruct (apply_block_spec kern simd h c Ds Dd Kp jd_ok D jdt jd_m0_ok jd_m0 (jx_coord c) (pfirst h n0) (h_npoint h) (psize h n0) (jx_coord c) (pfirst h n1) (h_npoint h) (psize h n1)
    (fun i => CP (pfirst h n0 + i)%Z) (fun i => CP (pfirst h n1 + i)%Z) ltac:(lia) ltac:(lia) Pt0 Pt1
    (fun p r => if p =? mfirst h n0 + r then c1 else c0) (fun p q => if p =? mfirst h n1 + q then c1 else c0) (fun q => xv (mfirst h n1 + q)%Z) (fun r => xv (mfirst h n0 + r)%Z)
    (fun k => ld x ((if b then pfirst h n1 else mfirst h n1) + k)%Z) (fun k => ld x ((if b then pfirst h n0 else mfirst h n0) + k)%Z) (h_npoint h) (h_npoint h) (h_npoint h) (h_npoint h)
    (add_ty tid (if b then pfirst h n0 else mfirst h n0)) (add_ty tid (if b then pfirst h n1 else mfirst h n1))) with (tid := tid) (blk := blk) (s := s1) as (s' & E & I' & T'); auto.
  - intros j Hj. apply jd_x; auto. lia.
  - intros j Hj. apply jd_x; auto. lia.
  - intros j v s' Hj Hs'. apply jd_add; auto. lia.
  - intros j v s' Hj Hs'. apply jd_add; auto. lia.
  - exists s'. split; auto. split; auto. intros p Hp. rewrite T', T1 by auto. f_equal. rewrite <- (offc_bi h R xv k n0 n1 p En). rewrite Es0, Es1.
    apply rsum_ext. intros i Hi. unfold bi_term. f_equal; [f_equal|]; apply rsum_ext; intros j Hj; rewrite (jd_D _ _ _ _ _ _ _ J k n0 n1 En) by lia; reflexivity.
Qed.

Lemma diagc_bi k x1 p : 0 <= k < h_nleaf h -> D p ->
  rsum 0 (msize h (leaf h k)) (bi_term (msize h (leaf h k)) (fun p r => if p =? mfirst h (leaf h k) + r then c1 else c0) (fun _ _ => c0)
    (Dval h k) (fun q => xv (mfirst h (leaf h k) + q)%Z) x1 p) = diagc h xv k p.
Proof.
  intros Hk Hp. destruct (leaf_at h R k Hk) as (El & Rl). destruct (cluster_range h R _ Rl) as (C1 & C2 & C3). set (n := leaf h k) in *.
  unfold diagc, diag_block, bi_term. fold n. destruct (inside h n p) eqn:E0.
  - rewrite (rsum_ext 0 (h_kms h) _ (fun q => if inside h n q then Dval h k (p - mfirst h n) (q - mfirst h n) * xv q else c0)).
    2:{ intros q Hq. cbn [andb]. destruct (inside h n q); ring. }
    rewrite (rsum_inside h R) by auto. apply (inside_iff h) in E0.
    rewrite (rsum_only 0 (msize h n) _ (p - mfirst h n)%Z); [|lia|].
    + replace (mfirst h n + (p - mfirst h n))%Z with p by lia. rewrite Z.eqb_refl.
      rewrite (rsum_zero 0 (msize h n) (fun j => c0 * _)) by (intros; ring).
      transitivity (rsum 0 (msize h n) (fun j => Dval h k (p - mfirst h n) j * xv (mfirst h n + j)%Z)); [ring|].
      apply rsum_ext. intros q Hq. replace (mfirst h n + q - mfirst h n)%Z with q by lia. reflexivity.
    + intros r Hr Hne. destruct (Z.eqb_spec p (mfirst h n + r)); [lia|]. rewrite (rsum_zero 0 (msize h n) (fun j => c0 * _)) by (intros; ring). ring.
  - rewrite (rsum_zero 0 (h_kms h)); [|intros; cbn [andb]; ring]. apply rsum_zero. intros r Hr.
    rewrite (rsum_zero 0 (msize h n) (fun j => c0 * _)) by (intros; ring).
    destruct (Z.eqb_spec p (mfirst h n + r)); [|ring]. assert (inside h n p = true) by (apply (inside_iff h); lia). congruence.
Qed.

Lemma jdense_diag_spec tid k s : jd_ok s -> 0 <= tid < nth -> 0 <= k < h_nleaf h ->
  exists s', jdense_diag kern simd esz h c x tid k s = Some s' /\ jd_ok s' /\ forall p, D p -> jdt p s' = jdt p s + diagc h xv k p.
Proof.
  intros Hs Ht Hk. pose proof (kd_pos h R) as Kp.
  destruct (leaf_at h R k Hk) as (El & Rl). destruct (cluster_range h R _ Rl) as (C1 & C2 & C3).
  destruct (ro_D0 _ R k Hk) as (ptr & P1 & P2 & P3 & P4). destruct (jd_dim _ _ _ _ _ _ _ J) as (Dd & Ds & De).
  pose proof (jd_D0 _ _ _ _ _ _ _ J k Hk) as HD. pose proof (diagc_bi k) as DB.
  set (n := leaf h k) in *.
  destruct (pt_side_spec kern simd esz h c R CP SP J n Rl) as (S0 & Ef & Es & Hf & Hp & Hfp & Pt).
  unfold jdense_diag. rewrite El. cbn [bind]. fold n. rewrite S0. cbn [bind]. rewrite (ld_mfirst h R) by auto. cbn [bind].
  destruct (get_m0_spec h jd_ok jd_m0_ok tid (psize h n * kd)%Z 1 s Hs Ht) as (m & Em & Om & _ & _ & Lm); [nia|]. rewrite Em. cbn [bind].
  assert (Fin : forall x1 s', jd_ok s' -> (forall p, D p -> jdt p s' = jdt p s + rsum 0 (psize h n * kd)%Z (bi_term (psize h n * kd)%Z (fun p r => if p =? mfirst h n + r then c1 else c0) (fun _ _ => c0)
      (kval kern kd (fun i => CP (pfirst h n + i)%Z) (fun i => CP (pfirst h n + i)%Z)) (fun q => xv (mfirst h n + q)%Z) x1 p)) ->
    forall m', dm_ok m' -> exists s2, put_m0 tid m' s' = Some s2 /\ jd_ok s2 /\ forall p, D p -> jdt p s2 = jdt p s + diagc h xv k p).
  { intros x1 s' I' T' m' Om'. destruct (put_m0_spec h jd_ok D jdt jd_m0_ok jd_m0 tid m' s' I' Ht Om') as (s2 & E2 & I2 & T2 & _).
    exists s2. split; auto. split; auto. intros p Hpp. rewrite T2, T' by auto. f_equal. rewrite <- (DB x1) by auto. rewrite Es.
    apply rsum_ext. intros i Hi. unfold bi_term. f_equal; [f_equal|]; apply rsum_ext; intros j Hj; rewrite HD by lia; reflexivity. }
  assert (X1 := fun q v s => jd_add tid n q v s Ht Rl). assert (X2 := fun q => jd_x n q Rl).
  revert X1 X2. destruct b eqn:Eb; intros X1 X2.
  - destruct (ext_krnl_bimv_spec kern simd (jx_dim c) kd (jx_coord c) (pfirst h n) (h_npoint h) (psize h n) (jx_coord c) (pfirst h n) (h_npoint h) (psize h n)
      (fun i => CP (pfirst h n + i)%Z) (fun i => CP (pfirst h n + i)%Z) Ds Dd Kp ltac:(lia) ltac:(lia) Pt Pt
      (fun y : mem K * mvst K => zlen (fst y) = zlen (dm_data m) /\ jd_ok (snd y)) D (fun p y => jdt p (snd y))
      (fun p r => if p =? mfirst h n + r then c1 else c0) (fun _ _ => c0) (fun q => xv (mfirst h n + q)%Z) (fun r => xv (mfirst h n + r / kd * kd)%Z)
      (fun k => ld x (pfirst h n + k)%Z) (fun k => ld x (pfirst h n + k)%Z) (h_npoint h) 0 (h_npoint h) 0
      (fun k v (y : mem K * mvst K) => s <- add_ty tid (pfirst h n) k v (snd y); Some (fst y, s))
      (fun k v y => d <- madd_any (fst y) k v; Some (d, snd y))) with (s := (dm_data m, s)) as ([d' s'] & E & [Zd I'] & T').
    + intros a j Ha Hj. specialize (X2 (j * kd + a)%Z ltac:(nia)). now rewrite lay_comp in X2.
    + intros a j Ha Hj. specialize (X2 (j * kd + 0)%Z ltac:(nia)). rewrite lay_comp in X2 by lia. rewrite Z.mul_0_l in X2.
      rewrite Z.mul_0_r, X2. do 3 f_equal. destruct (divmod_comp kd j a Kp Ha) as [-> _]. lia.
    + intros a j v [d1 s1] Ha Hj [Z1 I1]. cbn [fst snd] in *. destruct (X1 (j * kd + a)%Z v s1 ltac:(nia) I1) as (s2 & E2 & I2 & T2). rewrite lay_comp in E2 by auto.
      rewrite E2. cbn [bind]. eexists. split; [reflexivity|]. cbn [fst snd]. auto.
    + intros a j v [d1 s1] Ha Hj [Z1 I1]. cbn [fst snd] in *. destruct (madd_any_spec d1 (a * 0 + j) v) as (d2 & E2 & Z2 & _); [nia|]. rewrite E2. cbn [bind].
      eexists. split; [reflexivity|]. cbn [fst snd]. split; [split; auto; lia|]. intros p Hpp. ring.
    + cbn. auto.
    + cbn [fst snd] in *. match type of E with ?L = _ => match goal with |- context [bind ?e _] => change e with L end end. rewrite E. cbn [bind].
      eapply Fin; eauto. apply dm_set_data_ok; auto.
  - rewrite P3. cbn [bind]. unfold jit_blk. destruct (Z.eqb_spec (msize h n) 0); [lia|]. cbn [bind].
    pose proof (jd_fitD _ _ _ _ _ _ _ J Eb k) as Hfit. unfold Dncol in Hfit. rewrite P3 in Hfit. cbn [val] in Hfit. specialize (Hfit ltac:(zlia)).
    set (blk := (131072 / (esz * msize h n) / kd)%Z) in *.
    destruct (dm_resize_ok m (blk * kd)%Z (msize h n) Om ltac:(nia)) as (Od & _ & _ & _ & Ld). set (Di := dm_resize m (blk * kd) (msize h n)) in *.
    assert (Ld2 : (msize h n <= zlen (dm_data Di))%Z). { assert (1 <= blk * kd)%Z by nia. assert (1 * msize h n <= blk * kd * msize h n)%Z by (apply Z.mul_le_mono_nonneg_r; lia). lia. }
    destruct (krnl_eval_bimv_spec kern (jx_dim c) kd (jx_coord c) (pfirst h n) (h_npoint h) (psize h n) (jx_coord c) (pfirst h n) (h_npoint h) (psize h n)
      (fun i => CP (pfirst h n + i)%Z) (fun i => CP (pfirst h n + i)%Z) Kp ltac:(lia) Pt Pt jd_ok D jdt
      (fun p r => if p =? mfirst h n + r then c1 else c0) (fun _ _ => c0) (fun q => xv (mfirst h n + q)%Z) (fun q => xv (mfirst h n + q)%Z)
      (fun k => ld x (mfirst h n + k)%Z) (fun k => ld x (mfirst h n + k)%Z)
      (fun k v (y : mem K * mvst K) => s <- add_ty tid (mfirst h n) k v (snd y); Some (fst y, s))
      (fun k v y => d <- madd_any (fst y) k v; Some (d, snd y)) blk (zlen (dm_data Di))) with (d := dm_data Di) (s := s) as (d' & s' & E & Zd & I' & T'); auto.
    + rewrite <- Es. auto.
    + intros j Hj. apply X2. lia.
    + intros j Hj. apply X2. lia.
    + intros j v d1 s1 Hj Z1 I1. cbn [fst snd] in *. destruct (X1 j v s1 ltac:(lia) I1) as (s2 & E2 & I2 & T2). unfold lay in E2. rewrite E2. cbn [bind].
      exists d1, s2. auto.
    + intros j v d1 s1 Hj Z1 I1. cbn [fst snd] in *. destruct (madd_any_spec d1 j v) as (d2 & E2 & Z2 & G2); [lia|]. rewrite E2. cbn [bind].
      exists d2, s1. split; auto. split; [lia|]. split; auto. split; auto. intros p Hpp. ring.
    + match type of E with ?L = _ => match goal with |- context [bind ?e _] => change e with L end end. rewrite E. cbn [bind].
      eapply Fin; eauto. apply dm_set_data_ok; auto.
Qed.

Lemma jden_schedule_perm l : jden_schedule h l ->
  Forall (fun ev => 0 <= fst ev < nth) l /\
  exists m0 m1, 0 <= m0 <= h_nleaf h /\ 0 <= m1 <= zlen (h_inadm h) /\
    Permutation (map snd l) (map (pair false) (zrange 0 m0) ++ map (pair true) (zrange 0 m1)) /\
    (forall k, m0 <= k < h_nleaf h -> (Dnrow h k * Dncol h k = 0)%Z) /\
    forall k, m1 <= k < zlen (h_inadm h) -> (Dnrow h (h_nleaf h + k) * Dncol h (h_nleaf h + k) = 0)%Z.
Proof.
  intros (a0 & a1 & [Z0 A0] & [Z1 A1] & Hi).
  destruct (ro_D0blk _ R) as (b0 & Hb0 & B01 & B02 & B03 & B04 & B05). destruct (ro_D1blk _ R) as (b1 & Hb1 & B11 & B12 & B13 & B14 & B15).
  pose proof Hb0 as (_ & I0 & _). pose proof Hb1 as (_ & I1 & _).
  destruct (thread_items_spec _ _ _ Hb0 B01 B02 B03 A0) as [T00 T01]. destruct (thread_items_spec _ _ _ Hb1 B11 B12 B13 A1) as [T10 T11].
  apply inter_permutation in Hi.
  assert (Hp : Permutation l (map (fun '(t, i) => (t, (false, i))) (concat (thread_items (h_D0blk h) a0)) ++
                              map (fun '(t, i) => (t, (true, i))) (concat (thread_items (h_D1blk h) a1)))).
  { rewrite Hi. apply concat_combine_perm. unfold thread_items. rewrite !map_length, !number_length. unfold zlen in *. lia. }
  split.
  - rewrite Forall_forall. intros ev Hev. apply (Permutation_in _ Hp) in Hev. apply in_app_iff in Hev as [Hev|Hev];
    apply in_map_iff in Hev as ([t0 i] & <- & Hin); cbn [fst]; [rewrite <- Z0|rewrite <- Z1]; eauto.
  - exists (nthz b0 (zlen b0 - 1)), (nthz b1 (zlen b1 - 1)). split; [split; auto; apply (zrange_tile b0 (zlen b0)); auto; lia|].
    split; [split; auto; apply (zrange_tile b1 (zlen b1)); auto; lia|]. split; [|split; auto]. rewrite Hp, map_app, !map_map.
    apply Permutation_app.
    + rewrite (map_ext _ (fun x : Z * Z => pair false (snd x))) by (intros [? ?]; auto). rewrite <- (map_map snd (pair false)). now apply Permutation_map.
    + rewrite (map_ext _ (fun x : Z * Z => pair true (snd x))) by (intros [? ?]; auto). rewrite <- (map_map snd (pair true)). now apply Permutation_map.
Qed.

Lemma dense_mult_jit_spec evs s : jden_schedule h evs -> jd_ok s ->
  exists s', dense_mult_jit kern simd esz h c x evs s = Some s' /\ jd_ok s' /\
    forall p, D p -> jdt p s' = jdt p s + rsum 0 (h_nleaf h) (fun k => diagc h xv k p) + rsum 0 (zlen (h_inadm h)) (fun k => offc h xv k p).
Proof.
  intros Hsc Hs. destruct (jden_schedule_perm evs Hsc) as (Ht & m0 & m1 & M0 & M1 & Hp & E0 & E1). rewrite Forall_forall in Ht.
  pose (cc := fun p (x : bool * Z) => if fst x then offc h xv (snd x) p else diagc h xv (snd x) p).
  assert (Hin : forall ev, In ev evs -> if fst (snd ev) then 0 <= snd (snd ev) < m1 else 0 <= snd (snd ev) < m0).
  { intros ev Hev. apply (in_map snd) in Hev. apply (Permutation_in _ Hp) in Hev. apply in_app_iff in Hev as [Hev|Hev];
    apply in_map_iff in Hev as (k & <- & Hk); apply In_zrange in Hk; cbn; lia. }
  unfold dense_mult_jit.
  destruct (run_each snd (fun (ev : Z * (bool * Z)) s => let '(tid, (isoff, i)) := ev in if (isoff : bool) then jdense_off kern simd esz h c x tid i s else jdense_diag kern simd esz h c x tid i s)
    (fun done s' => jd_ok s' /\ forall p, D p -> jdt p s' = jdt p s + lsum (cc p) done) evs [] s)
    as (s' & E & Ok & T').
  - eapply Permutation_NoDup; [symmetry; exact Hp|]. apply NoDup_tagged; apply NoDup_zrange.
  - intros e He [].
  - split; auto. intros p Hpp. rewrite lsum_nil. ring.
  - intros done [tid [o k]] s1 Hev Hd (O1 & T1). cbn [snd]. specialize (Ht _ Hev). specialize (Hin _ Hev). cbn [fst snd] in Ht, Hin. destruct o.
    + destruct (jdense_off_spec tid k s1 O1 Ht ltac:(lia)) as (s2 & E2 & O2 & T2). exists s2. split; auto. split; auto.
      intros p Hpp. rewrite T2, T1, lsum_cons by auto. unfold cc at 2. cbn [fst snd]. ring.
    + destruct (jdense_diag_spec tid k s1 O1 Ht ltac:(lia)) as (s2 & E2 & O2 & T2). exists s2. split; auto. split; auto.
      intros p Hpp. rewrite T2, T1, lsum_cons by auto. unfold cc at 2. cbn [fst snd]. ring.
  - exists s'. split; auto. split; auto. intros p Hpp. rewrite T' by auto. rewrite app_nil_r.
    rewrite (lsum_perm _ _ (map (pair false) (zrange 0 m0) ++ map (pair true) (zrange 0 m1))).
    + rewrite lsum_app, !lsum_map. unfold cc. cbn [fst snd].
      rewrite (rsum_split 0 m0 (h_nleaf h)), (rsum_split 0 m1 (zlen (h_inadm h))) by lia.
      rewrite (rsum_zero m0), (rsum_zero m1).
      * unfold rsum. ring.
      * intros k Hk. apply (offc_empty h R); [lia|auto].
      * intros k Hk. apply (diagc_empty h R); [lia|auto].
    + rewrite <- Hp. symmetry. apply Permutation_rev.
Qed.
End JDense.
