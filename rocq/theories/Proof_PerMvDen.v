(** The periodic matvec: dense multiplication (Model_PerMv.v). *)
From Coq Require Import ZArith QArith List Lia Bool Permutation.
From Verif Require Import Base Mem Num CRing Conc Model_Utils Spec_Utils Proof_Utils Model_Dense Spec_Dense Proof_Dense Proof_Dense2 Model_Partition Spec_Tree Model_CSR Spec_CSR Model_Pairs Spec_Pairs Model_Matvec Spec_Matvec
  Model_Build Spec_Build Proof_Build Proof_BuildFill Proof_Gemv Proof_MvTree Proof_MvFwd Proof_MvMid Proof_MvBwd Model_Matmul Proof_Gemm Proof_MmFwd Proof_MmMid Proof_MmTop Proof_MmFam
  Model_Periodic Spec_Periodic Proof_PerBlock Proof_PerMid Proof_PerTop Model_JIT Proof_JitBlk Proof_JitExt Proof_JitApply Proof_JitTop Model_PerMv Proof_PerMvExt Proof_PerMvMid.
Import ListNotations.
Open Scope Z_scope.

Section Den.
Context {F : num} {K : cring}.
Add Ring Kring : (cth K).
Local Open Scope ring_K.
Variable kern : list F -> list F -> Z -> Z -> K.
Variable simd : Z.
Hypothesis Hsimd : 1 <= simd.
Variable h : h2rep F K.
Hypothesis R : rep_ok h.
Hypothesis M0 : h_minlevel h = 0.
Variables (pt : Z -> list F) (js : Z -> list Z) (adm inadm : list (Z * Z)) (sB sD : Z -> Z -> F) (O : Z -> Z -> K) (c : pctx F K).
Hypothesis PO : per_ok h pt js adm inadm sB sD O c.
Notation kd := (h_kdim h).
Notation np := (h_npoint h).
Notation nth := (h_nthread h).
Notation nl := (h_nleaf h).
Variables mv nt : bool.
Notation pLy := (pLy h mv).
Notation yv_ok := (yv_ok h mv).
Notation dfam := (dfam kern h pt inadm sD).
Notation dsecond := (dsecond h inadm).
Variable xv : Z -> K.
Variable x : mem K.
Hypothesis Hx : forall p, 0 <= p < h_kms h -> ld x (pLy p) = Some (xv p).
Definition dvterm (n0 k p : Z) : K := dterm h dfam (fun q _ => xv q) n0 k p 0.
Definition dwv (k r : Z) : K := rsum 0 (fm_nc dfam k) (fun cc => fm_bv dfam k r cc * xv (mfirst h (fm_part dfam k) + cc)%Z).

Lemma den_pair_spec n0 k i (dij : dmat K) (m1 : dmat F) y f :
  0 <= n0 < h_nnode h -> In k (fm_ents dfam n0) -> ld (bm_colidx (q_dm c)) i = Some (dsecond k) -> ld (bm_val (q_dm c)) i = Some (k + 1)%Z ->
  dm_ok dij -> dm_ok m1 -> yv_ok y f ->
  exists dij' m1' y', pv_den_pair kern simd mv h c x n0 i (dij, m1, y) = Some (dij', m1', y') /\
    dm_ok dij' /\ dm_ok m1' /\ zlen y' = zlen y /\ yv_ok y' (fun p => f p + dvterm n0 k p).
Proof.
  intros Hn0 Hk Ec Ev Hd Hm Hy. destruct (dims_at kern h R pt js adm inadm sB sD O c PO n0 k Hn0 Hk) as (Hn1 & Hnr & Hnc & Hin).
  destruct (dfam_in kern h pt inadm sD n0 k Hk) as (K0 & Ef & _). set (n1 := dsecond k) in *.
  destruct (po_dims _ _ _ _ _ _ _ _ _ PO) as (P1 & P2 & P3 & P4 & P5 & P6). pose proof (kd1 h R) as Hk1.
  destruct (cluster_at h R pt js adm inadm sB sD O c PO n0 Hn0) as (s0 & e0 & Es0 & Ee0 & B1 & B2 & B3 & B4 & B5).
  destruct (cluster_at h R pt js adm inadm sB sD O c PO n1 Hn1) as (s1 & e1 & Es1 & Ee1 & C1 & C2 & C3 & C4 & C5).
  destruct (cluster_range h R n0 Hn0) as (A01 & A02 & A03). destruct (cluster_range h R n1 Hn1) as (A11 & A12 & A13).
  assert (Fin : forall y', zlen y' = zlen y ->
    (forall r, 0 <= r < msize h n0 -> ld y' (pLy (mfirst h n0 + r)) = Some (f (mfirst h n0 + r)%Z + rsum 0 (msize h n1) (fun cc => kshift kern h pt (dshift h sD k) (mfirst h n0 + r)%Z (mfirst h n1 + cc)%Z * xv (mfirst h n1 + cc)%Z))) ->
    (forall k', (forall r, 0 <= r < msize h n0 -> k' <> pLy (mfirst h n0 + r)) -> ld y' k' = ld y k') -> yv_ok y' (fun p => f p + dvterm n0 k p)).
  { intros y' _ H1 H2 p Hp. pose proof (yv_update h R mv y y' f n0 _ Hn0 Hy H1 H2 p Hp) as G. cbv beta in G. rewrite G. f_equal. f_equal.
    unfold dvterm, dterm. cbn [fm_nc fm_bv fm_part dfam]. rewrite Ef. fold n1. destruct (inside h n0 p); reflexivity. }
  unfold pv_den_pair. rewrite Ec, Ev. cbn [bind]. cbv zeta. replace (k + 1 - 1)%Z with k by lia.
  destruct mv eqn:Emv.
  - rewrite !(Z.mul_comm 2), Es0, Ee0, Es1. cbn [bind]. rewrite P5.
    assert (Hsh : exists sh, (if k <? nl then zfor 0 (q_dim c) (fun k sh => st sh k (nlit 0%Q)) shift8 else get_shift c (q_shD c) (k - nl)) = Some sh /\
      forall d, 0 <= d < 8 -> ld sh d = Some (dshift h sD k d)).
    { unfold dshift. destruct (Z.ltb_spec k nl) as [Hl|Hl].
      - destruct (shift_fill (q_dim c) (fun _ => Some (nlit 0%Q)) (@no_shift F)) as (sh & Esh & Vsh); [lia|auto|auto|]. cbn [bind] in Esh. exists sh. auto.
      - destruct (po_inadm _ _ _ _ _ _ _ _ _ PO _ _ _ (Hin Hl)) as (_ & _ & _ & _ & Hs & Hz). unfold get_shift.
        apply (shift_fill (q_dim c) (fun d => ld (q_shD c) ((k - nl) * q_dim c + d)) (sD (k - nl)%Z)); auto. lia. }
    destruct Hsh as (sh & Esh & Vsh). rewrite Esh. cbn [bind].
    destruct (cluster_shifted_spec h R pt js adm inadm sB sD O c PO n1 sh (dshift h sD k) m1 Hn1 Hm Vsh) as (m' & Em' & Sp). rewrite Em'. cbn [bind]. rewrite C4, Z.div_mul in Sp by lia. rewrite P4.
    destruct (ext_block kern simd Hsimd h R pt js adm inadm sB sD O c PO (q_coord c) s0 (q_npoint c) (e0 - s0 + 1)%Z (fun i => pt (s0 + i)%Z) m' (e1 - s1 + 1)%Z (fun j => pt (mfirst h n1 / kd + j)%Z) (dshift h sD k)
      x s1 np (fun cc => xv (mfirst h n1 + cc)%Z) y s0 np (fun r => f (mfirst h n0 + r)%Z)) as (d & Ed & Zd & Vd & Od); auto; try lia.
    + intros i' Hi'. eapply point_np; eauto. lia.
    + intros cc Hcc. rewrite <- Hx by lia. f_equal. rewrite C5, (pLy_shift h R). reflexivity.
    + intros r Hr. rewrite <- (Hy (mfirst h n0 + r)%Z) by lia. f_equal. rewrite B5, (pLy_shift h R). reflexivity.
    + rewrite P4 in Ed. match goal with |- context [bind ?t _] => replace t with (Some d) by (symmetry; exact Ed) end. cbn [bind].
      eexists dij, m', d. split; [reflexivity|]. split; auto. split; [apply Sp|]. split; auto. apply Fin; auto.
      * intros r Hr. rewrite B5, (pLy_shift h R), Vd by lia. rewrite B5. f_equal. f_equal. rewrite C4. apply rsum_ext. intros cc Hcc. f_equal. unfold kshift. rewrite C3.
        assert (Hdv : forall s r : Z, ((kd * s + r) / kd)%Z = (s + r / kd)%Z /\ ((kd * s + r) mod kd)%Z = (r mod kd)%Z).
        { intros s q. rewrite (Z.add_comm (kd * s)), (Z.mul_comm kd), Z.div_add, Z.mod_add by lia. split; auto. lia. }
        rewrite C5. destruct (Hdv s0 r) as (-> & ->). destruct (Hdv s1 cc) as (-> & ->). reflexivity.
      * intros k' Hk'. apply Od. intros r Hr. specialize (Hk' r ltac:(lia)). rewrite B5, (pLy_shift h R) in Hk'. exact Hk'.
  - destruct (per_D_block_spec kern h R pt js adm inadm sB sD O c PO k n0 n1 dij m1 Hn0 Hn1 Hnr Hnc Hin Hd Hm) as (o & m' & Eo & Om & Bo). rewrite Eo. cbn [bind].
    rewrite (ld_mfirst h R n1 Hn1), (ld_mfirst h R n0 Hn0). cbn [bind].
    destruct (gemv_block o (msize h n0) (msize h n1) _ (fun k => ld x (mfirst h n1 + k)%Z) (fun cc => xv (mfirst h n1 + cc)%Z) y (mfirst h n0) (fun r => f (mfirst h n0 + r)%Z) Bo) as (d & Ed & Zd & Vd & Od); try lia.
    + intros cc Hcc. rewrite <- Hx by lia. reflexivity.
    + intros r Hr. rewrite <- (Hy (mfirst h n0 + r)%Z) by lia. reflexivity.
    + rewrite Ed. cbn [bind]. exists o, m', d. split; [reflexivity|]. split; [apply Bo|]. auto.
Qed.

Definition den_pst (s : mvst K) (m0 : list (dmat K)) (y : mem K) : mvst K := set_y nt (set_m0 s m0) y.
Lemma den_pst_y s m0 y : y_of nt (den_pst s m0 y) = y.
Proof. unfold den_pst, y_of, set_y. destruct nt; reflexivity. Qed.
Lemma den_pst_m0 s m0 y : s_m0 (den_pst s m0 y) = m0.
Proof. unfold den_pst, set_y. destruct nt; reflexivity. Qed.
Lemma den_pst_st s m0 y m0' y' : set_y nt (set_m0 (den_pst s m0 y) m0') y' = den_pst s m0' y'.
Proof. unfold den_pst, set_y. destruct nt; reflexivity. Qed.

Lemma den_node_spec s m0 ms y f tid n0 : m0_ok h m0 -> m1_ok h ms -> yv_ok y f -> 0 <= tid < nth -> 0 <= n0 < h_nnode h ->
  exists m0' ms' y' f', pv_den_node kern simd mv nt h c x tid n0 (den_pst s m0 y, ms) = Some (den_pst s m0' y', ms') /\
    m0_ok h m0' /\ m1_ok h ms' /\ zlen y' = zlen y /\ yv_ok y' f' /\ forall p, 0 <= p < h_kms h -> f' p = f p + lsum (fun k => dvterm n0 k p) (fm_ents dfam n0).
Proof.
  intros (Zm & Fm) (Zs & Fs) Hy Ht Hn. unfold pv_den_node. rewrite den_pst_m0, den_pst_y.
  destruct (getz_in m0 tid ltac:(lia)) as [dij Ed]. rewrite Ed. cbn [bind].
  destruct (getz_in ms tid ltac:(lia)) as [m1 Em1]. rewrite Em1. cbn [bind].
  destruct (po_D _ _ _ _ _ _ _ _ _ PO n0 Hn) as (a & b & Ea & Eb & Hab & Hperm). rewrite Ea, Eb. cbn [bind]. rewrite (dense_row kern h R M0 pt inadm sD) in Hperm. unfold cells in Hperm.
  pose (P := fun (done : list Z) (w : dmat K * dmat F * mem K) => let '(dij, m1, y') := w in exists f',
    dm_ok dij /\ dm_ok m1 /\ zlen y' = zlen y /\ yv_ok y' f' /\
    forall p, 0 <= p < h_kms h -> f' p = f p + lsum (fun k => dvterm n0 k p) done).
  destruct (pos_loop (fm_ents dfam n0) (fun i => (ld (bm_colidx (q_dm c)) i, ld (bm_val (q_dm c)) i)) (fun k => (Some (dsecond k), Some (k + 1)%Z)) a b
    (pv_den_pair kern simd mv h c x n0) P (dij, m1, y))
    as ([[dij' m1'] y'] & done & El & (f' & Q1 & Q1' & Q2 & Q3 & Q4) & Hd); auto.
  - exists f. split; [eapply Forall_getz; eauto|]. split; [eapply (Forall_getz _ _ _ _ Fs); eauto|]. split; auto. split; auto. intros p _. rewrite lsum_nil. ring.
  - intros k done [[dc mc] pc] i Hk Hki (f' & Q1 & Q1' & Q2 & Q3 & Q4). cbv beta in Hki. injection Hki as Ki1 Ki2.
    destruct (den_pair_spec n0 k i dc mc pc f' Hn Hk Ki1 Ki2 Q1 Q1' Q3) as (d2 & m2 & y2 & E2 & A1 & A2 & A3 & A4).
    exists (d2, m2, y2). split; auto. eexists. split; auto. split; auto. split; [lia|]. split; [exact A4|]. intros p Hp. cbv beta. rewrite Q4, lsum_cons by auto. ring.
  - rewrite El. cbn [bind]. destruct (setz_Some m0 tid dij') as [m0' Es]; [lia|]. rewrite Es. cbn [bind].
    destruct (setz_Some ms tid m1') as [ms' Esm]; [lia|]. rewrite Esm. cbn [bind]. rewrite den_pst_st.
    exists m0', ms', y', f'. split; [reflexivity|]. split; [|split; [|split; [auto|split; [auto|]]]].
    + split; [rewrite (setz_zlen _ _ _ _ Es); auto|]. eapply (Forall_setz _ _ _ _ _ Fm); [|exact Es]; auto.
    + split; [rewrite (setz_zlen _ _ _ _ Esm); auto|]. eapply (Forall_setz _ _ _ _ _ Fs); [|exact Esm]; auto.
    + intros p Hp. rewrite Q4 by auto. now rewrite (lsum_perm _ _ _ Hd).
Qed.

Lemma pv_den_spec evs s ms f : omp_for nth (h_nnode h) evs -> m0_ok h (s_m0 s) -> m1_ok h ms -> yv_ok (y_of nt s) f ->
  exists m0 ms' y f', pv_den kern simd mv nt h c x evs (s, ms) = Some (den_pst s m0 y, ms') /\ m0_ok h m0 /\ m1_ok h ms' /\ zlen y = zlen (y_of nt s) /\ yv_ok y f' /\
    forall p, 0 <= p < h_kms h -> f' p = f p + rsum 0 (h_nnode h) (fun i => lsum (fun k => dvterm i k p) (fm_ents dfam i)).
Proof.
  intros [Ht Hpm] Hm0 Hms Hy. unfold pv_den. rewrite Forall_forall in Ht.
  destruct (run_each snd (fun ev => pv_den_node kern simd mv nt h c x (fst ev) (snd ev))
    (fun done z => exists m0 ms' y f', z = (den_pst s m0 y, ms') /\ m0_ok h m0 /\ m1_ok h ms' /\ zlen y = zlen (y_of nt s) /\ yv_ok y f' /\ forall p, 0 <= p < h_kms h ->
      f' p = f p + lsum (fun i => lsum (fun k => dvterm i k p) (fm_ents dfam i)) done) evs [] (s, ms))
    as (s' & Er & (m0 & ms' & y & f' & -> & Q1 & Q1' & Q2 & Q3 & Q4)).
  - eapply Permutation_NoDup; [symmetry; exact Hpm|]. apply NoDup_zrange.
  - intros e He [].
  - exists (s_m0 s), ms, (y_of nt s), f. split; [unfold den_pst, set_y, y_of; destruct nt; destruct s; reflexivity|]. split; auto. split; auto. split; auto. split; auto. intros p _. rewrite lsum_nil. ring.
  - intros done ev s' Hev Hnd (m0 & ms' & y & f' & -> & Q1 & Q1' & Q2 & Q3 & Q4).
    assert (Hn : 0 <= snd ev < h_nnode h). { apply In_zrange. eapply Permutation_in; [exact Hpm|]. now apply in_map. }
    destruct (den_node_spec s m0 ms' y f' (fst ev) (snd ev)) as (m2 & ms2 & y2 & f2 & E2 & A1 & A1' & A2 & A3 & A4); auto.
    exists (den_pst s m2 y2, ms2). split; auto. exists m2, ms2, y2, f2. split; auto. split; auto. split; auto. split; [lia|]. split; auto.
    intros p Hp. rewrite A4, Q4, lsum_cons by auto. ring.
  - exists m0, ms', y, f'. split; auto. rewrite app_nil_r in Q4. split; auto. split; auto. split; auto. split; auto. intros p Hp. rewrite Q4 by auto.
    assert (Hpr : Permutation (rev (map snd evs)) (zrange 0 (h_nnode h))) by (rewrite <- Permutation_rev; exact Hpm).
    now rewrite (lsum_perm _ _ _ Hpr).
Qed.
End Den.
