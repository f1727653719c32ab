(** The periodic product: dense blocks, batches, the whole product. *)
From Coq Require Import ZArith QArith List Lia Bool Permutation.
From Verif Require Import Base Mem Num CRing Conc Model_Utils Spec_Utils Proof_Utils Model_Dense Spec_Dense Proof_Dense Proof_Dense2 Model_Partition Spec_Tree Model_CSR Spec_CSR Model_Pairs Spec_Pairs Model_Matvec Spec_Matvec
  Model_Build Spec_Build Proof_Build Proof_BuildFill Proof_Gemv Proof_MvTree Proof_MvFwd Proof_MvMid Proof_MvBwd Model_Matmul Proof_Gemm Proof_MmFwd Proof_MmMid Proof_MmBwd Proof_MmTop Proof_MmFam
  Model_Periodic Spec_Periodic Proof_PerBlock Proof_PerMid.
Import ListNotations.
Open Scope Z_scope.

Section Top.
Context {F : num} {K : cring}.
Add Ring Kring : (cth K).
Local Open Scope ring_K.
Variable kern : list F -> list F -> Z -> Z -> K.
Variable h : h2rep F K.
Hypothesis R : rep_ok h.
Hypothesis M0 : h_minlevel h = 0.
Variables (pt : Z -> list F) (js : Z -> list Z) (adm inadm : list (Z * Z)) (sB sD : Z -> Z -> F) (O : Z -> Z -> K) (c : pctx F K).
Hypothesis PO : per_ok h pt js adm inadm sB sD O c.
Hypothesis Hnz : forall k i n1 n, getz adm k = Some (i, n1) -> ld (h_nr h) i = Some n -> n <> 0.
Notation t := (h_t h).
Notation nth := (h_nthread h).
Variables (mmx : Z) (col : bool).
Notation ldp := (if col then h_kms h else mmx).
Notation prs := (if col then 1 else ldp)%Z.
Notation nl := (h_nleaf h).

Lemma nl_pos : 0 <= nl.
Proof.
  destruct (ro_dims _ R) as (_ & _ & _ & _ & _ & Hm). destruct (ct_heights _ _ _ _ _ _ (ro_tree _ R) 0 ltac:(lia)) as (ns & _ & Hz & _).
  pose proof (zlen_nonneg ns). lia.
Qed.

(** The D blocks: entry k of a row is block number k. *)
Definition dfirst (k : Z) : Z := if k <? nl then leaf h k else first inadm (k - nl)%Z.
Definition dsecond (k : Z) : Z := if k <? nl then leaf h k else second inadm (k - nl)%Z.
Definition dfam : family (K := K) Z := Fam Z
  (fun n0 => filter (fun k => dfirst k =? n0) (zrange 0 (nl + zlen inadm)%Z)) dsecond
  (fun k => msize h (dfirst k)) (fun k => msize h (dsecond k))
  (fun k r cc => kshift kern h pt (dshift h sD k) (mfirst h (dfirst k) + r) (mfirst h (dsecond k) + cc)).

Lemma dfam_in n0 k : In k (fm_ents dfam n0) -> 0 <= k /\ dfirst k = n0 /\ ((0 <= k < nl /\ n0 = leaf h k /\ dsecond k = leaf h k) \/ (nl <= k /\ getz inadm (k - nl) = Some (n0, dsecond k))).
Proof.
  cbn. intros H. apply filter_In in H as (H1 & H2). apply In_zrange in H1. apply Z.eqb_eq in H2. split; [lia|]. split; auto. unfold dfirst, dsecond in *.
  destruct (Z.ltb_spec k nl).
  - left. split; [lia|]. auto.
  - right. split; auto. destruct (getz_in inadm (k - nl)%Z) as [[i j] E]; [lia|]. unfold first, second in *. rewrite E in *. now subst.
Qed.

Lemma filter_map {A B} (f : A -> B) (p : B -> bool) l : filter p (map f l) = map f (filter (fun x => p (f x)) l).
Proof. induction l as [|x l IH]; auto. cbn. destruct (p (f x)); cbn; now rewrite IH. Qed.

Lemma dense_row n : index_row (leaf_pairs h ++ numbered nl inadm) n = map (fun k => (Some (dsecond k), Some (k + 1)%Z)) (fm_ents dfam n).
Proof.
  pose proof nl_pos as Hn. pose proof (zlen_nonneg inadm) as Hz. unfold index_row at 1. rewrite filter_app, map_app.
  change (map (fun '(_, j, v) => (Some j, Some v)) (filter (fun '(i, _, _) => i =? n) (numbered nl inadm))) with (index_row (numbered nl inadm) n).
  rewrite numbered_row. cbn [fm_ents dfam]. rewrite (zrange_app 0 nl (nl + zlen inadm)), filter_app, map_app by lia. f_equal.
  - unfold leaf_pairs. rewrite filter_map, map_map. rewrite (filter_ext_in _ (fun k => dfirst k =? n)).
    + apply map_ext_in. intros k Hk. apply filter_In in Hk as (Hk & _). apply In_zrange in Hk. unfold dsecond. now rewrite (proj2 (Z.ltb_lt k nl)) by lia.
    + intros k Hk. apply In_zrange in Hk. unfold dfirst. now rewrite (proj2 (Z.ltb_lt k nl)) by lia.
  - replace (zrange nl (nl + zlen inadm)) with (map (fun k => nl + k)%Z (zrange 0 (zlen inadm))).
    2:{ unfold zrange. rewrite map_map. replace (nl + zlen inadm - nl)%Z with (zlen inadm - 0)%Z by lia. apply map_ext. intros. lia. }
    rewrite filter_map, map_map. rewrite (filter_ext_in (fun k => first inadm k =? n) (fun k => dfirst (nl + k) =? n)).
    + apply map_ext_in. intros k Hk. apply filter_In in Hk as (Hk & _). apply In_zrange in Hk. unfold dsecond. rewrite (proj2 (Z.ltb_ge (nl + k) nl)) by lia.
      now replace (nl + k - nl)%Z with k by lia.
    + intros k Hk. apply In_zrange in Hk. unfold dfirst. rewrite (proj2 (Z.ltb_ge (nl + k) nl)) by lia. now replace (nl + k - nl)%Z with k by lia.
Qed.

Section Batch.
Variable nv : Z.
Hypothesis Hnv : 1 <= nv <= mmx.
Notation pcell := (pcell h mmx col).
Notation pmat := (pmat h nv mmx col).
Variable xv : Z -> Z -> K.

Lemma dims_at n0 k : 0 <= n0 < h_nnode h -> In k (fm_ents dfam n0) -> 0 <= dsecond k < h_nnode h /\
  ld (bm_nrow (q_dm c)) k = Some (msize h n0) /\ ld (bm_ncol (q_dm c)) k = Some (msize h (dsecond k)) /\ (nl <= k -> getz inadm (k - nl) = Some (n0, dsecond k)).
Proof.
  intros Hn0 Hk. destruct (dfam_in n0 k Hk) as (K0 & Ef & [(L & E1 & E2)|(L & G)]).
  - destruct (po_leaf _ _ _ _ _ _ _ _ _ PO k L) as (A & B). rewrite E2, E1. destruct (leaf_at h R k L) as (_ & Rl). repeat split; auto; lia.
  - destruct (po_inadm _ _ _ _ _ _ _ _ _ PO _ _ _ G) as (_ & A & B & C & _). replace (nl + (k - nl))%Z with k in * by lia. auto.
Qed.

Lemma per_den_node_spec s m0 ms py f tid n0 : pmat (s_px s) xv -> m0_ok h m0 -> m1_ok h ms -> zlen py = (h_kms h * mmx)%Z -> pmat py f ->
  0 <= tid < nth -> 0 <= n0 < h_nnode h ->
  exists m0' ms' py' f', per_den_node kern h c nv ldp prs col ldp prs tid n0 (den_st s m0 py, ms) = Some (den_st s m0' py', ms') /\
    m0_ok h m0' /\ m1_ok h ms' /\ zlen py' = (h_kms h * mmx)%Z /\ pmat py' f' /\
    forall p l, 0 <= p < h_kms h -> 0 <= l < nv -> f' p l = f p l + lsum (fun e => dterm h dfam xv n0 e p l) (fm_ents dfam n0).
Proof.
  intros Hx (Zm & Fm) (Zs & Fs) Zp Hp Ht Hn. unfold per_den_node. rewrite (Z.mul_comm 2), (ld_mfirst h R) by auto. cbn [bind].
  change (s_m0 (den_st s m0 py)) with m0. change (s_px (den_st s m0 py)) with (s_px s). change (s_py (den_st s m0 py)) with py.
  destruct (getz_in m0 tid ltac:(lia)) as [dij Ed]. rewrite Ed. cbn [bind].
  destruct (getz_in ms tid ltac:(lia)) as [m1 Em1]. rewrite Em1. cbn [bind].
  destruct (po_D _ _ _ _ _ _ _ _ _ PO n0 Hn) as (a & b & Ea & Eb & Hab & Hperm). rewrite Ea, Eb. cbn [bind]. rewrite dense_row in Hperm. unfold cells in Hperm.
  destruct (cluster_range h R n0 Hn) as (C01 & C02 & C03).
  pose (P := fun (done : list Z) (x : dmat K * dmat F * mem K) => let '(dij, m1, py) := x in exists f',
    dm_ok dij /\ dm_ok m1 /\ zlen py = (h_kms h * mmx)%Z /\ pmat py f' /\
    forall p l, 0 <= p < h_kms h -> 0 <= l < nv -> f' p l = f p l + lsum (fun e => dterm h dfam xv n0 e p l) done).
  destruct (pos_loop (fm_ents dfam n0) (fun i => (ld (bm_colidx (q_dm c)) i, ld (bm_val (q_dm c)) i)) (fun k => (Some (dsecond k), Some (k + 1)%Z)) a b
    (fun i x => per_den_pair kern h c nv (s_px s) ldp prs col ldp (mfirst h n0 * prs) n0 i x) P (dij, m1, py))
    as ([[dij' m1'] py'] & done & El & (f' & Q1 & Q1' & Q2 & Q3 & Q4) & Hd); auto.
  - exists f. split; [eapply Forall_getz; eauto|]. split; [eapply (Forall_getz _ _ _ _ Fs); eauto|]. split; auto. split; auto. intros p l _ _. rewrite lsum_nil. ring.
  - intros k done [[dc mc] pc] i Hk Hki (f' & Q1 & Q1' & Q2 & Q3 & Q4). cbv beta in Hki. injection Hki as Ki1 Ki2.
    destruct (dims_at n0 k Hn Hk) as (Hn1 & Hnr & Hnc & Hin). destruct (dfam_in n0 k Hk) as (_ & Ef & _).
    destruct (cluster_range h R _ Hn1) as (C11 & C12 & C13).
    unfold per_den_pair. rewrite Ki1, Ki2. cbn [bind]. replace (k + 1 - 1)%Z with k by lia. rewrite (Z.mul_comm 2), (ld_mfirst h R) by auto. cbn [bind].
    destruct (per_D_block_spec kern h R pt js adm inadm sB sD O c PO k n0 (dsecond k) dc mc Hn Hn1 Hnr Hnc Hin Q1 Q1') as (o & m' & Eo & Om & Bo). rewrite Eo. cbn [bind]. cbv zeta.
    destruct (block_gview o _ _ _ Bo C12) as (Oo & Vo & Vw). destruct Bo as (_ & -> & -> & -> & _).
    destruct (acc_py h R nv mmx col Hnv o (msize h n0) (msize h (dsecond k)) _ (s_px s) (mfirst h (dsecond k) * prs) ldp col
      (fun c l => xv (mfirst h (dsecond k) + c)%Z l) pc f' (mfirst h n0) Vo) as (py' & Ep & Zp' & Vp'); auto; try lia.
    { intros cc l Hc Hl. rewrite <- (Hx (mfirst h (dsecond k) + cc)%Z l) by lia. unfold Proof_MmFwd.pcell. destruct col; f_equal; lia. }
    rewrite Vw in Ep. cbn [negb] in Ep. cbv beta iota in Ep.
    assert (Ep' : (if col then gemm false true nv (msize h n0) (msize h (dsecond k)) (s_px s) (mfirst h (dsecond k) * prs) ldp (dm_data o) 0 (msize h (dsecond k)) true pc (mfirst h n0 * prs) ldp
      else gemm false false (msize h n0) nv (msize h (dsecond k)) (dm_data o) 0 (msize h (dsecond k)) (s_px s) (mfirst h (dsecond k) * prs) ldp true pc (mfirst h n0 * prs) ldp) = Some py').
    { rewrite <- Ep. destruct col; reflexivity. }
    rewrite Ep'. cbn [bind]. exists (o, m', py'). split; auto. eexists. split; auto. split; auto. split; [lia|]. split; [exact Vp'|]. intros p l Hpp Hll. cbv beta.
    rewrite Q4, lsum_cons by auto. unfold dterm. cbn [fm_nc fm_bv fm_part dfam]. rewrite Ef.
    replace ((mfirst h n0 <=? p) && (p <? mfirst h n0 + msize h n0)) with (inside h n0 p); [ring|].
    unfold inside, msize. destruct (Z.leb_spec (mfirst h n0) p); destruct (Z.leb_spec p (mlast h n0)); destruct (Z.ltb_spec p (mfirst h n0 + (mlast h n0 - mfirst h n0 + 1))); auto; lia.
  - match type of El with ?L = _ => match goal with |- context [zfor a b ?f0 ?z0] => change (zfor a b f0 z0) with L end end. rewrite El. cbn [bind].
    destruct (setz_Some m0 tid dij') as [m0' Es]; [lia|]. rewrite Es. cbn [bind].
    destruct (setz_Some ms tid m1') as [ms' Esm]; [lia|]. rewrite Esm. cbn [bind].
    exists m0', ms', py', f'. split; [reflexivity|]. split; [|split; [|split; [auto|split; [auto|]]]].
    + split; [rewrite (setz_zlen _ _ _ _ Es); auto|]. eapply (Forall_setz _ _ _ _ _ Fm); [|exact Es]; auto.
    + split; [rewrite (setz_zlen _ _ _ _ Esm); auto|]. eapply (Forall_setz _ _ _ _ _ Fs); [|exact Esm]; auto.
    + intros p l Hpp Hll. rewrite Q4 by auto. now rewrite (lsum_perm _ _ _ Hd).
Qed.

Lemma per_den_spec evs s ms f : omp_for nth (h_nnode h) evs -> pmat (s_px s) xv -> m0_ok h (s_m0 s) -> m1_ok h ms ->
  zlen (s_py s) = (h_kms h * mmx)%Z -> pmat (s_py s) f ->
  exists m0 ms' py f', per_den kern h c nv ldp prs col ldp prs evs (s, ms) = Some (den_st s m0 py, ms') /\ m0_ok h m0 /\ m1_ok h ms' /\ zlen py = (h_kms h * mmx)%Z /\ pmat py f' /\
    forall p l, 0 <= p < h_kms h -> 0 <= l < nv -> f' p l = f p l + rsum 0 (h_nnode h) (fun i => lsum (fun e => dterm h dfam xv i e p l) (fm_ents dfam i)).
Proof.
  intros [Ht Hpm] Hx Hm0 Hms Zp Hp. unfold per_den. rewrite Forall_forall in Ht.
  destruct (run_each snd (fun ev => per_den_node kern h c nv ldp prs col ldp prs (fst ev) (snd ev))
    (fun done z => exists m0 ms' py f', z = (den_st s m0 py, ms') /\ m0_ok h m0 /\ m1_ok h ms' /\ zlen py = (h_kms h * mmx)%Z /\ pmat py f' /\ forall p l, 0 <= p < h_kms h -> 0 <= l < nv ->
      f' p l = f p l + lsum (fun i => lsum (fun e => dterm h dfam xv i e p l) (fm_ents dfam i)) done) evs [] (s, ms))
    as (s' & Er & (m0 & ms' & py & f' & -> & Q1 & Q1' & Q2 & Q3 & Q4)).
  - eapply Permutation_NoDup; [symmetry; exact Hpm|]. apply NoDup_zrange.
  - intros e He [].
  - exists (s_m0 s), ms, (s_py s), f. split; [destruct s; reflexivity|]. split; auto. split; auto. split; auto. split; auto. intros p l _ _. rewrite lsum_nil. ring.
  - intros done ev s' Hev Hnd (m0 & ms' & py & f' & -> & Q1 & Q1' & Q2 & Q3 & Q4).
    assert (Hn : 0 <= snd ev < h_nnode h). { apply In_zrange. eapply Permutation_in; [exact Hpm|]. now apply in_map. }
    destruct (per_den_node_spec s m0 ms' py f' (fst ev) (snd ev)) as (m2 & ms2 & py2 & f2 & E2 & A1 & A1' & A2 & A3 & A4); auto.
    exists (den_st s m2 py2, ms2). split; auto. exists m2, ms2, py2, f2. split; auto. split; auto. split; auto. split; auto. split; auto.
    intros p l Hpp Hll. rewrite A4, Q4, lsum_cons by auto. ring.
  - exists m0, ms', py, f'. split; auto. rewrite app_nil_r in Q4. split; auto. split; auto. split; auto. split; auto. intros p l Hpp Hll. rewrite Q4 by auto.
    assert (Hpr : Permutation (rev (map snd evs)) (zrange 0 (h_nnode h))) by (rewrite <- Permutation_rev; exact Hpm).
    now rewrite (lsum_perm _ _ _ Hpr).
Qed.

(** ** The sum of all contributions *)
Notation HP := (Hper kern h pt js adm inadm sB sD O).

Lemma adm_sum k p l : In k (zrange 0 (zlen adm)) -> term h (bfam kern h pt js adm sB) xv (first adm k) k p l = rsum 0 (h_kms h) (fun q => per_adm kern h pt js adm sB k p q * xv q l).
Proof.
  intros Hk. apply In_zrange in Hk. destruct (getz_in adm k ltac:(lia)) as [[n0 n1] G]. unfold term, wval. cbn [fm_nr fm_nc fm_bv fm_part bfam]. unfold per_adm, first, second. rewrite G.
  rewrite (rsum_ext 0 (h_kms h) _ (fun q => rsum 0 (side_size h n0 n1) (fun r => rsum 0 (side_size h n1 n0) (fun cc =>
    side h n0 n1 r p * kshift kern h pt (sB k) (block_row h js n0 n1 r) (block_row h js n1 n0 cc) * (side h n1 n0 cc q * xv q l))))).
  2:{ intros q Hq. rewrite <- rsum_mul_r. apply rsum_ext. intros r Hr. rewrite <- rsum_mul_r. apply rsum_ext. intros cc Hc. ring. }
  rewrite rsum_swap. apply rsum_ext. intros r Hr. rewrite rsum_swap, <- rsum_mul_l. apply rsum_ext. intros cc Hc. rewrite rsum_mul_l. unfold sidex. ring.
Qed.

Lemma inside_term n0 n1 p (g : Z -> K) l : 0 <= n1 < h_nnode h ->
  (if inside h n0 p then rsum 0 (msize h n1) (fun cc => g (mfirst h n1 + cc)%Z * xv (mfirst h n1 + cc)%Z l) else c0) =
  rsum 0 (h_kms h) (fun q => (if inside h n0 p && inside h n1 q then g q else c0) * xv q l).
Proof.
  intros H1. destruct (inside h n0 p); cbn [andb].
  - rewrite <- (rsum_inside h R n1 (fun q => g q * xv q l)) by auto. apply rsum_ext. intros q Hq. destruct (inside h n1 q); [auto|ring].
  - symmetry. apply rsum_zero. intros. ring.
Qed.

Lemma den_sum k p l : 0 <= p < h_kms h -> 0 <= k < nl + zlen inadm -> dterm h dfam xv (dfirst k) k p l =
  rsum 0 (h_kms h) (fun q => (if k <? nl then per_leaf kern h pt k p q else per_inadm kern h pt inadm sD (k - nl) p q) * xv q l).
Proof.
  intros Hp Hk. unfold dterm. cbn [fm_nc fm_bv fm_part dfam].
  assert (H1 : 0 <= dsecond k < h_nnode h /\ 0 <= dfirst k < h_nnode h).
  { unfold dfirst, dsecond. destruct (Z.ltb_spec k nl); [destruct (leaf_at h R k ltac:(lia)); auto|]. destruct (getz_in inadm (k - nl)%Z ltac:(lia)) as [[a b] G].
    unfold first, second. rewrite G. destruct (po_inadm _ _ _ _ _ _ _ _ _ PO _ _ _ G) as (A & B & _). auto. }
  rewrite (inside_term (dfirst k) (dsecond k) p (fun q => kshift kern h pt (dshift h sD k) (mfirst h (dfirst k) + (p - mfirst h (dfirst k)))%Z q)) by apply H1.
  apply rsum_ext. intros q Hq. replace (mfirst h (dfirst k) + (p - mfirst h (dfirst k)))%Z with p by lia. f_equal. unfold per_leaf, per_inadm, dfirst, dsecond, dshift.
  destruct (Z.ltb_spec k nl); auto. destruct (getz_in inadm (k - nl)%Z ltac:(lia)) as [[a b] G]. unfold first, second. rewrite G. reflexivity.
Qed.

Lemma far_sum p l : rsum 0 (rank h (root h)) (fun r => basis h (root h) p r * rsum 0 (rank h (root h)) (fun k => O r k * yhat h (fun p => xv p l) (root h) k)) =
  rsum 0 (h_kms h) (fun q => per_far h O p q * xv q l).
Proof.
  unfold per_far, yhat.
  rewrite (rsum_ext 0 (h_kms h) _ (fun q => rsum 0 (rank h (root h)) (fun r => rsum 0 (rank h (root h)) (fun cc => basis h (root h) p r * O r cc * (basis h (root h) q cc * xv q l))))).
  2:{ intros q Hq. rewrite <- rsum_mul_r. apply rsum_ext. intros r Hr. rewrite <- rsum_mul_r. apply rsum_ext. intros cc Hc. ring. }
  rewrite rsum_swap. apply rsum_ext. intros r Hr. rewrite rsum_swap, <- rsum_mul_l. apply rsum_ext. intros cc Hc. rewrite rsum_mul_l. ring.
Qed.

Lemma per_sum p l : 0 <= p < h_kms h ->
  rsum 0 (h_nnode h) (fun i => lsum (fun e => term h (bfam kern h pt js adm sB) xv i e p l) (fm_ents (bfam kern h pt js adm sB) i)) +
  rsum 0 (h_nnode h) (fun i => lsum (fun e => dterm h dfam xv i e p l) (fm_ents dfam i)) +
  rsum 0 (rank h (root h)) (fun r => basis h (root h) p r * rsum 0 (rank h (root h)) (fun k => O r k * yhat h (fun p => xv p l) (root h) k)) =
  rsum 0 (h_kms h) (fun q => HP p q * xv q l).
Proof.
  intros Hp. pose proof nl_pos as Hl. pose proof (zlen_nonneg inadm) as Hz. cbn [fm_ents bfam dfam].
  rewrite (sum_rows (fun i e => term h (bfam kern h pt js adm sB) xv i e p l) (first adm)).
  2:{ intros k Hk. apply In_zrange in Hk. unfold first. destruct (getz_in adm k ltac:(lia)) as [[n0 n1] G]. rewrite G. apply (po_adm _ _ _ _ _ _ _ _ _ PO k n0 n1 G). }
  rewrite (sum_rows (fun i e => dterm h dfam xv i e p l) dfirst).
  2:{ intros k Hk. apply In_zrange in Hk. unfold dfirst. destruct (Z.ltb_spec k nl); [destruct (leaf_at h R k ltac:(lia)); auto|].
      unfold first. destruct (getz_in inadm (k - nl)%Z ltac:(lia)) as [[n0 n1] G]. rewrite G. apply (po_inadm _ _ _ _ _ _ _ _ _ PO _ n0 n1 G). }
  rewrite far_sum. rewrite (lsum_ext _ _ _ (fun k Hk => adm_sum k p l Hk)).
  rewrite (lsum_ext _ (fun k => rsum 0 (h_kms h) (fun q => (if k <? nl then per_leaf kern h pt k p q else per_inadm kern h pt inadm sD (k - nl) p q) * xv q l)) (zrange 0 (nl + zlen inadm))).
  2:{ intros k Hk. apply In_zrange in Hk. apply den_sum; auto. }
  change (lsum ?f (zrange 0 ?n)) with (rsum 0 n f).
  rewrite (rsum_split 0 nl (nl + zlen inadm)) by lia. rewrite !(rsum_swap _ _ 0 (h_kms h)). rewrite <- !rsum_add. apply rsum_ext. intros q Hq. rewrite !rsum_mul_r. unfold Hper.
  rewrite (rsum_ext 0 nl _ (fun k => per_leaf kern h pt k p q)) by (intros k Hk; now rewrite (proj2 (Z.ltb_lt k nl)) by lia).
  replace (rsum nl (nl + zlen inadm)%Z (fun k => if k <? nl then per_leaf kern h pt k p q else per_inadm kern h pt inadm sD (k - nl) p q))
    with (rsum 0 (zlen inadm) (fun k => per_inadm kern h pt inadm sD k p q)).
  2:{ symmetry. replace nl with (0 + nl)%Z at 1 by lia. replace (nl + zlen inadm)%Z with (zlen inadm + nl)%Z by lia. rewrite rsum_shift. apply rsum_ext. intros k Hk.
      rewrite (proj2 (Z.ltb_ge (k + nl) nl)) by lia. now replace (k + nl - nl)%Z with k by lia. }
  ring.
Qed.
End Batch.

(** ** The whole product *)
Definition per_perm_ok (z : pst F K) : Prop := perm_ok h mmx (fst z).
Definition pprod (xf : Z -> Z -> K) (i v : Z) : K :=
  rsum 0 (h_kms h) (fun j => Hper kern h pt js adm inadm sB sD O (nthz (h_bwd h) i) (nthz (h_bwd h) j) * xf j v).

Lemma per_batch_spec sc nv ivec x ldx ldy z y (xf : Z -> Z -> K) : mm_sched_ok h sc -> pst_ok h z -> per_perm_ok z -> 1 <= nv <= mmx ->
  (forall j l, 0 <= j < h_kms h -> 0 <= l < nv -> ld x (cell col ldx j (ivec + l)) = Some (xf j (ivec + l)%Z)) ->
  fits_mat col (h_kms h) nv (cell col ldy 0 ivec) ldy (zlen y) ->
  exists z' y', per_batch kern h c mmx col sc ivec nv x ldx ldy z y = Some (z', y') /\ pst_ok h z' /\ per_perm_ok z' /\ zlen y' = zlen y /\
    (forall i l, 0 <= i < h_kms h -> 0 <= l < nv -> ld y' (cell col ldy i (ivec + l)) = Some (pprod xf i (ivec + l)%Z)) /\
    (forall k, (forall i l, 0 <= i < h_kms h -> 0 <= l < nv -> k <> cell col ldy i (ivec + l)) -> getz y' k = getz y k) /\ s_yT (fst z') = s_yT (fst z).
Proof.
  destruct z as [s ms]. intros Sc [S1 S2 S3 S4] [Zx Zy] Hnv Hx Hy. cbn [fst snd] in *. unfold per_batch. cbv zeta.
  destruct (ro_pmt _ R) as (Pf & Pb & Pp). pose proof (kms_nonneg h R) as Hk.
  assert (Cel : forall ldc j l, (ivec * (if col then ldc else 1) + cell col ldc j l)%Z = cell col ldc j (ivec + l)).
  { intros ldc j l. unfold cell. destruct col; lia. }
  destruct (permute_rows_spec h R col (h_fwd h) nv x (ivec * (if col then ldx else 1)) ldx (s_px s) 0 ldp (fun j l => xf j (ivec + l)%Z)) as (px & Epx & Zpx & Vpx & _); auto; try lia.
  { apply idx_in; auto. intros i Hi. apply Pp; auto. }
  { intros j l Hj Hl. rewrite Cel. auto. }
  { apply (fits_perm h R mmx col nv Hnv); auto. }
  rewrite Epx. cbn [bind]. destruct (mm_reset_spec h R mmx col nv Hnv (s_py s) Zy) as (py & Epy & Zpy & Vpy). rewrite Epy. cbn [bind].
  pose (xv := fun p l => xf (nthz (h_fwd h) p) (ivec + l)%Z).
  assert (Hpx : pmat h nv mmx col px xv). { intros p l Hp Hl. specialize (Vpx p l Hp Hl). rewrite Z.add_0_l in Vpx. rewrite pcell_cell. exact Vpx. }
  destruct (mm_fwd_spec h R nv mmx col Hnv xv (mc_fwd sc) (set_py (set_px s px) py)) as (y0 & E2 & Z0 & F0 & G0); auto.
  { apply (mo_fwd _ _ Sc). }
  rewrite E2. cbn [bind]. set (sa := set_y0 (set_py (set_px s px) py) y0).
  destruct (per_mid_spec kern h R M0 pt js adm inadm sB sD O c PO Hnz nv mmx col Hnv xv y0 px Z0 G0 Hpx (mc_mid sc) sa ms (fun _ _ => c0))
    as (y1 & m0 & ms1 & pyb & fb' & E3 & Z1 & F1 & N1 & M1 & M1' & Zpb & Vpb & Y0 & T1); auto.
  { apply (mo_mid _ _ Sc). }
  { cbn. lia. }
  rewrite E3. cbn [bind].
  destruct (per_root_spec h R M0 pt js adm inadm sB sD O c PO nv mmx Hnv xv y0 G0 sa y1 m0 pyb) as (y1r & Er & Zr & Fr & Ko & Nr & Vr); auto.
  rewrite Er. cbn [bind].
  assert (Hroot : 0 <= root h < h_nnode h) by (destruct (ct_root _ _ _ _ _ _ (ro_tree _ R)) as (H1 & _); unfold root; lia).
  destruct (mm_bwd_spec h R nv mmx col Hnv (mc_bwd sc) sa y1r m0 pyb fb') as (y1' & m0' & pyc & fc & E4 & (Z2 & F2 & N2 & M2 & Zpc & Vpc) & T2); auto.
  { apply (mo_bwd _ _ Sc). }
  { split; auto. split; auto. split; [|repeat (split; auto); apply M1]. intros i Hi. destruct (Z.eq_dec i (root h)) as [->|Hne]; auto.
    destruct (N1 i Hi) as (m & Em & Hm). exists m. now rewrite Ko. }
  rewrite E4. cbn [bind].
  destruct (per_den_spec nv Hnv xv (mc_den sc) (bwd_st sa y1' m0' pyc) ms1 fc) as (m0d & msd & pyd & fe & E5 & M3 & M3' & Zpd & Vpd & T3); auto.
  { apply (mo_den _ _ Sc). }
  rewrite E5. cbn [bind]. change (s_py (den_st (bwd_st sa y1' m0' pyc) m0d pyd)) with pyd.
  assert (Hfe : forall p l, 0 <= p < h_kms h -> 0 <= l < nv -> fe p l = rsum 0 (h_kms h) (fun q => Hper kern h pt js adm inadm sB sD O p q * xv q l)).
  { intros p l Hp Hl. rewrite T3, T2 by auto. rewrite <- per_sum by auto. specialize (T1 p l Hp Hl).
    rewrite (rsum_upd 0 (h_nnode h) (fun i => rsum 0 (rank h i) (fun cc => basis h i p cc * y1val y1 i (cc * nv + l))) _ (root h)
      (rsum 0 (rank h (root h)) (fun r => basis h (root h) p r * rsum 0 (rank h (root h)) (fun k => O r k * yhat h (fun p => xv p l) (root h) k)))); auto.
    - match type of T1 with ?a = ?b => transitivity (a + rsum 0 (rank h (root h)) (fun r => basis h (root h) p r * rsum 0 (rank h (root h)) (fun k => O r k * yhat h (fun p => xv p l) (root h) k)) +
        rsum 0 (h_nnode h) (fun i => lsum (fun e => dterm h dfam xv i e p l) (fm_ents dfam i))); [ring|rewrite T1; ring] end.
    - rewrite (rsum_zero 0 (rank h (root h)) (fun cc => basis h (root h) p cc * y1val y1 (root h) (cc * nv + l))).
      + rewrite (rsum_ext 0 (rank h (root h)) (fun cc => basis h (root h) p cc * y1val y1r (root h) (cc * nv + l)) (fun r => basis h (root h) p r * rsum 0 (rank h (root h)) (fun k => O r k * yhat h (fun p => xv p l) (root h) k))); [ring|].
        intros r Hr. now rewrite Vr.
      + intros r Hr. rewrite (Y0 (root h) r l); auto; [ring|]. destruct (po_root _ _ _ _ _ _ _ _ _ PO) as (_ & Hno & _).
        destruct (fm_ents (bfam kern h pt js adm sB) (root h)) as [|k ks] eqn:Ee; auto. exfalso.
        pose proof (bfam_in kern h pt js adm sB (root h) k ltac:(rewrite Ee; now left)) as G. eauto.
    - intros i Hi Hne. apply rsum_ext. intros cc Hc. unfold y1val. now rewrite Ko. }
  destruct (permute_rows_spec h R col (h_bwd h) nv pyd 0 ldp y (ivec * (if col then ldy else 1)) ldy fe) as (y' & Ey & Zy' & Vy & Oy); auto; try lia.
  { apply idx_in; auto. intros i Hi. apply Pp; auto. }
  { intros j l Hj Hl. rewrite Z.add_0_l, <- pcell_cell. apply Vpd; auto. }
  { replace (ivec * (if col then ldy else 1))%Z with (cell col ldy 0 ivec) by (unfold cell; destruct col; lia). exact Hy. }
  rewrite Ey. cbn [bind]. eexists _, y'. split; [reflexivity|]. split; [|split; [|split; [|split]]]; auto.
  - constructor; cbn; auto.
  - split; cbn; lia.
  - intros i l Hi Hl. rewrite <- Cel, Vy by auto. f_equal. destruct (Pp i Hi) as (_ & Hb & _). rewrite Hfe by auto. unfold pprod.
    set (p := nthz (h_bwd h) i) in *. unfold rsum. rewrite (lsum_perm _ (zrange 0 (h_kms h)) (map (nthz (h_bwd h)) (zrange 0 (h_kms h)))).
    + rewrite lsum_map. apply lsum_ext. intros j Hj. apply In_zrange in Hj. unfold xv. destruct (Pp j ltac:(lia)) as (_ & _ & _ & ->). reflexivity.
    + apply NoDup_Permutation_bis.
      * apply NoDup_zrange.
      * rewrite map_length. auto.
      * intros q Hq. apply In_zrange in Hq. apply in_map_iff. destruct (Pp q ltac:(lia)) as (A & _ & B & _).
        exists (nthz (h_fwd h) q). split; auto. apply In_zrange. lia.
  - split; [|reflexivity]. intros k Hkk. apply Oy. intros i l Hi Hl. rewrite Cel. auto.
Qed.

Theorem matmul_periodic_spec sc n_vec z x ldx y ldy (xf : Z -> Z -> K) : 1 <= mmx -> 0 <= n_vec -> (forall b, mm_sched_ok h (sc b)) -> pst_ok h z ->
  (forall j v, 0 <= j < h_kms h -> 0 <= v < n_vec -> ld x (cell col ldx j v) = Some (xf j v)) ->
  fits_mat col (h_kms h) n_vec 0 ldy (zlen y) ->
  exists z' y', matmul_periodic kern h c mmx col sc n_vec z x ldx y ldy = Some (z', y') /\ pst_ok h z' /\ zlen y' = zlen y /\
    (forall i v, 0 <= i < h_kms h -> 0 <= v < n_vec -> ld y' (cell col ldy i v) = Some (pprod xf i v)) /\
    (forall k, (forall i v, 0 <= i < h_kms h -> 0 <= v < n_vec -> k <> cell col ldy i v) -> getz y' k = getz y k) /\ per_perm_ok z' /\ s_yT (fst z') = s_yT (fst z).
Proof.
  intros Hm Hn Sc Ss Hx Hy. unfold matmul_periodic. cbv zeta. pose proof (kms_nonneg h R) as Hk.
  set (nb := ((n_vec + mmx - 1) / mmx)%Z).
  assert (Hnb : 0 <= nb /\ n_vec <= nb * mmx /\ (nb - 1) * mmx < n_vec \/ (nb = 0 /\ n_vec = 0)).
  { pose proof (Z.div_mod (n_vec + mmx - 1) mmx ltac:(lia)) as D. pose proof (Z.mod_pos_bound (n_vec + mmx - 1) mmx ltac:(lia)) as M. fold nb in D.
    assert (0 <= nb) by (apply Z.div_pos; lia). nia. }
  pose (P := fun (b : Z) (w : pst F K * mem K) => let '(z', y') := w in pst_ok h z' /\ per_perm_ok z' /\ zlen y' = zlen y /\
    (forall i v, 0 <= i < h_kms h -> 0 <= v < Z.min (b * mmx) n_vec -> ld y' (cell col ldy i v) = Some (pprod xf i v)) /\
    (forall k, (forall i v, 0 <= i < h_kms h -> 0 <= v < Z.min (b * mmx) n_vec -> k <> cell col ldy i v) -> getz y' k = getz y k) /\ s_yT (fst z') = s_yT (fst z)).
  match goal with |- context [zfor 0 nb ?b ?z] => destruct (zfor_inv P 0 nb b z) as [[z' y'] [E (P1 & P2 & P5 & P6 & P7 & P8)]] end.
  - lia.
  - split; [destruct Ss; constructor; auto|]. split; [split; cbn; rewrite zlen_alloc; nia|]. split; auto. split; [intros i v _ Hv; lia|]. split; auto.
  - intros b [z1 y1] Hb (P1 & P2 & P5 & P6 & P7 & P8).
    set (nv := if (b * mmx + mmx <=? n_vec)%Z then mmx else (n_vec - b * mmx)%Z).
    assert (Hbm : ((b + 1) * mmx <= nb * mmx)%Z) by (apply Z.mul_le_mono_nonneg_r; lia).
    assert (Hnv : 1 <= nv <= mmx /\ (b * mmx + nv)%Z = Z.min ((b + 1) * mmx) n_vec /\ (b * mmx)%Z = Z.min (b * mmx) n_vec).
    { unfold nv. destruct (Z.leb_spec (b * mmx + mmx) n_vec); [lia|]. assert ((nb - 1) * mmx < n_vec)%Z by lia. assert (b = (nb - 1)%Z) by nia. lia. }
    destruct Hnv as (N1 & N2 & N3).
    assert (Hb0 : 0 <= b * mmx) by nia.
    destruct (per_batch_spec (sc b) nv (b * mmx) x ldx ldy z1 y1 xf) as (z2 & y2 & E2 & Q1 & Q2 & Q5 & Q6 & Q7 & Q8); auto.
    + intros j l Hj Hl. apply Hx; auto. lia.
    + rewrite P5. unfold fits_mat, fits, cell in *. destruct col.
      * destruct Hy as (Y1 & Y2 & Y3 & Y4 & Y5). repeat split; try lia; try nia.
      * destruct Hy as (Y1 & Y2 & Y3 & Y4 & Y5). repeat split; try lia; try nia.
    + exists (z2, y2). split; auto. unfold P. split; auto. split; auto. split; [lia|]. split; [|split; [|congruence]].
      * intros i v Hi Hv. rewrite <- N2 in Hv. destruct (Z_lt_le_dec v (b * mmx)) as [Hlt|Hge].
        -- rewrite ld_getz, Q7, <- ld_getz; [apply P6; auto; lia|]. intros i' l Hi' Hl. unfold cell, fits_mat, fits in *. destruct col.
           ++ intros Ec. destruct Hy as (Y1 & Y2 & Y3 & Y4 & Y5). apply (region_inj (h_kms h)) in Ec as [? ?]; lia.
           ++ intros Ec. destruct Hy as (Y1 & Y2 & Y3 & Y4 & Y5). apply (region_inj n_vec) in Ec as [? ?]; lia.
        -- specialize (Q6 i (v - b * mmx)%Z Hi ltac:(lia)). replace (b * mmx + (v - b * mmx))%Z with v in Q6 by lia. exact Q6.
      * intros k Hkk. rewrite Q7, P7; auto.
        -- intros i v Hi Hv. apply Hkk; auto. lia.
        -- intros i l Hi Hl. apply Hkk; auto. lia.
  - rewrite E. exists z', y'. split; auto. split; auto. split; auto.
    replace (Z.min (nb * mmx) n_vec) with n_vec in P6, P7 by lia. auto.
Qed.
End Top.
