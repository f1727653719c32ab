(** H2P_matmul: dense blocks, permutations, batches of columns. *)
From Coq Require Import ZArith List Lia Bool Permutation.
From Verif Require Import Base Mem Num CRing Conc Model_Utils Spec_Utils Proof_Utils Model_Dense Spec_Dense Proof_Dense Proof_Dense2 Proof_Dense3 Model_Partition Spec_Tree Model_CSR Model_Matvec Spec_Matvec
  Model_Build Proof_Gemv Proof_MvTree Proof_MvFwd Proof_MvMid Proof_MvBwd Proof_MvTop Model_Matmul Proof_Gemm Proof_MmFwd Proof_MmMid Proof_MmBwd.
Import ListNotations.
Open Scope Z_scope.

(** A loop writing the rows of an m-by-n region, one after the other. *)
Lemma rows_loop {A} (m n po ldp : Z) (body : Z -> mem A -> option (mem A)) (new : Z -> Z -> A) (C : mem A) :
  fits m n po ldp (zlen C) ->
  (forall i D, 0 <= i < m -> zlen D = zlen C -> exists D', body i D = Some D' /\ zlen D' = zlen D /\
     (forall j, 0 <= j < n -> ld D' (po + (i * ldp + j)) = Some (new i j)) /\
     (forall k, ~ (po + i * ldp <= k < po + i * ldp + n) -> getz D' k = getz D k)) ->
  exists C', zfor 0 m body C = Some C' /\ zlen C' = zlen C /\
    (forall i j, 0 <= i < m -> 0 <= j < n -> ld C' (po + (i * ldp + j)) = Some (new i j)) /\
    forall k, (forall i j, 0 <= i < m -> 0 <= j < n -> k <> po + (i * ldp + j)) -> getz C' k = getz C k.
Proof.
  intros (F1 & F2 & F3 & F4 & F5) Hb.
  destruct (zfor_inv (fun a (D : mem A) => zlen D = zlen C /\ (forall i j, 0 <= i < a -> 0 <= j < n -> ld D (po + (i * ldp + j)) = Some (new i j)) /\
    forall k, (forall i j, 0 <= i < a -> 0 <= j < n -> k <> po + (i * ldp + j)) -> getz D k = getz C k) 0 m body C) as (C' & E & P1 & P2 & P3); auto.
  - split; auto. split; auto. intros i j Hi. lia.
  - intros a D Ha (P1 & P2 & P3). destruct (Hb a D Ha P1) as (D' & E' & Z' & V' & O'). exists D'. split; auto. split; [lia|]. split.
    + intros i j Hi Hj. destruct (Z.eq_dec i a) as [->|Hne]; auto. rewrite ld_getz, O', <- ld_getz; [apply P2; lia|]. nia.
    + intros k Hk. rewrite O'; [apply P3; intros i j Hi Hj; apply Hk; lia|]. intros Hr.
      apply (Hk a (k - (po + a * ldp))); lia.
  - exists C'. auto.
Qed.

Section Top.
Context {F : num} {K : cring}.
Add Ring Kring : (cth K).
Local Open Scope ring_K.
Variable h : h2rep F K.
Hypothesis R : rep_ok h.
Notation t := (h_t h).
Notation nth := (h_nthread h).
Variables (mmx : Z) (col : bool).
Notation ldp := (if col then h_kms h else mmx).
Notation prs := (if col then 1 else ldp)%Z.

(** Cell of row j, column l of a matrix with leading dimension [lda]. *)
Definition cell (lda j l : Z) : Z := if col then (l * lda + j)%Z else (j * lda + l)%Z.
Definition fits_mat (nrow ncol off lda n : Z) : Prop := if col then fits ncol nrow off lda n else fits nrow ncol off lda n.

Lemma permute_rows_spec idx nv (x : mem K) xo ldx (p : mem K) po ldo (xf : Z -> Z -> K) :
  1 <= nv -> zlen idx = h_kms h -> (forall i, In i idx -> 0 <= i < h_kms h) ->
  (forall j l, 0 <= j < h_kms h -> 0 <= l < nv -> ld x (xo + cell ldx j l) = Some (xf j l)) ->
  fits_mat (h_kms h) nv po ldo (zlen p) ->
  exists p', permute_rows h idx col nv x xo ldx p po ldo = Some p' /\ zlen p' = zlen p /\
    (forall i l, 0 <= i < h_kms h -> 0 <= l < nv -> ld p' (po + cell ldo i l) = Some (xf (nthz idx i) l)) /\
    (forall k, (forall i l, 0 <= i < h_kms h -> 0 <= l < nv -> k <> (po + cell ldo i l)%Z) -> getz p' k = getz p k).
Proof.
  intros Hn Hz Hin Hx Hf. unfold permute_rows, cell, fits_mat in *. pose proof (kms_nonneg h R) as Hk. destruct col.
  - destruct Hf as (F1 & F2 & F3 & F4 & F5).
    destruct (rows_loop nv (h_kms h) po ldo (fun irow d => gather_vector_elements (h_kms h) idx x (xo + irow * ldx) d (po + irow * ldo)) (fun l i => xf (nthz idx i) l) p)
      as (p' & E & Z' & V' & O').
    + unfold fits. auto.
    + intros l D Hl ZD. destruct (gather_vector_spec (h_kms h) idx x D (xo + l * ldx) (po + l * ldo) (fun j => xf j l) (h_kms h)) as (d & E & Zd & Vd & Od); auto; try nia.
      * destruct (Z.eq_dec (h_kms h) 0) as [H0|H0]; [|rewrite ZD; specialize (F5 ltac:(lia) ltac:(lia)); nia].
        destruct (ct_root _ _ _ _ _ _ (ro_tree _ R)) as (H1 & _). destruct (cluster_range h R 0 ltac:(lia)) as (C1 & C2 & C3). lia.
      * intros j Hj. rewrite <- Hx by auto. f_equal; lia.
      * exists d. split; auto. split; auto. split; [|auto]. intros j Hj. rewrite <- Vd by auto. f_equal; lia.
    + exists p'. split; auto.
  - destruct Hf as (F1 & F2 & F3 & F4 & F5).
    destruct (rows_loop (h_kms h) nv po ldo (fun irow d => j <- getz idx irow; mcpy d (po + irow * ldo) x (xo + j * ldx) nv) (fun i l => xf (nthz idx i) l) p)
      as (p' & E & Z' & V' & O').
    + unfold fits. auto.
    + intros i D Hi ZD. destruct (getz_in idx i) as [j Ej]; [lia|]. rewrite Ej. cbn [bind]. assert (Hj : 0 <= j < h_kms h) by (apply Hin; eapply getz_In; eauto).
      pose proof (Hx j 0 Hj ltac:(lia)) as X0. pose proof (Hx j (nv - 1)%Z Hj ltac:(lia)) as X1. apply ld_range in X0. apply ld_range in X1.
      specialize (F5 ltac:(lia) ltac:(lia)).
      destruct (mcpy_spec D (po + i * ldo) x (xo + j * ldx) nv) as (d & E & Zd & Gd); try lia; try nia.
      exists d. split; auto. split; auto. split.
      * intros l Hl. rewrite ld_getz, Gd. destruct (Z.leb_spec (po + i * ldo) (po + (i * ldo + l))); [|lia].
        destruct (Z.ltb_spec (po + (i * ldo + l)) (po + i * ldo + nv)); [|lia]. cbn [andb]. rewrite <- ld_getz. rewrite (nthz_eq _ _ _ Ej), <- Hx by auto. f_equal; lia.
      * intros k Hkk. rewrite Gd. destruct (Z.leb_spec (po + i * ldo) k); destruct (Z.ltb_spec k (po + i * ldo + nv)); cbn [andb]; auto. lia.
    + exists p'. split; auto.
Qed.

Section Batch.
Variable nv : Z.
Hypothesis Hnv : 1 <= nv <= mmx.
Notation pcell := (pcell h mmx col).
Notation pmat := (pmat h nv mmx col).

Lemma pcell_cell p l : pcell p l = cell ldp p l.
Proof. unfold Proof_MmFwd.pcell, cell. destruct col; auto. Qed.
Lemma fits_perm n : n = (h_kms h * mmx)%Z -> fits_mat (h_kms h) nv 0 ldp n.
Proof.
  intros ->. pose proof (kms_nonneg h R). unfold fits_mat, fits. destruct col; repeat split; try lia; intros.
  - assert ((nv - 1) * h_kms h <= (mmx - 1) * h_kms h)%Z by (apply Z.mul_le_mono_nonneg_r; lia). lia.
Qed.

Lemma mm_reset_spec (py : mem K) : zlen py = (h_kms h * mmx)%Z ->
  exists py', mm_reset col (h_kms h) nv ldp py = Some py' /\ zlen py' = zlen py /\ pmat py' (fun _ _ => c0).
Proof.
  intros Z0. pose proof (fits_perm _ Z0) as Hf. unfold mm_reset, fits_mat in *.
  assert (Hst : forall (ldo i j : Z) (D : mem K), 0 <= i * ldo + j < zlen D -> exists D', st D (i * ldo + j) c0 = Some D' /\ zlen D' = zlen D /\
    forall x, getz D' x = if x =? 0 + (i * ldo + j) then Some (Some c0) else getz D x).
  { intros ldo i j D Hr. destruct (st_Some D (i * ldo + j) (c0 (c := K)) Hr) as [D' E]. exists D'. split; auto. split; [eapply st_zlen; eauto|].
    intros x. rewrite (getz_st _ _ _ _ x E), Z.add_0_l. destruct (Z.eqb_spec (i * ldo + j) x); destruct (Z.eqb_spec x (i * ldo + j)); auto; lia. }
  unfold Proof_MmFwd.pmat, Proof_MmFwd.pcell. destruct col.
  - destruct (region_loop nv (h_kms h) 0 (h_kms h) (fun i j py => st py (i * h_kms h + j) c0) (fun _ _ => c0 (c := K)) py Hf) as (py' & E & Z' & V' & _).
    + intros i j D Hi Hj ZD _. apply Hst. rewrite ZD, Z0. assert ((i + 1) * h_kms h <= mmx * h_kms h)%Z by (apply Z.mul_le_mono_nonneg_r; lia). nia.
    + exists py'. split; auto. split; auto. intros p l Hp Hl. specialize (V' l p Hl Hp). exact V'.
  - destruct (region_loop (h_kms h) nv 0 mmx (fun i j py => st py (i * mmx + j) c0) (fun _ _ => c0 (c := K)) py Hf) as (py' & E & Z' & V' & _).
    + intros i j D Hi Hj ZD _. apply Hst. rewrite ZD, Z0. assert ((i + 1) * mmx <= h_kms h * mmx)%Z by (apply Z.mul_le_mono_nonneg_r; lia). nia.
    + exists py'. split; auto.
Qed.

(** ** Dense blocks *)
Section Dense.
Context {E : Type} (fm : family (K := K) E) (get : Z -> Z -> dmat K -> option (option (dmat K))) (dm : bmeta).
Hypothesis Hrows : fam_rows fm (h_nnode h) (bm_rowptr dm) (bm_colidx dm).
Hypothesis Hget : fam_get fm (h_nnode h) get.
Hypothesis Hent : forall n0 e, 0 <= n0 < h_nnode h -> In e (fm_ents fm n0) ->
  0 <= fm_part fm e < h_nnode h /\ fm_nr fm e = msize h n0 /\ fm_nc fm e = msize h (fm_part fm e).
Variable xv : Z -> Z -> K.

Definition dterm (n0 : Z) (e : E) (p l : Z) : K :=
  if inside h n0 p then rsum 0 (fm_nc fm e) (fun c => fm_bv fm e (p - mfirst h n0) c * xv (mfirst h (fm_part fm e) + c)%Z l) else c0.

Definition den_st (s : mvst K) (m0 : list (dmat K)) (py : mem K) : mvst K := set_py (set_m0 s m0) py.

Lemma mm_den_node_spec s m0 py f tid n0 : pmat (s_px s) xv -> m0_ok h m0 -> zlen py = (h_kms h * mmx)%Z -> pmat py f ->
  0 <= tid < nth -> 0 <= n0 < h_nnode h ->
  exists m0' py' f', mm_den_node h get dm nv ldp prs col ldp prs tid n0 (den_st s m0 py) = Some (den_st s m0' py') /\
    m0_ok h m0' /\ zlen py' = (h_kms h * mmx)%Z /\ pmat py' f' /\
    forall p l, 0 <= p < h_kms h -> 0 <= l < nv -> f' p l = f p l + lsum (fun e => dterm n0 e p l) (fm_ents fm n0).
Proof.
  intros Hx (Zm & Fm) Zp Hp Ht Hn. unfold mm_den_node. rewrite (Z.mul_comm 2), (ld_mfirst h R) by auto. cbn [bind].
  change (s_m0 (den_st s m0 py)) with m0. change (s_px (den_st s m0 py)) with (s_px s). change (s_py (den_st s m0 py)) with py.
  destruct (getz_in m0 tid ltac:(lia)) as [dij Ed]. rewrite Ed. cbn [bind].
  destruct (Hrows n0 Hn) as (a & b & Ea & Eb & Hab & Hperm). rewrite Ea, Eb. cbn [bind].
  destruct (cluster_range h R n0 Hn) as (C01 & C02 & C03).
  pose (P := fun (done : list E) (x : dmat K * mem K) => let '(dij, py) := x in exists f',
    dm_ok dij /\ zlen py = (h_kms h * mmx)%Z /\ pmat py f' /\
    forall p l, 0 <= p < h_kms h -> 0 <= l < nv -> f' p l = f p l + lsum (fun e => dterm n0 e p l) done).
  destruct (fam_loop (fm_ents fm n0) (fm_part fm) (bm_colidx dm) a b
    (fun node1 x => mm_den_pair h get nv (s_px s) ldp prs col ldp (mfirst h n0 * prs) n0 node1 x) P (dij, py))
    as ([dij' py'] & done & El & (f' & Q1 & Q2 & Q3 & Q4) & Hd); auto.
  - exists f. split; [eapply Forall_getz; eauto|]. split; auto. split; auto. intros p l _ _. rewrite lsum_nil. ring.
  - intros e done [dc pc] He (f' & Q1 & Q2 & Q3 & Q4). destruct (Hent n0 e Hn He) as (Hn1 & Hnr & Hnc).
    destruct (cluster_range h R _ Hn1) as (C11 & C12 & C13).
    unfold mm_den_pair. rewrite (Z.mul_comm 2), (ld_mfirst h R) by auto. cbn [bind].
    destruct (Hget n0 e dc Hn He Q1) as (o & Eo & Oo & Vo). unfold fetch. rewrite Eo. cbn [bind].
    destruct (acc_py h R nv mmx col Hnv o (fm_nr fm e) (fm_nc fm e) (fm_bv fm e) (s_px s) (mfirst h (fm_part fm e) * prs) ldp col
      (fun c l => xv (mfirst h (fm_part fm e) + c)%Z l) pc f' (mfirst h n0)) as (py' & Ep & Zp' & Vp'); auto; try lia.
    { intros c l Hc Hl. rewrite <- (Hx (mfirst h (fm_part fm e) + c)%Z l) by lia. unfold Proof_MmFwd.pcell. destruct col; f_equal; lia. }
    destruct (view o) as [[[nrow ncol] ldd] tr].
    assert (Ep' : (if col then gemm false (negb tr) nv nrow ncol (s_px s) (mfirst h (fm_part fm e) * prs) ldp (dm_data o) 0 ldd true pc (mfirst h n0 * prs) ldp
      else gemm tr false nrow nv ncol (dm_data o) 0 ldd (s_px s) (mfirst h (fm_part fm e) * prs) ldp true pc (mfirst h n0 * prs) ldp) = Some py').
    { rewrite <- Ep. destruct col; reflexivity. }
    rewrite Ep'. cbn [bind]. exists (o, py'). split; auto. eexists. split; auto. split; [lia|]. split; [exact Vp'|]. intros p l Hpp Hll. cbv beta.
    rewrite Q4, lsum_cons by auto. unfold dterm. rewrite Hnr.
    replace ((mfirst h n0 <=? p) && (p <? mfirst h n0 + msize h n0)) with (inside h n0 p); [ring|].
    unfold inside, msize. destruct (Z.leb_spec (mfirst h n0) p); destruct (Z.leb_spec p (mlast h n0)); destruct (Z.ltb_spec p (mfirst h n0 + (mlast h n0 - mfirst h n0 + 1))); auto; lia.
  - match type of El with ?L = _ => match goal with |- context [zfor a b ?f0 ?z0] => change (zfor a b f0 z0) with L end end. rewrite El. cbn [bind].
    destruct (setz_Some m0 tid dij') as [m0' Es]; [lia|]. rewrite Es. cbn [bind].
    exists m0', py', f'. split; [reflexivity|]. split; [|split; [auto|split; [auto|]]].
    + split; [rewrite (setz_zlen _ _ _ _ Es); auto|]. eapply (Forall_setz _ _ _ _ _ Fm); [|exact Es]; auto.
    + intros p l Hpp Hll. rewrite Q4 by auto. now rewrite (lsum_perm _ _ _ Hd).
Qed.

Lemma mm_den_spec evs s f : omp_for nth (h_nnode h) evs -> pmat (s_px s) xv -> m0_ok h (s_m0 s) ->
  zlen (s_py s) = (h_kms h * mmx)%Z -> pmat (s_py s) f ->
  exists m0 py f', mm_den h get dm nv ldp prs col ldp prs evs s = Some (den_st s m0 py) /\ m0_ok h m0 /\ zlen py = (h_kms h * mmx)%Z /\ pmat py f' /\
    forall p l, 0 <= p < h_kms h -> 0 <= l < nv -> f' p l = f p l + rsum 0 (h_nnode h) (fun i => lsum (fun e => dterm i e p l) (fm_ents fm i)).
Proof.
  intros [Ht Hpm] Hx Hm0 Zp Hp. unfold mm_den. rewrite Forall_forall in Ht.
  destruct (run_each snd (fun ev => mm_den_node h get dm nv ldp prs col ldp prs (fst ev) (snd ev))
    (fun done s' => exists m0 py f', s' = den_st s m0 py /\ m0_ok h m0 /\ zlen py = (h_kms h * mmx)%Z /\ pmat py f' /\ forall p l, 0 <= p < h_kms h -> 0 <= l < nv ->
      f' p l = f p l + lsum (fun i => lsum (fun e => dterm i e p l) (fm_ents fm i)) done) evs [] s)
    as (s' & Er & (m0 & py & f' & -> & Q1 & Q2 & Q3 & Q4)).
  - eapply Permutation_NoDup; [symmetry; exact Hpm|]. apply NoDup_zrange.
  - intros e He [].
  - exists (s_m0 s), (s_py s), f. split; [destruct s; reflexivity|]. split; auto. split; auto. split; auto. intros p l _ _. rewrite lsum_nil. ring.
  - intros done ev s' Hev Hnd (m0 & py & f' & -> & Q1 & Q2 & Q3 & Q4).
    assert (Hn : 0 <= snd ev < h_nnode h). { apply In_zrange. eapply Permutation_in; [exact Hpm|]. now apply in_map. }
    destruct (mm_den_node_spec s m0 py f' (fst ev) (snd ev)) as (m2 & py2 & f2 & E2 & A1 & A2 & A3 & A4); auto.
    exists (den_st s m2 py2). split; auto. exists m2, py2, f2. split; auto. split; auto. split; auto. split; auto.
    intros p l Hpp Hll. rewrite A4, Q4, lsum_cons by auto. ring.
  - exists m0, py, f'. split; auto. rewrite app_nil_r in Q4. split; auto. split; auto. split; auto. intros p l Hpp Hll. rewrite Q4 by auto.
    assert (Hpr : Permutation (rev (map snd evs)) (zrange 0 (h_nnode h))) by (rewrite <- Permutation_rev; exact Hpm).
    now rewrite (lsum_perm _ _ _ Hpr).
Qed.
End Dense.
End Batch.

(** ** The whole product *)
Context {EB ED : Type} (fb : family (K := K) EB) (fd : family (K := K) ED) (getB getD : Z -> Z -> dmat K -> option (option (dmat K))) (bm dm : bmeta).
Hypothesis HrowsB : fam_rows fb (h_nnode h) (bm_rowptr bm) (bm_colidx bm).
Hypothesis HgetB : fam_get fb (h_nnode h) getB.
Hypothesis HentB : forall n0 e, 0 <= n0 < h_nnode h -> In e (fm_ents fb n0) ->
  0 <= fm_part fb e < h_nnode h /\ h_minlevel h <= Z.max (level h n0) (level h (fm_part fb e)) /\
  fm_nr fb e = (if level h (fm_part fb e) <=? level h n0 then rank h n0 else msize h n0) /\
  fm_nc fb e = (if level h n0 <=? level h (fm_part fb e) then rank h (fm_part fb e) else msize h (fm_part fb e)) /\
  (forall n, ld (h_nr h) n0 = Some n -> n <> 0).
Hypothesis HrowsD : fam_rows fd (h_nnode h) (bm_rowptr dm) (bm_colidx dm).
Hypothesis HgetD : fam_get fd (h_nnode h) getD.
Hypothesis HentD : forall n0 e, 0 <= n0 < h_nnode h -> In e (fm_ents fd n0) ->
  0 <= fm_part fd e < h_nnode h /\ fm_nr fd e = msize h n0 /\ fm_nc fd e = msize h (fm_part fd e).
Hypothesis Hsum : forall (xv : Z -> Z -> K) p l, 0 <= p < h_kms h ->
  rsum 0 (h_nnode h) (fun i => lsum (fun e => term h fb xv i e p l) (fm_ents fb i)) +
  rsum 0 (h_nnode h) (fun i => lsum (fun e => dterm fd xv i e p l) (fm_ents fd i)) =
  rsum 0 (h_kms h) (fun q => Hmat h p q * xv q l).

Record mmst_ok (s : mvst K) : Prop := {
  ms_y0 : mats_ok (h_nnode h) (s_y0 s); ms_y1 : mats_mok (h_nnode h) (s_y1 s); ms_m0 : m0_ok h (s_m0 s)
}.
Definition perm_ok (s : mvst K) : Prop := zlen (s_px s) = (h_kms h * mmx)%Z /\ zlen (s_py s) = (h_kms h * mmx)%Z.

Notation ycell := (cell).
Definition prodv (xf : Z -> Z -> K) (i v : Z) : K := rsum 0 (h_kms h) (fun j => Hmat h (nthz (h_bwd h) i) (nthz (h_bwd h) j) * xf j v).

Lemma idx_in (idx : list Z) : zlen idx = h_kms h -> (forall i, 0 <= i < h_kms h -> 0 <= nthz idx i < h_kms h) -> forall i, In i idx -> 0 <= i < h_kms h.
Proof. intros Hz H i Hi. apply In_getz in Hi as (k & Hk). pose proof (getz_range _ _ _ Hk) as Rk. apply nthz_eq in Hk. rewrite <- Hk. apply H. lia. Qed.

Lemma mm_batch_spec sc nv ivec x ldx ldy s y (xf : Z -> Z -> K) : mm_sched_ok h sc -> mmst_ok s -> perm_ok s -> 1 <= nv <= mmx ->
  (forall j l, 0 <= j < h_kms h -> 0 <= l < nv -> ld x (cell ldx j (ivec + l)) = Some (xf j (ivec + l)%Z)) ->
  fits_mat (h_kms h) nv (cell ldy 0 ivec) ldy (zlen y) ->
  exists s' y', mm_batch h getB getD bm dm mmx col sc ivec nv x ldx ldy s y = Some (s', y') /\ mmst_ok s' /\ perm_ok s' /\
    s_ty s' = s_ty s /\ s_yT s' = s_yT s /\ zlen y' = zlen y /\
    (forall i l, 0 <= i < h_kms h -> 0 <= l < nv -> ld y' (cell ldy i (ivec + l)) = Some (prodv xf i (ivec + l)%Z)) /\
    (forall k, (forall i l, 0 <= i < h_kms h -> 0 <= l < nv -> k <> cell ldy i (ivec + l)) -> getz y' k = getz y k).
Proof.
  intros Sc [S1 S2 S3] [Zx Zy] Hnv Hx Hy. unfold mm_batch. cbv zeta.
  destruct (ro_pmt _ R) as (Pf & Pb & Pp). pose proof (kms_nonneg h R) as Hk.
  assert (Cel : forall ldc j l, (ivec * (if col then ldc else 1) + cell ldc j l)%Z = cell ldc j (ivec + l)).
  { intros ldc j l. unfold cell. destruct col; lia. }
  destruct (permute_rows_spec (h_fwd h) nv x (ivec * (if col then ldx else 1)) ldx (s_px s) 0 ldp (fun j l => xf j (ivec + l)%Z)) as (px & Epx & Zpx & Vpx & _); auto; try lia.
  { apply idx_in; auto. intros i Hi. apply Pp; auto. }
  { intros j l Hj Hl. rewrite Cel. auto. }
  { apply fits_perm; auto. }
  rewrite Epx. cbn [bind]. destruct (mm_reset_spec nv Hnv (s_py s) Zy) as (py & Epy & Zpy & Vpy). rewrite Epy. cbn [bind].
  pose (xv := fun p l => xf (nthz (h_fwd h) p) (ivec + l)%Z).
  assert (Hpx : pmat h nv mmx col px xv). { intros p l Hp Hl. specialize (Vpx p l Hp Hl). rewrite Z.add_0_l in Vpx. rewrite pcell_cell. exact Vpx. }
  destruct (mm_fwd_spec h R nv mmx col Hnv xv (mc_fwd sc) (set_py (set_px s px) py)) as (y0 & E2 & Z0 & F0 & G0); auto.
  { apply (mo_fwd _ _ Sc). }
  rewrite E2. cbn [bind]. set (sa := set_y0 (set_py (set_px s px) py) y0).
  destruct (mm_mid_spec h R nv mmx col Hnv fb getB bm HrowsB HgetB HentB xv y0 px Z0 G0 Hpx (mc_mid sc) sa (fun _ _ => c0)) as (y1 & m0 & pyb & fb' & E3 & Z1 & F1 & N1 & M1 & Zpb & Vpb & T1); auto.
  { apply (mo_mid _ _ Sc). }
  { cbn. lia. }
  rewrite E3. cbn [bind].
  destruct (mm_bwd_spec h R nv mmx col Hnv (mc_bwd sc) sa y1 m0 pyb fb') as (y1' & m0' & pyc & fc & E4 & (Z2 & F2 & N2 & M2 & Zpc & Vpc) & T2); auto.
  { apply (mo_bwd _ _ Sc). }
  { repeat (split; auto); apply M1. }
  rewrite E4. cbn [bind].
  destruct (mm_den_spec nv Hnv fd getD dm HrowsD HgetD HentD xv (mc_den sc) (bwd_st sa y1' m0' pyc) fc) as (m0d & pyd & fe & E5 & M3 & Zpd & Vpd & T3); auto.
  { apply (mo_den _ _ Sc). }
  rewrite E5. cbn [bind]. change (s_py (den_st (bwd_st sa y1' m0' pyc) m0d pyd)) with pyd.
  assert (Hfe : forall p l, 0 <= p < h_kms h -> 0 <= l < nv -> fe p l = rsum 0 (h_kms h) (fun q => Hmat h p q * xv q l)).
  { intros p l Hp Hl. rewrite T3, T2, T1 by auto. rewrite <- Hsum by auto. ring. }
  destruct (permute_rows_spec (h_bwd h) nv pyd 0 ldp y (ivec * (if col then ldy else 1)) ldy fe) as (y' & Ey & Zy' & Vy & Oy); auto; try lia.
  { apply idx_in; auto. intros i Hi. apply Pp; auto. }
  { intros j l Hj Hl. rewrite Z.add_0_l, <- pcell_cell. apply Vpd; auto. }
  { replace (ivec * (if col then ldy else 1))%Z with (cell ldy 0 ivec) by (unfold cell; destruct col; lia). exact Hy. }
  rewrite Ey. cbn [bind]. eexists _, y'. split; [reflexivity|]. split; [|split; [|split; [|split; [|split; [|split]]]]]; auto.
  - constructor; cbn; auto.
  - split; cbn; lia.
  - intros i l Hi Hl. rewrite <- Cel, Vy by auto. f_equal. destruct (Pp i Hi) as (_ & Hb & _). rewrite Hfe by auto. unfold prodv.
    set (p := nthz (h_bwd h) i) in *. unfold rsum. rewrite (lsum_perm _ (zrange 0 (h_kms h)) (map (nthz (h_bwd h)) (zrange 0 (h_kms h)))).
    + rewrite lsum_map. apply lsum_ext. intros j Hj. apply In_zrange in Hj. unfold xv. destruct (Pp j ltac:(lia)) as (_ & _ & _ & ->). reflexivity.
    + apply NoDup_Permutation_bis.
      * apply NoDup_zrange.
      * rewrite map_length. auto.
      * intros q Hq. apply In_zrange in Hq. apply in_map_iff. destruct (Pp q ltac:(lia)) as (A & _ & B & _).
        exists (nthz (h_fwd h) q). split; auto. apply In_zrange. lia.
  - intros k Hkk. apply Oy. intros i l Hi Hl. rewrite Cel. auto.
Qed.

Theorem matmul_spec sc n_vec s x ldx y ldy (xf : Z -> Z -> K) : 1 <= mmx -> 0 <= n_vec -> (forall b, mm_sched_ok h (sc b)) -> mmst_ok s ->
  (forall j v, 0 <= j < h_kms h -> 0 <= v < n_vec -> ld x (cell ldx j v) = Some (xf j v)) ->
  fits_mat (h_kms h) n_vec 0 ldy (zlen y) ->
  exists s' y', matmul h getB getD bm dm mmx col sc n_vec s x ldx y ldy = Some (s', y') /\ mmst_ok s' /\ perm_ok s' /\
    s_ty s' = s_ty s /\ s_yT s' = s_yT s /\ zlen y' = zlen y /\
    (forall i v, 0 <= i < h_kms h -> 0 <= v < n_vec -> ld y' (cell ldy i v) = Some (prodv xf i v)) /\
    (forall k, (forall i v, 0 <= i < h_kms h -> 0 <= v < n_vec -> k <> cell ldy i v) -> getz y' k = getz y k).
Proof.
  intros Hm Hn Sc Ss Hx Hy. unfold matmul. cbv zeta. pose proof (kms_nonneg h R) as Hk.
  set (s0 := set_py (set_px s (alloc (h_kms h * mmx))) (alloc (h_kms h * mmx))).
  set (nb := ((n_vec + mmx - 1) / mmx)%Z).
  assert (Hnb : 0 <= nb /\ n_vec <= nb * mmx /\ (nb - 1) * mmx < n_vec \/ (nb = 0 /\ n_vec = 0)).
  { pose proof (Z.div_mod (n_vec + mmx - 1) mmx ltac:(lia)) as D. pose proof (Z.mod_pos_bound (n_vec + mmx - 1) mmx ltac:(lia)) as M. fold nb in D.
    assert (0 <= nb) by (apply Z.div_pos; lia). nia. }
  pose (P := fun (b : Z) (z : mvst K * mem K) => let '(s', y') := z in mmst_ok s' /\ perm_ok s' /\ s_ty s' = s_ty s /\ s_yT s' = s_yT s /\ zlen y' = zlen y /\
    (forall i v, 0 <= i < h_kms h -> 0 <= v < Z.min (b * mmx) n_vec -> ld y' (cell ldy i v) = Some (prodv xf i v)) /\
    (forall k, (forall i v, 0 <= i < h_kms h -> 0 <= v < Z.min (b * mmx) n_vec -> k <> cell ldy i v) -> getz y' k = getz y k)).
  match goal with |- context [zfor 0 nb ?b ?z] => destruct (zfor_inv P 0 nb b z) as [[s' y'] [E (P1 & P2 & P3 & P4 & P5 & P6 & P7)]] end.
  - lia.
  - split; [destruct Ss; constructor; auto|]. split; [split; cbn; rewrite zlen_alloc; nia|]. do 3 (split; auto). split; auto. intros i v _ Hv. lia.
  - intros b [s1 y1] Hb (P1 & P2 & P3 & P4 & P5 & P6 & P7).
    set (nv := if (b * mmx + mmx <=? n_vec)%Z then mmx else (n_vec - b * mmx)%Z).
    assert (Hbm : ((b + 1) * mmx <= nb * mmx)%Z) by (apply Z.mul_le_mono_nonneg_r; lia).
    assert (Hnv : 1 <= nv <= mmx /\ (b * mmx + nv)%Z = Z.min ((b + 1) * mmx) n_vec /\ (b * mmx)%Z = Z.min (b * mmx) n_vec).
    { unfold nv. destruct (Z.leb_spec (b * mmx + mmx) n_vec); [lia|]. assert ((nb - 1) * mmx < n_vec)%Z by lia. assert (b = (nb - 1)%Z) by nia. lia. }
    destruct Hnv as (N1 & N2 & N3).
    assert (Hb0 : 0 <= b * mmx) by nia.
    destruct (mm_batch_spec (sc b) nv (b * mmx) x ldx ldy s1 y1 xf) as (s2 & y2 & E2 & Q1 & Q2 & Q3 & Q4 & Q5 & Q6 & Q7); auto.
    + intros j l Hj Hl. apply Hx; auto. lia.
    + rewrite P5. unfold fits_mat, fits, cell in *. destruct col.
      * destruct Hy as (Y1 & Y2 & Y3 & Y4 & Y5). repeat split; try lia; try nia.
      * destruct Hy as (Y1 & Y2 & Y3 & Y4 & Y5). repeat split; try lia; try nia. 
    + exists (s2, y2). split; auto. unfold P. split; auto. split; auto. split; [congruence|]. split; [congruence|]. split; [lia|]. split.
      * intros i v Hi Hv. rewrite <- N2 in Hv. destruct (Z_lt_le_dec v (b * mmx)) as [Hlt|Hge].
        -- rewrite ld_getz, Q7, <- ld_getz; [apply P6; auto; lia|]. intros i' l Hi' Hl. unfold cell, fits_mat, fits in *. destruct col.
           ++ intros Ec. destruct Hy as (Y1 & Y2 & Y3 & Y4 & Y5). apply (region_inj (h_kms h)) in Ec as [? ?]; lia.
           ++ intros Ec. destruct Hy as (Y1 & Y2 & Y3 & Y4 & Y5). apply (region_inj n_vec) in Ec as [? ?]; lia.
        -- specialize (Q6 i (v - b * mmx)%Z Hi ltac:(lia)). replace (b * mmx + (v - b * mmx))%Z with v in Q6 by lia. exact Q6.
      * intros k Hkk. rewrite Q7, P7; auto.
        -- intros i v Hi Hv. apply Hkk; auto. lia.
        -- intros i l Hi Hl. apply Hkk; auto. lia.
  - rewrite E. exists s', y'. split; auto. do 5 (split; auto).
    replace (Z.min (nb * mmx) n_vec) with n_vec in P6, P7 by lia. auto.
Qed.
End Top.
