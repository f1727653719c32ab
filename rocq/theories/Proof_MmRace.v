(** H2P_matmul at access granularity is race free and computes what the atomic
    model computes. *)
From Coq Require Import ZArith List Lia Bool Permutation.
From Verif Require Import Base Mem Num CRing Conc Race Model_Utils Spec_Utils Proof_Utils Model_Dense Spec_Dense Proof_Dense Model_Partition Spec_Tree Spec_Partition Model_CSR Model_Pairs Spec_Pairs Model_Matvec Spec_Matvec
  Model_Build Spec_Build Proof_Build Proof_MvTree Proof_MvFwd Proof_MvMid Proof_MvBwd Proof_MvTop Proof_MvCor Proof_BuildFill Proof_BuildTop Proof_BuildUse Model_Matmul Proof_Gemm Proof_MmFwd Proof_MmMid Proof_MmBwd Proof_MmTop Proof_MmFam Proof_MmUse Props_Pairs
  Model_MvFine Proof_MvFine Proof_MvRace Model_MmFine Proof_MmFine.
Import ListNotations.
Open Scope Z_scope.

Section Apart.
Context {F : num} {K : cring}.
Variable h : h2rep F K.
Hypothesis R : rep_ok h.
Variables (nv mmx : Z) (col : bool).
Hypothesis Hnv : 1 <= nv <= mmx.
Notation acc := (bool * mloc)%type.
Notation conflict := (conflict (mstore (K := K) false)).

Lemma own_rows_apart n1 n2 (a b : acc) : n1 <> n2 -> 0 <= n1 < h_nnode h -> 0 <= n2 < h_nnode h -> nchild h n1 = 0 -> nchild h n2 = 0 ->
  own_rows h nv mmx col n1 a -> own_rows h nv mmx col n2 b -> snd a <> snd b.
Proof.
  intros Hne N1 N2 C1 C2 (p & l & Hp & Hl & Ea) (p' & l' & Hp' & Hl' & Eb) E. apply Hne. rewrite Ea, Eb in E. injection E as E.
  destruct (cluster_range h R n1 N1) as (A1 & _ & B1). destruct (cluster_range h R n2 N2) as (A2 & _ & B2). unfold msize in B1, B2.
  apply (pcell_inj h nv mmx col Hnv) in E as [<- _]; try lia. eapply (leaf_rows h R n1 n2 p); auto.
Qed.

Lemma mm_mid_apart (t1 t2 n1 n2 : Z) (a b : acc) : t1 <> t2 -> n1 <> n2 -> 0 <= n1 < h_nnode h -> 0 <= n2 < h_nnode h ->
  fp_mm_mid h nv mmx col (nchild h n1 = 0) t1 n1 a -> fp_mm_mid h nv mmx col (nchild h n2 = 0) t2 n2 b -> ~ conflict a b.
Proof.
  intros Ht Hne N1 N2 Ha Hb.
  destruct Ha as [Ea|[Ea|[[Fa Ea]|[Ca Oa]]]]; destruct Hb as [Eb|[Eb|[[Fb Eb]|[Cb Ob]]]]; try (now apply not_conflict_rd); apply not_conflict_loc;
    try (eapply own_rows_apart; eauto; fail);
    try (destruct Oa as (? & ? & _ & _ & Ea)); try (destruct Ob as (? & ? & _ & _ & Eb));
    repeat match goal with H : _ \/ _ |- _ => destruct H | H : exists _, _ |- _ => destruct H end; congruence.
Qed.
Lemma mm_den_apart (t1 t2 n1 n2 : Z) (a b : acc) : t1 <> t2 -> n1 <> n2 -> 0 <= n1 < h_nnode h -> 0 <= n2 < h_nnode h ->
  fp_mm_den h nv mmx col (nchild h n1 = 0) t1 n1 a -> fp_mm_den h nv mmx col (nchild h n2 = 0) t2 n2 b -> ~ conflict a b.
Proof.
  intros Ht Hne N1 N2 Ha Hb.
  destruct Ha as [Ea|[[Fa [i Ea]]|[Ca Oa]]]; destruct Hb as [Eb|[[Fb [j Eb]]|[Cb Ob]]]; try (now apply not_conflict_rd); apply not_conflict_loc;
    try (eapply own_rows_apart; eauto; fail);
    try (destruct Oa as (? & ? & _ & _ & Ea)); try (destruct Ob as (? & ? & _ & _ & Eb)); congruence.
Qed.
Lemma mm_bwd_apart (t1 t2 n1 n2 : Z) (a b : acc) (i : Z) : t1 <> t2 -> n1 <> n2 -> 0 <= n1 < h_nnode h -> 0 <= n2 < h_nnode h -> level h n1 = i -> level h n2 = i ->
  fp_mm_bwd h nv mmx col t1 n1 a -> fp_mm_bwd h nv mmx col t2 n2 b -> ~ conflict a b.
Proof.
  intros Ht Hne N1 N2 L1 L2 Ha Hb.
  destruct Ha as [Ea|[->|[(c & Hc & Ea)|(Ca & Oa)]]]; destruct Hb as [Eb|[->|[(c' & Hc' & Eb)|(Cb & Ob)]]]; apply not_conflict_loc; cbn [snd];
    try (eapply own_rows_apart; eauto; fail);
    try (destruct Oa as (? & ? & _ & _ & Ea)); try (destruct Ob as (? & ? & _ & _ & Eb)); try rewrite Ea; try rewrite Eb; try congruence.
  - destruct (child_facts h R _ _ N2 Hc') as (_ & Lc & _). intros E. injection E as ->. lia.
  - destruct (child_facts h R _ _ N1 Hc) as (_ & Lc & _). intros E. injection E as ->. lia.
  - destruct (child_facts h R _ _ N1 Hc) as (_ & _ & P1). destruct (child_facts h R _ _ N2 Hc') as (_ & _ & P2). intros E. injection E as ->. congruence.
Qed.

(** A parallel loop over the nodes. *)
Lemma nodes_par_ok (item : Z -> Z -> act (mvst K)) (itemf : Z -> Z -> prog (mstore false) unit) (fp : Z -> Z -> acc -> Prop) asg s s' :
  omp_assign (h_nthread h) (h_nnode h) asg ->
  (forall tid n s1 s2, 0 <= n < h_nnode h -> Forall dm_ok (s_m0 s1) -> item tid n s1 = Some s2 -> Forall dm_ok (s_m0 s2) /\ runs (mstore false) (fp tid n) (itemf tid n) s1 tt s2) ->
  (forall t1 t2 n1 n2 a b, t1 <> t2 -> n1 <> n2 -> 0 <= n1 < h_nnode h -> 0 <= n2 < h_nnode h -> fp t1 n1 a -> fp t2 n2 b -> ~ conflict a b) ->
  Forall dm_ok (s_m0 s) -> run (map (fun ev => item (fst ev) (snd ev)) (concat (tagged asg))) s = Some s' ->
  forall Q : mvst K -> Prop, Q s' -> par false (fun '(tid, i) => itemf tid i) (tagged asg) s Q.
Proof.
  intros (Za & Pa) Hit Hap Hm Hrun.
  assert (Hj : forall x, In x (concat (tagged asg)) -> 0 <= snd x < h_nnode h).
  { intros x Hx. apply In_zrange. apply (Permutation_in _ Pa). rewrite <- concat_tagged. now apply in_map. }
  assert (Hnd : NoDup (concat asg)) by (eapply Permutation_NoDup; [symmetry; exact Pa|apply NoDup_zrange]).
  eapply (par_ok false _ (fun ev => item (fst ev) (snd ev)) (fun ev => fp (fst ev) (snd ev)) (fun s => Forall dm_ok (s_m0 s))); auto.
  - intros [tid j] s1 s2 Hx I1 E. cbn [fst snd] in *. apply Hit; auto. exact (Hj _ Hx).
  - apply FOP_tags; [apply tags_tagged|]. intros x y Hx Hy Hne a b. apply Hap; auto. eapply tagged_distinct; eauto.
Qed.
End Apart.

Section Top.
Context {F : num} {K : cring}.
Local Open Scope ring_K.
Variable h : h2rep F K.
Hypothesis R : rep_ok h.
Notation t := (h_t h).
Notation nth := (h_nthread h).
Variables (mmx : Z) (col : bool).
Notation ldp := (if col then h_kms h else mmx).
Notation prs := (if col then 1 else ldp)%Z.
Context {EB ED : Type}.
Variables (fb : family (K := K) EB) (fd : family (K := K) ED) (getB getD : Z -> Z -> dmat K -> option (option (dmat K))) (bm dm : bmeta).
Hypothesis HrowsB : fam_rows fb (h_nnode h) (bm_rowptr bm) (bm_colidx bm).
Hypothesis HgetB : fam_get fb (h_nnode h) getB.
Hypothesis HentB : forall n0 e, 0 <= n0 < h_nnode h -> In e (fm_ents fb n0) ->
  0 <= fm_part fb e < h_nnode h /\ h_minlevel h <= Z.max (level h n0) (level h (fm_part fb e)) /\
  fm_nr fb e = (if level h (fm_part fb e) <=? level h n0 then rank h n0 else msize h n0) /\
  fm_nc fb e = (if level h n0 <=? level h (fm_part fb e) then rank h (fm_part fb e) else msize h (fm_part fb e)) /\
  (forall n, ld (h_nr h) n0 = Some n -> n <> 0).
Hypothesis HrowsD : fam_rows fd (h_nnode h) (bm_rowptr dm) (bm_colidx dm).
Hypothesis HgetD : fam_get fd (h_nnode h) getD.
Hypothesis HentD : forall n0 e, 0 <= n0 < h_nnode h -> In e (fm_ents fd n0) ->
  0 <= fm_part fd e < h_nnode h /\ fm_nr fd e = msize h n0 /\ fm_nc fd e = msize h (fm_part fd e).
Hypothesis Hsum : forall (xv : Z -> Z -> K) p l, 0 <= p < h_kms h ->
  rsum 0 (h_nnode h) (fun i => lsum (fun e => term h fb xv i e p l) (fm_ents fb i)) +
  rsum 0 (h_nnode h) (fun i => lsum (fun e => dterm h fd xv i e p l) (fm_ents fd i)) =
  rsum 0 (h_kms h) (fun q => Hmat h p q * xv q l).
(** A block that goes straight to the output belongs to a leaf. *)
Hypothesis LeafB : forall n0 e, 0 <= n0 < h_nnode h -> In e (fm_ents fb n0) -> level h n0 < level h (fm_part fb e) -> nchild h n0 = 0.
Hypothesis LeafD : forall n0 e, 0 <= n0 < h_nnode h -> In e (fm_ents fd n0) -> nchild h n0 = 0.

Definition mm_sched_of (fc : mm_choices) : mm_sched :=
  MMSched (fun i => concat (tagged (mf_fwd fc i))) (concat (tagged (mf_mid fc))) (fun i => concat (tagged (mf_bwd fc i))) (concat (tagged (mf_den fc))).
Lemma mm_sched_of_ok fc : mm_choices_ok h fc -> mm_sched_ok h (mm_sched_of fc).
Proof.
  intros C. constructor; cbn [mm_sched_of mc_fwd mc_mid mc_bwd mc_den].
  - intros i n Hi Hn. apply omp_assign_for. now apply (mfo_fwd _ _ C).
  - apply omp_assign_for. apply (mfo_mid _ _ C).
  - intros i n Hi Hn. apply omp_assign_for. now apply (mfo_bwd _ _ C).
  - apply omp_assign_for. apply (mfo_den _ _ C).
Qed.

Lemma mm_batch_fine_spec fc nv ivec x ldx ldy s y (xf : Z -> Z -> K) : mm_choices_ok h fc -> mmst_ok h s -> perm_ok h mmx s -> 1 <= nv <= mmx ->
  (forall j l, 0 <= j < h_kms h -> 0 <= l < nv -> ld x (cell col ldx j (ivec + l)) = Some (xf j (ivec + l)%Z)) ->
  fits_mat col (h_kms h) nv (cell col ldy 0 ivec) ldy (zlen y) ->
  mm_batch_fine h getB getD bm dm mmx col fc ivec nv x ldx ldy s y
    (fun s' y' => mm_batch h getB getD bm dm mmx col (mm_sched_of fc) ivec nv x ldx ldy s y = Some (s', y')).
Proof.
  intros C Ss Pp Hnv Hx Hy. pose proof (mm_sched_of_ok _ C) as Sc.
  destruct (mm_batch_spec h R mmx col fb fd getB getD bm dm HrowsB HgetB HentB HrowsD HgetD HentD Hsum (mm_sched_of fc) nv ivec x ldx ldy s y xf Sc Ss Pp Hnv Hx Hy) as (s' & y' & E & _).
  rewrite E. destruct Ss as [S1 S2 S3]. destruct Pp as [Zx Zy].
  destruct (ro_pmt _ R) as (Pf & Pb & Pp). pose proof (kms_nonneg h R) as Hk.
  unfold mm_batch in E. unfold mm_batch_fine. cbv zeta in E |- *.
  assert (Cel : forall ldc j l, (ivec * (if col then ldc else 1) + cell col ldc j l)%Z = cell col ldc j (ivec + l)).
  { intros ldc j l. unfold cell. destruct col; lia. }
  destruct (permute_rows_spec h R col (h_fwd h) nv x (ivec * (if col then ldx else 1)) ldx (s_px s) 0 ldp (fun j l => xf j (ivec + l)%Z)) as (px & Epx & Zpx & Vpx & _); auto; try lia.
  { apply idx_in; auto. intros i Hi. apply Pp; auto. }
  { intros j l Hj Hl. rewrite Cel. auto. }
  { apply fits_perm; auto. }
  rewrite Epx in E |- *. cbn [bind] in E |- *. destruct (mm_reset_spec h R mmx col nv Hnv (s_py s) Zy) as (py & Epy & Zpy & Vpy). rewrite Epy in E |- *. cbn [bind after] in E |- *.
  pose (xv := fun p l => xf (nthz (h_fwd h) p) (ivec + l)%Z).
  assert (Hpx : pmat h nv mmx col px xv). { intros p l Hp Hl. specialize (Vpx p l Hp Hl). rewrite Z.add_0_l in Vpx. rewrite pcell_cell. exact Vpx. }
  destruct (mm_fwd_spec h R nv mmx col Hnv xv (mc_fwd (mm_sched_of fc)) (set_py (set_px s px) py)) as (y0 & E2 & Z0 & F0 & G0); auto.
  { apply (mo_fwd _ _ Sc). }
  rewrite E2 in E. cbn [bind] in E.
  assert (Lv : forall i, h_minlevel h <= i <= h_maxlevel h -> exists n, ld (a_level_n t) i = Some n).
  { intros i Hi. destruct (ro_dims _ R) as (_ & _ & _ & _ & _ & Dl). destruct (level_list h R i ltac:(lia)) as (ns & Zn & _). eauto. }
  unfold mm_fwd in E2. cbv zeta in E2.
  eapply through_zfor; [|exact E2|].
  { intros k s1 s2 Hk1 Es. destruct (Lv (h_maxlevel h - k)%Z ltac:(lia)) as [n Hn].
    eapply (level_par_ok h R (fun _ node s => mm_fwd_node h nv ldp prs col node s) _ (fun _ => fp_fwd h)); [|exact Hn| | | |exact Es].
    - lia.
    - apply (mfo_fwd _ _ C); auto. lia.
    - intros tid node a1 a2 Hnode Ea. now apply mm_fwd_node_runs.
    - intros t1 t2 n1 n2 a b. apply (fwd_apart h R). }
  cbv beta. set (sa := set_y0 (set_py (set_px s px) py) y0) in *.
  destruct (mm_mid_spec h R nv mmx col Hnv fb getB bm HrowsB HgetB HentB xv y0 px Z0 G0 Hpx (mc_mid (mm_sched_of fc)) sa (fun _ _ => c0)) as (y1 & m0 & pyb & fb' & E3 & Z1 & F1 & N1 & M1 & Zpb & Vpb & T1); auto.
  { apply (mo_mid _ _ Sc). }
  { cbn. lia. }
  rewrite E3 in E. cbn [bind] in E.
  unfold mm_mid in E3. destruct (mm_init_y1 h nv sa) as [sb|] eqn:Eb; [|discriminate]. cbn [bind after] in E3 |- *.
  assert (Mb : Forall dm_ok (s_m0 sb)).
  { unfold mm_init_y1 in Eb. match type of Eb with bind ?e _ = _ => destruct e; [|discriminate] end. injection Eb as <-. apply S3. }
  eapply (nodes_par_ok h (mm_mid_node h getB bm nv ldp prs col ldp prs col) _ (fun tid n => fp_mm_mid h nv mmx col (nchild h n = 0) tid n)); [apply (mfo_mid _ _ C)| | |exact Mb|exact E3|].
  { intros tid n s1 s2 Hn Hm Ei. eapply mm_mid_node_runs; eauto. intros e He. destruct (HentB n e Hn He) as (A1 & _ & A3 & _). split; auto. intros Hl. split; [eapply LeafB; eauto|].
    rewrite A3. destruct (Z.leb_spec (level h (fm_part fb e)) (level h n)); [lia|auto]. }
  { intros t1 t2 n1 n2 a b. now apply mm_mid_apart. }
  cbv beta.
  destruct (mm_bwd_spec h R nv mmx col Hnv (mc_bwd (mm_sched_of fc)) sa y1 m0 pyb fb') as (y1' & m0' & pyc & fc' & E4 & (Z2 & F2 & N2 & M2 & Zpc & Vpc) & T2); auto.
  { apply (mo_bwd _ _ Sc). }
  { repeat (split; auto); apply M1. }
  rewrite E4 in E. cbn [bind] in E. unfold mm_bwd in E4.
  rewrite <- (map_id (zrange (h_minlevel h) (h_maxlevel h + 1))).
  eapply through_zfor; [|exact E4|].
  { intros k s1 s2 Hk1 Es. destruct (Lv k ltac:(lia)) as [n Hn].
    eapply (level_par_ok h R (mm_bwd_node h nv ldp col) _ (fp_mm_bwd h nv mmx col)); [|exact Hn| | | |exact Es].
    - lia.
    - apply (mfo_bwd _ _ C); auto. lia.
    - intros tid node a1 a2 Hnode Ea. now apply mm_bwd_node_runs.
    - intros t1 t2 n1 n2 a b. now apply mm_bwd_apart. }
  cbv beta.
  destruct (mm_den_spec h R mmx col nv Hnv fd getD dm HrowsD HgetD HentD xv (mc_den (mm_sched_of fc)) (bwd_st sa y1' m0' pyc) fc') as (m0d & pyd & fe & E5 & M3 & Zpd & Vpd & T3); auto.
  { apply (mo_den _ _ Sc). }
  rewrite E5 in E. cbn [bind] in E. unfold mm_den in E5.
  eapply (nodes_par_ok h (mm_den_node h getD dm nv ldp prs col ldp prs) _ (fun tid n => fp_mm_den h nv mmx col (nchild h n = 0) tid n)); [apply (mfo_den _ _ C)| | | |exact E5|].
  { intros tid n s1 s2 Hn Hm Ei. eapply mm_den_node_runs; eauto. intros e He. destruct (HentD n e Hn He) as (A1 & A2 & _). split; auto. split; [eapply LeafD; eauto|auto]. }
  { intros t1 t2 n1 n2 a b. now apply mm_den_apart. }
  { apply M2. }
  cbv beta. match type of E with bind ?e _ = _ => destruct e as [yy|]; [|discriminate] end. cbn [bind] in E. injection E as <- <-. reflexivity.
Qed.

Lemma mm_batch_fine_mono fc ivec nv x ldx ldy s y (Q Q' : mvst K -> mem K -> Prop) : (forall s' y', Q s' y' -> Q' s' y') ->
  mm_batch_fine h getB getD bm dm mmx col fc ivec nv x ldx ldy s y Q -> mm_batch_fine h getB getD bm dm mmx col fc ivec nv x ldx ldy s y Q'.
Proof.
  intros HQ. unfold mm_batch_fine. cbv zeta. apply after_mono. intros s1. apply through_mono; [intros a s0 A B; unfold level_par; apply par_mono|]. intros s2.
  apply after_mono. intros s3. apply par_mono. intros s4. apply through_mono; [intros a s0 A B; unfold level_par; apply par_mono|]. intros s5.
  apply par_mono. intros s6. destruct (permute_rows _ _ _ _ _ _ _ _ _ _); auto.
Qed.
Lemma mm_batches_fine_mono fc n_vec x ldx ldy bs s y (Q Q' : mvst K -> mem K -> Prop) : (forall s' y', Q s' y' -> Q' s' y') ->
  mm_batches_fine h getB getD bm dm mmx col fc n_vec x ldx ldy bs s y Q -> mm_batches_fine h getB getD bm dm mmx col fc n_vec x ldx ldy bs s y Q'.
Proof.
  intros HQ. revert s y. induction bs as [|b bs IH]; intros s y; cbn [mm_batches_fine]; auto. apply mm_batch_fine_mono. intros s' y'. apply IH.
Qed.

Theorem matmul_fine_spec fc n_vec s x ldx y ldy (xf : Z -> Z -> K) : 1 <= mmx -> 0 <= n_vec -> (forall b, mm_choices_ok h (fc b)) -> mmst_ok h s ->
  (forall j v, 0 <= j < h_kms h -> 0 <= v < n_vec -> ld x (cell col ldx j v) = Some (xf j v)) ->
  fits_mat col (h_kms h) n_vec 0 ldy (zlen y) ->
  matmul_fine h getB getD bm dm mmx col fc n_vec s x ldx y ldy
    (fun s' y' => matmul h getB getD bm dm mmx col (fun b => mm_sched_of (fc b)) n_vec s x ldx y ldy = Some (s', y')).
Proof.
  intros Hm Hn C Ss Hx Hy. unfold matmul, matmul_fine. cbv zeta. pose proof (kms_nonneg h R) as Hk.
  set (s0 := set_py (set_px s (alloc (h_kms h * mmx))) (alloc (h_kms h * mmx))).
  set (nb := ((n_vec + mmx - 1) / mmx)%Z).
  assert (Hnb : 0 <= nb /\ n_vec <= nb * mmx /\ (nb - 1) * mmx < n_vec \/ (nb = 0 /\ n_vec = 0)).
  { pose proof (Z.div_mod (n_vec + mmx - 1) mmx ltac:(lia)) as D. pose proof (Z.mod_pos_bound (n_vec + mmx - 1) mmx ltac:(lia)) as M. fold nb in D.
    assert (0 <= nb) by (apply Z.div_pos; lia). nia. }
  set (body := fun b (z : mvst K * mem K) => _).
  assert (G : forall k lo s1 y1, lo = (nb - Z.of_nat k)%Z -> 0 <= lo -> mmst_ok h s1 -> perm_ok h mmx s1 -> zlen y1 = zlen y ->
    mm_batches_fine h getB getD bm dm mmx col fc n_vec x ldx ldy (zrange lo nb) s1 y1 (fun s' y' => zfor lo nb body (s1, y1) = Some (s', y'))).
  { induction k as [|k IH]; intros lo s1 y1 Elo Hlo M1 P1 Z1.
    - rewrite zrange_empty, zfor_empty by lia. reflexivity.
    - rewrite zrange_cons, zfor_step by lia. cbn [mm_batches_fine]. unfold body at 1.
      set (nv := if (lo * mmx + mmx <=? n_vec)%Z then mmx else (n_vec - lo * mmx)%Z).
      assert (Hbm : ((lo + 1) * mmx <= nb * mmx)%Z) by (apply Z.mul_le_mono_nonneg_r; lia).
      assert (Hnv : 1 <= nv <= mmx /\ (lo * mmx + nv)%Z = Z.min ((lo + 1) * mmx) n_vec).
      { unfold nv. destruct (Z.leb_spec (lo * mmx + mmx) n_vec); [lia|]. assert ((nb - 1) * mmx < n_vec)%Z by lia. assert (lo = (nb - 1)%Z) by nia. lia. }
      destruct Hnv as (N1 & N2). assert (Hb0 : 0 <= lo * mmx) by nia.
      assert (Hx' : forall j l, 0 <= j < h_kms h -> 0 <= l < nv -> ld x (cell col ldx j (lo * mmx + l)) = Some (xf j (lo * mmx + l)%Z)) by (intros j l Hj Hl; apply Hx; auto; lia).
      assert (Hy' : fits_mat col (h_kms h) nv (cell col ldy 0 (lo * mmx)) ldy (zlen y1)).
      { rewrite Z1. unfold fits_mat, fits, cell in *. destruct col; destruct Hy as (Y1 & Y2 & Y3 & Y4 & Y5); repeat split; try lia; try nia. }
      destruct (mm_batch_spec h R mmx col fb fd getB getD bm dm HrowsB HgetB HentB HrowsD HgetD HentD Hsum (mm_sched_of (fc lo)) nv (lo * mmx) x ldx ldy s1 y1 xf) as (s2 & y2 & E2 & Q1 & Q2 & _ & _ & Q5 & _); auto.
      { apply mm_sched_of_ok, C. }
      eapply mm_batch_fine_mono; [|apply (mm_batch_fine_spec (fc lo) nv (lo * mmx) x ldx ldy s1 y1 xf); auto].
      intros s' y' E'. rewrite E2 in E'. injection E' as <- <-. cbn [bind].
      eapply mm_batches_fine_mono; [|apply (IH (lo + 1)%Z s2 y2); auto; lia].
      intros s' y' Hz. rewrite E2. cbn [bind]. exact Hz. }
  apply (G (Z.to_nat nb) 0 s0 y); auto; try lia.
  - destruct Ss; constructor; auto.
  - split; cbn; rewrite zlen_alloc; nia.
Qed.
End Top.

(** ** What H2P_build returns *)
Section Built.
Context {F : num} {K : cring}.
Variables (kern : list F -> list F -> Z -> Z -> K) (fuel : nat) (rnd : Z -> F) (pt_dim xpt_dim kdim n_point n_thread : Z) (coord0 : mem F) (mlp : Z) (mls : F) (rbox : option (mem F))
  (alpha : F) (depth : nat) (t : tree_result F) (ps : pairs) (U : list (dmat K)) (J : list int_vec) (Jc : list (dmat F)) (js : Z -> list Z) (blkB blkD0 blkD1 : int_vec) (sc : build_sched).
Hypothesis BI : build_inputs fuel rnd pt_dim xpt_dim kdim n_point n_thread coord0 mlp mls rbox alpha depth t ps U J Jc js blkB blkD0 blkD1 sc.
Variables (h : h2rep F K) (bm dm : bmeta).
Hypothesis EB : h2_build kern pt_dim xpt_dim kdim n_point n_thread t ps U J Jc blkB blkD0 blkD1 sc = Some (h, bm, dm).

Lemma built_leaf : (forall n0 e, 0 <= n0 < h_nnode h -> In e (fm_ents (famB h) n0) -> level h n0 < level h (fm_part (famB h) e) -> nchild h n0 = 0) /\
  (forall n0 e, 0 <= n0 < h_nnode h -> In e (fm_ents (famD h) n0) -> nchild h n0 = 0).
Proof.
  destruct (bi_facts fuel rnd pt_dim xpt_dim kdim n_point n_thread coord0 mlp mls rbox alpha depth t ps U J Jc js blkB blkD0 blkD1 sc BI) as (D & CT & RE & HC & Hmin & Hadm & Hinadm & Hsim & Hsome & Hine).
  pose proof BI as [_ Hok Ht Hdep Hp _ SK ((bl & B0) & (bl0 & B1) & (bl1 & B2)) Hsc].
  destruct (h2_build_spec kern pt_dim xpt_dim kdim n_point n_thread coord0 t ps U J Jc js blkB blkD0 blkD1 bl bl0 bl1 sc D CT RE HC Hmin Hadm Hinadm Hsim Hsome SK (conj B0 (conj B1 B2)) Hsc)
    as (h' & bm' & dm' & perm & E & R & Hperm & Hidx & NF & BK & MB & MD & (E1 & E2 & E3 & E4 & E5 & E6 & E7 & E8 & E9 & E10 & E11 & E12 & E13 & E14 & E15 & E16 & E17 & E18 & E19 & E20) & _).
  assert (X : (h', bm', dm') = (h, bm, dm)) by congruence. injection X as -> -> ->.
  destruct (C18_pairs_classified _ _ _ _ _ _ _ _ _ _ _ _ _ _ Hok Ht Hdep Hp) as (Q1 & Q2 & _).
  assert (Lf : forall n, 0 <= n < h_nnode h -> is_leaf (r_arrays t) n -> nchild h n = 0).
  { intros n Hn L. unfold is_leaf in L. rewrite <- E1, (ld_nchild h R n Hn) in L. now injection L. }
  assert (Lv : forall n m, levels_fit (r_arrays t) n m -> levels_fit (r_arrays t) m n).
  { intros n m (l0 & l1 & A & B & [C|[C|C]]); exists l1, l0; split; auto. }
  split; intros n0 e Hn Hin; cbn [fm_ents fm_part famB famD] in *; apply filter_In in Hin as [Hin Hf]; apply Z.eqb_eq in Hf; change (e_own e = n0) in Hf.
  - intros Hl. destruct (entB h e Hin) as (_ & G). rewrite E13 in G.
    assert (Hfit : (0 <= e_part e < h_nnode h) /\ levels_fit (r_arrays t) n0 (e_part e)).
    { rewrite E4. destruct (e_tr e); apply getz_In in G; destruct (Q1 _ _ G) as (A & B & _ & L & _); rewrite <- Hf; auto. }
    destruct Hfit as (He & l0 & l1 & A & B & Hc). rewrite <- E1 in A, B. rewrite (ld_level h R) in A, B by auto. injection A as <-. injection B as <-.
    destruct Hc as [Hc|[[_ Hc]|[Hc _]]]; [lia|now apply Lf|lia].
  - destruct (entD h R e Hin) as [(Hk & _ & Eo & _)|(_ & G)].
    + destruct (leaf_list h R) as (ns & Zn & Gn & _ & In_ns). rewrite <- Hf, Eo. apply In_ns. eapply getz_In. apply Gn; auto.
    + rewrite E14 in G. apply Lf; auto. rewrite <- Hf. destruct (e_tr e); apply getz_In in G; destruct (Q2 _ _ G) as (_ & _ & _ & L0 & L1 & _); auto.
Qed.

Theorem matmul_fine_built regenB regenD mmx col fc n_vec s x ldx y ldy (xf : Z -> Z -> K) : 1 <= mmx -> 0 <= n_vec -> (forall b, mm_choices_ok h (fc b)) -> mmst_ok h s ->
  (forall j v, 0 <= j < h_kms h -> 0 <= v < n_vec -> ld x (cell col ldx j v) = Some (xf j v)) ->
  fits_mat col (h_kms h) n_vec 0 ldy (zlen y) ->
  let getB := get_Bij kern (ctx_of pt_dim xpt_dim kdim n_point t Jc) bm (h_Bdata h) regenB in
  let getD := get_Dij kern (ctx_of pt_dim xpt_dim kdim n_point t Jc) dm (h_Ddata h) regenD in
  matmul_fine h getB getD bm dm mmx col fc n_vec s x ldx y ldy
    (fun s' y' => matmul h getB getD bm dm mmx col (fun b => mm_sched_of (fc b)) n_vec s x ldx y ldy = Some (s', y')).
Proof.
  destruct (build_rows kern _ _ _ _ _ _ _ _ _ _ _ _ _ _ _ _ _ _ _ _ _ _ _ BI h bm dm EB) as (R & RB & RD).
  destruct (build_gets kern _ _ _ _ _ _ _ _ _ _ _ _ _ _ _ _ _ _ _ _ _ _ _ BI h bm dm EB regenB) as (GB & _).
  destruct (build_gets kern _ _ _ _ _ _ _ _ _ _ _ _ _ _ _ _ _ _ _ _ _ _ _ BI h bm dm EB regenD) as (_ & GD).
  destruct built_leaf as (LB & LD). intros Hm Hv C Ss Hx Hy getB getD.
  apply (matmul_fine_spec h R mmx col (famB h) (famD h) getB getD bm dm RB GB (HentB h R) RD GD (HentD h R)) with (xf := xf); auto.
  intros xv p l _. apply Hsum; auto.
Qed.
End Built.
