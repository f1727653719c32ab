(** Each work item of Model_MmFine.v, run alone, does what the atomic item of
    Model_Matmul.v does, and makes only the accesses of its footprint. *)
From Coq Require Import ZArith List Lia Bool Permutation.
From Verif Require Import Base Mem Num CRing Conc Race Model_Utils Model_Dense Spec_Dense Proof_Dense Model_CSR Model_Partition Model_Matvec Spec_Matvec Model_Build Model_Matmul Model_MvFine Proof_MvFine
  Proof_MvTree Proof_MvFwd Proof_MmFwd Proof_MmMid Proof_MmTop Model_MmFine.
Import ListNotations.
Open Scope Z_scope.

Section Sim.
Context {F : num} {K : cring}.
Local Open Scope ring_K.
Notation R := (runs (mstore (K := K) false)).
Notation acc := (bool * mloc)%type.
Implicit Types P : acc -> Prop.

(** Loops that change pmt_y. *)
Lemma py_for_acc {X} P (Inv : X -> Prop) (s : mvst K) lo hi (f : Z -> X * mem K -> option (X * mem K)) fp :
  (forall i x py x' py', lo <= i < hi -> Inv x -> f i (x, py) = Some (x', py') -> Inv x' /\ R P (fp i x) (set_py s py) x' (set_py s py')) ->
  forall x py x' py', Inv x -> zfor lo hi f (x, py) = Some (x', py') ->
  Inv x' /\ R P (for_ false lo hi fp x) (set_py s py) x' (set_py s py').
Proof.
  intros H x py x' py' Ix E.
  destruct (r_for false P (fun _ x s1 => Inv x /\ s1 = set_py s (s_py s1)) (fun x s1 => (x, s_py s1)) lo hi f fp) with (x := x) (m := set_py s py) (z' := (x', py')) as (x1 & m1 & Ez & [I1 E1] & Hr); auto.
  - intros i x0 m z' Hi [I0 Em] Ez. destruct z' as [x2 py2]. rewrite Em. cbn [s_py set_py] in Ez |- *.
    rewrite Em in Ez. cbn [s_py set_py] in Ez. destruct (H _ _ _ _ _ Hi I0 Ez) as [I2 R2].
    exists x2, (set_py s py2). auto.
  - injection Ez as -> ->. split; auto. rewrite E1 in Hr. exact Hr.
Qed.
Lemma py_for P (s : mvst K) lo hi (f : Z -> mem K -> option (mem K)) fp :
  (forall i py py', lo <= i < hi -> f i py = Some py' -> R P (fp i tt) (set_py s py) tt (set_py s py')) ->
  forall py py', zfor lo hi f py = Some py' -> R P (for_ false lo hi fp tt) (set_py s py) tt (set_py s py').
Proof.
  intros H py py' E.
  assert (G : True /\ R P (for_ false lo hi fp tt) (set_py s py) tt (set_py s py')); [|apply G].
  eapply (c_for false _ P (fun _ (_ : unit) s1 => s1 = set_py s (s_py s1)) (fun (_ : unit) s1 => s_py s1)); [|exact E|reflexivity|].
  - intros i [] m z' Hi Em Ez. exists tt, (set_py s z'). split; auto. split; auto. rewrite Em. rewrite Em in Ez. cbn [s_py set_py] in Ez |- *. auto.
  - intros m' -> Em. rewrite <- Em. auto.
Qed.
Lemma set_py_self (s : mvst K) : set_py s (s_py s) = s.
Proof. now destruct s. Qed.

(** Reading operands. *)
Definition reads P (s : mvst K) (A : mem K) (ra : Z -> prog (mstore (K := K) false) K) : Prop :=
  forall (i : Z) (v : K), ld A i = Some v -> R P (ra i) s v s.
Lemma reads_loc P s A : reads P s A (loc A).
Proof. intros i v E. now apply r_lift. Qed.
Lemma reads_shx P s : (forall i, P (false, LPX i)) -> reads P s (s_px s) shx.
Proof. intros H i v E. apply r_rdC; auto. cbn [mrd]. apply ld_getz in E. now rewrite E. Qed.

Lemma gemm_dot_runs P s (ta tb : bool) (k : Z) (A : mem K) ra (ao lda : Z) (B : mem K) rb (bo ldb i j : Z) (v : K) : reads P s A ra -> reads P s B rb ->
  zfor 0 k (fun p v => a <- ld A (ao + (if ta then p * lda + i else i * lda + p))%Z; b <- ld B (bo + (if tb then j * ldb + p else p * ldb + j))%Z; Some (v + a * b)) c0 = Some v ->
  R P (gemm_dot ta tb k ra ao lda rb bo ldb i j) s v s.
Proof.
  intros HA HB. unfold gemm_dot. apply r_pure. intros p v1 v2 Hp E. binv1 E a Ea. binv1 E b Eb. injection E as <-.
  eapply r_bind; [apply HA; eassumption|]. eapply r_bind; [apply HB; eassumption|]. apply r_ret.
Qed.
Lemma gemm_f_runs P s ta tb m n k A ra ao lda B rb bo ldb acc C co ldc C' : reads P s A ra -> reads P s B rb ->
  gemm ta tb m n k A ao lda B bo ldb acc C co ldc = Some C' ->
  R P (gemm_f ta tb m n k ra ao lda rb bo ldb acc C co ldc) s C' s.
Proof.
  intros HA HB. unfold gemm, gemm_f. destruct (acc && (k =? 0))%bool. { intros E. injection E as <-. apply r_ret. }
  apply r_pure. intros i C1 C2 Hi. apply r_pure. intros j C3 C4 Hj E. binv1 E v Ev.
  eapply r_bind; [eapply gemm_dot_runs; eauto|]. apply r_lift. exact E.
Qed.
Lemma gemm_y_runs P s ta tb m n k A ra ao lda B rb bo ldb co ldc py py' :
  (forall py, reads P (set_py s py) A ra) -> (forall py, reads P (set_py s py) B rb) ->
  (forall i j b, 0 <= i < m -> 0 <= j < n -> P (b, LPY (co + (i * ldc + j)))) ->
  gemm ta tb m n k A ao lda B bo ldb true py co ldc = Some py' ->
  R P (gemm_y_f ta tb m n k ra ao lda rb bo ldb co ldc) (set_py s py) tt (set_py s py').
Proof.
  intros HA HB HP. unfold gemm, gemm_y_f. cbn [andb]. destruct (k =? 0). { intros E. injection E as <-. apply r_ret. }
  apply py_for. intros i py1 py2 Hi. apply py_for. intros j py3 py4 Hj E. binv1 E v Ev.
  eapply r_bind; [eapply gemm_dot_runs; eauto|]. 
  change (set_py s py4) with (set_py (set_py s py3) py4). apply addC_py_runs; auto.
Qed.

Variable h : h2rep F K.
Hypothesis Rh : rep_ok h.
Variables (nv mmx : Z) (col : bool).
Hypothesis Hnv : 1 <= nv <= mmx.
Notation ldp := (if col then h_kms h else mmx).
Notation prs := (if col then 1 else ldp)%Z.
Notation pcell := (pcell h mmx col).

Lemma mm_fwd_node_runs node s s' : mm_fwd_node h nv ldp prs col node s = Some s' -> R (fp_fwd h node) (mm_fwd_node_f h nv ldp prs col node) s tt s'.
Proof.
  unfold mm_fwd_node, mm_fwd_node_f. intros E. binv1 E nc En. binv1 E U EU. binv1 E y0 Ey. binv1 E yn Eyn. cbv zeta in E. binv1 E d Ed. binv1 E y0' Ey'. injection E as <-.
  eapply r_bind; [apply r_lift; first [reflexivity | eassumption]|]. eapply r_bind; [apply r_lift; first [reflexivity | eassumption]|].
  eapply r_bind. { apply r_rdD with (m := yn); [cbn [mrd]; rewrite Ey; cbn [bind]; now rewrite Eyn|]. left. reflexivity. }
  cbv zeta. eapply r_bind with (a := d) (s1 := s).
  - destruct (nc =? 0).
    + binv1 Ed srow Es. binv1 Ed erow Ee. eapply r_bind; [apply r_lift; first [reflexivity | eassumption]|]. eapply r_bind; [apply r_lift; first [reflexivity | eassumption]|].
      eapply gemm_f_runs; [apply reads_loc|apply reads_shx|exact Ed]. intros i. right. split; auto. left. eexists; reflexivity.
    + binv1 Ed z Ez. destruct z as [usrow d1]. injection Ed as <-.
      apply r_bind with (a := (usrow, d1)) (s1 := s); [|apply r_ret].
      revert Ez. apply r_pure. intros k [u1 e1] [u2 e2] Hk E. cbv beta iota in E |- *. binv1 E c Ec. binv1 E yk Eyk. binv1 E d2 Ed2. injection E as <- <-.
      eapply r_bind; [apply r_lift; first [reflexivity | eassumption]|].
      eapply r_bind. { apply r_rdD with (m := yk); [cbn [mrd]; rewrite Ey; cbn [bind]; now rewrite Eyk|]. right. split; auto. right. exists c. split; auto. exists nc, k. auto. }
      eapply r_bind; [eapply gemm_f_runs; [apply reads_loc|apply reads_loc|exact Ed2]|]. apply r_ret.
  - apply r_wrV; [|left; reflexivity]. cbn [mwr]. rewrite Ey. cbn [bind]. now rewrite Ey'.
Qed.

(** Rows of [node] in pmt_y. *)
Definition own_rows (node : Z) (a : acc) : Prop :=
  exists p l, mfirst h node <= p <= mlast h node /\ 0 <= l < nv /\ snd a = LPY (pcell p l).
Definition fp_mm_mid (P2 : Prop) (tid node0 : Z) (a : acc) : Prop :=
  snd a = LM0 tid \/ snd a = LY1 node0 \/ (fst a = false /\ ((exists i, snd a = LPX i) \/ exists n, snd a = LY0 n)) \/
  P2 /\ own_rows node0 a.

Lemma own_yt node (nrow i j : Z) b (P : acc -> Prop) : 0 <= node < h_nnode h -> nrow = msize h node -> (forall a, own_rows node a -> P a) ->
  (if col then 0 <= i < nv /\ 0 <= j < nrow else 0 <= i < nrow /\ 0 <= j < nv) -> P (b, LPY (mfirst h node * prs + (i * ldp + j))).
Proof.
  intros Hn -> HP Hij. apply HP. unfold own_rows, Proof_MmFwd.pcell, msize in *. destruct col; destruct Hij as [Hi Hj].
  - exists (mfirst h node + j)%Z, i. split; [lia|]. split; [auto|]. cbn [snd]. f_equal. lia.
  - exists (mfirst h node + i)%Z, j. split; [lia|]. split; [auto|]. cbn [snd]. f_equal. lia.
Qed.

Section Blocks.
Context {E : Type}.
Variables (fm : family (K := K) E) (get : Z -> Z -> dmat K -> option (option (dmat K))) (bm : bmeta).
Hypothesis Hrows : fam_rows fm (h_nnode h) (bm_rowptr bm) (bm_colidx bm).
Hypothesis Hget : fam_get fm (h_nnode h) get.

(** The blocks met in row n0. *)
Lemma row_block n0 a b i n1 (o : dmat K) : 0 <= n0 < h_nnode h -> ld (bm_rowptr bm) n0 = Some a -> ld (bm_rowptr bm) (n0 + 1) = Some b ->
  a <= i < b -> ld (bm_colidx bm) i = Some n1 -> dm_ok o ->
  exists e o', In e (fm_ents fm n0) /\ fm_part fm e = n1 /\ fetch get n0 n1 o = Some o' /\ dm_ok o' /\ fst (fst (fst (view o'))) = fm_nr fm e.
Proof.
  intros Hn Ha Hb Hi H1 Ho. destruct (Hrows n0 Hn) as (a' & b' & Ea & Eb & Hab & Hp). rewrite Ha in Ea. rewrite Hb in Eb. injection Ea as <-. injection Eb as <-.
  assert (Hin : In (Some n1) (map (fun e => Some (fm_part fm e)) (fm_ents fm n0))).
  { apply (Permutation_in _ Hp). apply in_map_iff. exists i. split; auto. apply In_zrange. lia. }
  apply in_map_iff in Hin as (e & Ee & He). injection Ee as Ee.
  destruct (Hget n0 e o Hn He Ho) as (o' & G & O' & V). exists e, o'. split; auto. split; auto. rewrite <- Ee. unfold fetch. rewrite G. cbn [bind]. split; auto. split; auto.
  unfold gview in V. destruct (view o') as [[[nrow ncol] ldb] tr]. cbn [fst]. apply V.
Qed.

Lemma mm_mid_node_runs (P2 : Prop) tid n0 s s' : 0 <= n0 < h_nnode h ->
  (forall e, In e (fm_ents fm n0) -> 0 <= fm_part fm e < h_nnode h /\
     (level h n0 < level h (fm_part fm e) -> P2 /\ fm_nr fm e = msize h n0)) ->
  Forall dm_ok (s_m0 s) -> mm_mid_node h get bm nv ldp prs col ldp prs col tid n0 s = Some s' ->
  Forall dm_ok (s_m0 s') /\ R (fp_mm_mid P2 tid n0) (mm_mid_node_f h get bm nv ldp prs col ldp prs col tid n0) s tt s'.
Proof.
  intros Hn Hent Hm. unfold mm_mid_node, mm_mid_node_f. intros Ex. binv1 Ex y0 Ey0. binv1 Ex y1 Ey1. binv1 Ex bij Eb. binv1 Ex y10 Ey. binv1 Ex d Ed. binv1 Ex a Ea. binv1 Ex b Ebb.
  binv1 Ex z Ez. destruct z as [[bij' y10'] py']. binv1 Ex m0 Em0. binv1 Ex y1' Ey1'. injection Ex as <-.
  assert (Ob : dm_ok bij) by (eapply Forall_getz; eauto).
  eapply c_bind. { apply r_rdD with (m := bij); [cbn [mrd]; now rewrite Eb|]. left. reflexivity. }
  eapply c_bind. { apply r_rdD with (m := y10); [cbn [mrd]; rewrite Ey1; cbn [bind]; now rewrite Ey|]. right; left. reflexivity. }
  do 3 (eapply c_bind; [apply r_lift; first [reflexivity | eassumption]|]).
  assert (G : dm_ok (fst (bij', y10')) /\ R (fp_mm_mid P2 tid n0) (for_ false a b (fun i x => pbind (mstore false) (lift false (ld (bm_colidx bm) i)) (fun node1 =>
      mm_mid_pair_f h get nv ldp prs col ldp prs col n0 node1 x)) (bij, dm_set_data y10 d)) (set_py s (s_py s)) (bij', y10') (set_py s py')).
  { revert Ez. apply (py_for_acc (fp_mm_mid P2 tid n0) (fun x : dmat K * dmat K => dm_ok (fst x))); [|exact Ob].
    intros i [bi yi] py [bi' yi'] py1 Hi Oi E1. cbn [fst] in Oi |- *. cbv beta in E1. binv1 E1 n1 En1.
    destruct (row_block n0 a b i n1 bi Hn Ea Ebb Hi En1 Oi) as (e & o' & He & Ep & Ef & Oo & Ev).
    destruct (Hent e He) as [Np Hlt]. rewrite Ep in *.
    eapply c_bind; [apply r_lift; reflexivity|].
    unfold mm_mid_pair in E1. unfold mm_mid_pair_f.
    rewrite (ld_level h Rh) in E1 by auto. cbn [bind] in E1. rewrite (ld_level h Rh) in E1 by auto. cbn [bind] in E1. binv1 E1 y01 Ey01. rewrite Ef in E1. cbn [bind] in E1.
    do 2 (eapply c_bind; [apply r_lift; apply (ld_level h Rh); auto|]).
    eapply c_bind. { apply r_rdD with (m := y01); [cbn [mrd set_py s_y0]; rewrite Ey0; cbn [bind]; now rewrite Ey01|]. right; right; left. split; auto. right. eexists; reflexivity. }
    eapply c_bind; [apply r_lift; exact Ef|].
    destruct (view o') as [[[nrow ncol] ldb] tr]. cbn [fst] in Ev. subst nrow.
    binv1 E1 d1 Ed1. binv1 E1 d2 Ed2. binv1 E1 py2 Epy2. injection E1 as <- <- <-.
    eapply c_bind with (a := d1) (s1 := set_py s py).
    { destruct (level h n0 =? level h n1); [|injection Ed1 as <-; apply r_ret]. eapply gemm_f_runs; [apply reads_loc|apply reads_loc|exact Ed1]. }
    eapply c_bind with (a := d2) (s1 := set_py s py).
    { destruct (level h n1 <? level h n0); [|injection Ed2 as <-; apply r_ret]. binv1 Ed2 xs Exs.
      eapply r_bind; [apply r_lift; first [reflexivity | eassumption]|].
      eapply gemm_f_runs; [apply reads_loc|change (s_px s) with (s_px (set_py s py)) in Ed2; apply reads_shx|exact Ed2].
      intros i0. right; right; left. split; auto. left. eexists; reflexivity. }
    eapply c_bind with (a := tt) (s1 := set_py s py2).
    { destruct (level h n0 <? level h n1) eqn:El; [|injection Epy2 as <-; apply r_ret]. apply Z.ltb_lt in El. destruct (Hlt El) as [HP2 Hnr].
      rewrite (ld_mfirst h Rh) in Epy2 by auto. cbn [bind] in Epy2. eapply r_bind; [apply r_lift; apply (ld_mfirst h Rh); auto|].
      assert (OW : forall a0, own_rows n0 a0 -> fp_mm_mid P2 tid n0 a0) by (intros a0 H0; right; right; right; auto).
      destruct col eqn:Ec.
      - eapply gemm_y_runs; [intros; apply reads_loc|intros; apply reads_loc| |exact Epy2]. intros i0 j0 b0 H1 H2.
        pose proof (own_yt n0 (fm_nr fm e) i0 j0 b0 (fp_mm_mid P2 tid n0) Hn Hnr OW) as OY. rewrite Ec in OY. apply OY. auto.
      - eapply gemm_y_runs; [intros; apply reads_loc|intros; apply reads_loc| |exact Epy2]. intros i0 j0 b0 H1 H2.
        pose proof (own_yt n0 (fm_nr fm e) i0 j0 b0 (fp_mm_mid P2 tid n0) Hn Hnr OW) as OY. rewrite Ec in OY. apply OY. auto. }
    split; auto. apply r_ret. }
  rewrite set_py_self in G. destruct G as [Ob' G]. cbn [fst] in Ob'.
  eapply c_bind; [exact G|]. cbv beta iota.
  eapply c_bind. { apply r_wrV with (s' := set_m0 (set_py s py') m0); [cbn [mwr set_py s_m0]; now rewrite Em0|]. left; reflexivity. }
  split.
  - cbn [set_py set_y1 set_m0 s_m0]. eapply Forall_setz; eauto.
  - apply r_wrV; [|right; left; reflexivity]. cbn [mwr set_py set_m0 s_y1]. rewrite Ey1. cbn [bind]. rewrite Ey1'. reflexivity.
Qed.

Definition fp_mm_den (P2 : Prop) (tid node0 : Z) (a : acc) : Prop :=
  snd a = LM0 tid \/ (fst a = false /\ exists i, snd a = LPX i) \/ P2 /\ own_rows node0 a.

Lemma mm_den_node_runs (P2 : Prop) tid n0 s s' : 0 <= n0 < h_nnode h ->
  (forall e, In e (fm_ents fm n0) -> 0 <= fm_part fm e < h_nnode h /\ P2 /\ fm_nr fm e = msize h n0) ->
  Forall dm_ok (s_m0 s) -> mm_den_node h get bm nv ldp prs col ldp prs tid n0 s = Some s' ->
  Forall dm_ok (s_m0 s') /\ R (fp_mm_den P2 tid n0) (mm_den_node_f h get bm nv ldp prs col ldp prs tid n0) s tt s'.
Proof.
  intros Hn Hent Hm. unfold mm_den_node, mm_den_node_f. intros Ex. replace (2 * n0)%Z with (n0 * 2)%Z in Ex |- * by lia.
  rewrite (ld_mfirst h Rh) in Ex by auto. cbn [bind] in Ex. binv1 Ex bij Eb. binv1 Ex a Ea. binv1 Ex b Ebb.
  binv1 Ex z Ez. destruct z as [bij' py']. binv1 Ex m0 Em0. injection Ex as <-.
  assert (Ob : dm_ok bij) by (eapply Forall_getz; eauto).
  eapply c_bind; [apply r_lift; apply (ld_mfirst h Rh); auto|].
  eapply c_bind. { apply r_rdD with (m := bij); [cbn [mrd]; now rewrite Eb|]. left. reflexivity. }
  do 2 (eapply c_bind; [apply r_lift; first [reflexivity | eassumption]|]).
  assert (G : dm_ok bij' /\ R (fp_mm_den P2 tid n0) (for_ false a b (fun i x => pbind (mstore false) (lift false (ld (bm_colidx bm) i)) (fun node1 =>
      mm_den_pair_f h get nv ldp prs col ldp (mfirst h n0 * prs) n0 node1 x)) bij) (set_py s (s_py s)) bij' (set_py s py')).
  { revert Ez. apply (py_for_acc (fp_mm_den P2 tid n0) (fun x : dmat K => dm_ok x)); [|exact Ob].
    intros i bi py bi' py1 Hi Oi E1. cbv beta in E1. binv1 E1 n1 En1.
    destruct (row_block n0 a b i n1 bi Hn Ea Ebb Hi En1 Oi) as (e & o' & He & Ep & Ef & Oo & Ev).
    destruct (Hent e He) as (Np & HP2 & Hnr). rewrite Ep in *.
    eapply c_bind; [apply r_lift; reflexivity|].
    unfold mm_den_pair in E1. unfold mm_den_pair_f. binv1 E1 xs Exs. rewrite Ef in E1. cbn [bind] in E1.
    eapply c_bind; [apply r_lift; first [reflexivity | eassumption]|]. eapply c_bind; [apply r_lift; exact Ef|].
    destruct (view o') as [[[nrow ncol] ldb] tr]. cbn [fst] in Ev. subst nrow.
    binv1 E1 py2 Epy2. injection E1 as <- <-.
    eapply c_bind with (a := tt) (s1 := set_py s py2).
    { assert (OW : forall a0, own_rows n0 a0 -> fp_mm_den P2 tid n0 a0) by (intros a0 H0; right; right; auto).
      assert (RX : forall py, reads (fp_mm_den P2 tid n0) (set_py s py) (s_px s) shx).
      { intros q. change (s_px s) with (s_px (set_py s q)). apply reads_shx. intros i0. right; left. split; auto. eexists; reflexivity. }
      destruct col eqn:Ec.
      - eapply gemm_y_runs; [exact RX|intros; apply reads_loc| |exact Epy2]. intros i0 j0 b0 H1 H2.
        pose proof (own_yt n0 (fm_nr fm e) i0 j0 b0 (fp_mm_den P2 tid n0) Hn Hnr OW) as OY. rewrite Ec in OY. apply OY. auto.
      - eapply gemm_y_runs; [intros; apply reads_loc|exact RX| |exact Epy2]. intros i0 j0 b0 H1 H2.
        pose proof (own_yt n0 (fm_nr fm e) i0 j0 b0 (fp_mm_den P2 tid n0) Hn Hnr OW) as OY. rewrite Ec in OY. apply OY. auto. }
    split; auto. apply r_ret. }
  rewrite set_py_self in G. destruct G as [Ob' G].
  eapply c_bind; [exact G|].
  split.
  - cbn [set_py set_y1 set_m0 s_m0]. eapply Forall_setz; eauto.
  - apply r_wrV; [|left; reflexivity]. cbn [mwr set_py set_m0 s_m0]. rewrite Em0. reflexivity.
Qed.
End Blocks.

Definition fp_mm_bwd (tid node : Z) (a : acc) : Prop :=
  snd a = LM0 tid \/ a = (false, LY1 node) \/ (exists c, is_child h node c /\ snd a = LY1 c) \/
  (nchild h node = 0 /\ own_rows node a).

Lemma mm_bwd_node_runs tid node s s' : 0 <= node < h_nnode h -> mm_bwd_node h nv ldp col tid node s = Some s' ->
  R (fp_mm_bwd tid node) (mm_bwd_node_f h nv ldp col tid node) s tt s'.
Proof.
  intros Hn. unfold mm_bwd_node, mm_bwd_node_f. intros E. rewrite (ld_nchild h Rh) in E by auto. cbn [bind] in E. binv1 E y1 Ey. binv1 E m Em.
  eapply r_bind; [apply r_lift; apply (ld_nchild h Rh); auto|].
  eapply r_bind. { apply r_rdD with (m := m); [cbn [mrd]; rewrite Ey; cbn [bind]; now rewrite Em|]. right; left; auto. }
  destruct (dm_ld m =? 0). { injection E as <-. apply r_ret. }
  binv1 E U EU. binv1 E t0 Et0. cbv zeta in E |- *. binv1 E td Etd. binv1 E m0 Em0.
  eapply r_bind; [apply r_lift; first [reflexivity | eassumption]|].
  eapply r_bind. { apply r_rdD with (m := t0); [cbn [mrd]; now rewrite Et0|]. left; reflexivity. }
  eapply r_bind; [apply r_lift; exact Etd|].
  eapply r_bind. { apply r_wrV with (s' := set_m0 s m0); [cbn [mwr]; now rewrite Em0|]. left; reflexivity. }
  destruct (Z.eqb_spec (nchild h node) 0) as [Hc|Hc].
  - replace (2 * node)%Z with (node * 2)%Z in E |- * by lia.
    rewrite (ld_mfirst h Rh), (ld_mlast h Rh) in E by auto. cbn [bind] in E. fold (msize h node) in E.
    eapply r_bind; [apply r_lift; apply (ld_mfirst h Rh); auto|]. eapply r_bind; [apply r_lift; apply (ld_mlast h Rh); auto|]. fold (msize h node).
    binv1 E py Epy. injection E as <-. cbn [set_m0 s_py] in Epy.
    assert (OW : forall p l b, 0 <= p < msize h node -> 0 <= l < nv -> fp_mm_bwd tid node (b, LPY (pcell (mfirst h node + p) l))).
    { intros p l b Hp Hl. right; right; right. split; auto. exists (mfirst h node + p)%Z, l. unfold msize in Hp. split; [lia|]. auto. }
    rewrite <- (set_py_self (set_m0 s m0)) at 1. cbn [set_m0 s_py].
    destruct col eqn:Ec.
    + revert Epy. apply py_for. intros l py1 py2 Hl. apply py_for. intros k py3 py4 Hk E. binv1 E v Ev.
      eapply r_bind; [apply r_lift; first [reflexivity | eassumption]|].
      change (set_py (set_m0 s m0) py4) with (set_py (set_py (set_m0 s m0) py3) py4). 
      assert (Q : forall b, fp_mm_bwd tid node (b, LPY (l * h_kms h + (mfirst h node + k)))).
      { intros b. specialize (OW k l b Hk Hl). unfold Proof_MmFwd.pcell in OW. try rewrite Ec in OW. exact OW. }
      apply addC_py_runs; auto.
    + revert Epy. apply py_for. intros k py1 py2 Hk. apply py_for. intros l py3 py4 Hl E. binv1 E v Ev.
      eapply r_bind; [apply r_lift; first [reflexivity | eassumption]|].
      change (set_py (set_m0 s m0) py4) with (set_py (set_py (set_m0 s m0) py3) py4).
      assert (Q : forall b, fp_mm_bwd tid node (b, LPY ((mfirst h node + k) * mmx + l))).
      { intros b. specialize (OW k l b Hk Hl). unfold Proof_MmFwd.pcell in OW. try rewrite Ec in OW. exact OW. }
      apply addC_py_runs; auto.
  - binv1 E z Ez. destruct z as [idx y1']. injection E as <-.
    match goal with |- R ?P ?p ?a ?b ?c => assert (G : True /\ R P p a b c); [|apply G] end.
    eapply (c_for_bind false _ _ (fun _ (_ : Z) s1 => exists y, s1 = set_y1 (set_m0 s m0) y) (fun (i : Z) s1 => (i, match s_y1 s1 with Some y => y | None => [] end))); [|cbn [set_m0 s_y1]; rewrite Ey; exact Ez|exists y1; destruct s; cbn in Ey |- *; subst; reflexivity|].
    + intros k i s1 z' Hk (yy & ->) E. cbn [set_y1 s_y1 set_m0] in E. binv1 E c Ec. binv1 E Uc EUc. binv1 E mc Emc. binv1 E mc' Emc'. binv1 E yz Eyz. injection E as <-.
      exists (i + dm_ncol Uc)%Z, (set_y1 (set_m0 s m0) yz). split; auto. split; [eauto|].
      assert (Hch : is_child h node c) by (exists (nchild h node), k; split; [apply (ld_nchild h Rh); auto|auto]).
      eapply r_bind; [apply r_lift; first [reflexivity | eassumption]|]. eapply r_bind; [apply r_lift; first [reflexivity | eassumption]|].
      eapply r_bind. { apply r_rdD with (m := mc); [cbn [mrd set_y1 s_y1 bind]; now rewrite Emc|]. right; right; left. exists c. auto. }
      eapply r_bind with (a := mc') (s1 := set_y1 (set_m0 s m0) yy).
      { destruct (dm_ld mc =? 0); binv1 Emc' d Ed; injection Emc' as <-; (eapply r_bind; [apply r_lift; first [reflexivity | eassumption]|apply r_ret]). }
      eapply r_bind; [|apply r_ret]. apply r_wrV; [cbn [mwr set_y1 s_y1 bind]; now rewrite Eyz|]. right; right; left. exists c. auto.
    + intros x' m' Eq (yy & ->). cbn [set_y1 s_y1] in Eq. injection Eq as _ ->. split; auto. apply r_ret.
Qed.
End Sim.
