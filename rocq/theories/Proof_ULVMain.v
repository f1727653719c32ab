(** The ULV solves solve the system. *)
From Coq Require Import ZArith List Lia Bool Permutation.
From Verif Require Import Base Mem Num CRing Conc Model_Utils Spec_Utils Model_Dense Spec_Dense Proof_Dense3 Model_Partition Spec_Tree Model_Matvec Spec_Matvec Proof_MvTree Proof_MvFwd Proof_MvCor Spec_Lapack Blk Model_ULV Spec_ULV Proof_ULVMath Proof_ULVTree Proof_ULVMem Proof_ULVAsm Proof_ULVFac Proof_ULVNode Proof_ULVFact Proof_ULVVec Proof_ULVSolve.
Import ListNotations.
Open Scope Z_scope.

Section Main.
Context {F : num} {K : cring}.
Variable la : lapack K.
Hypothesis LA : lapack_ok la.
Variable h : h2rep F K.
Hypothesis R : rep_ok h.
Hypothesis HS : hss_ok h.
Notation nn := (h_nnode h).
Notation N := (h_kms h).
Variable chol : bool.
Variable shift : K.
Variable u : @ulv K.
Variables (nf : Z -> @nfac K) (pos : Z -> Z -> Z).
Hypothesis INV : inv h chol shift (fun _ => True) u nf pos.

Lemma HP t : 0 <= t < nn -> pos_ok h pos t.
Proof. intros Ht. now destruct (in_node _ _ _ _ _ _ _ INV t Ht I) as (_ & _ & _ & _ & _ & H & _). Qed.
Lemma Nn t : 0 <= t < nn -> f_n (nf t) = nrows h t.
Proof. intros Ht. now destruct (in_node _ _ _ _ _ _ _ INV t Ht I) as (H & _). Qed.
Lemma Nr t : 0 <= t < nn -> f_r (nf t) = rank h t.
Proof. intros Ht. now destruct (in_node _ _ _ _ _ _ _ INV t Ht I) as (_ & H & _). Qed.
Lemma Nf t : 0 <= t < nn -> fac_ok (nf t).
Proof. intros Ht. now destruct (in_node _ _ _ _ _ _ _ INV t Ht I) as (_ & _ & H & _). Qed.
Lemma Nl t : 0 <= t < nn -> linkedm h shift nf (f_Dh (nf t)) (f_Uh (nf t)) t.
Proof. intros Ht. now destruct (in_node _ _ _ _ _ _ _ INV t Ht I) as (_ & _ & _ & H & _). Qed.
Lemma Ns t : 0 <= t < nn -> stored h chol u t (nf t) (pos t).
Proof. intros Ht. now destruct (in_node _ _ _ _ _ _ _ INV t Ht I) as (_ & _ & _ & _ & H & _). Qed.

Lemma ps_range t : 0 <= t < nn -> forall k, 0 <= k < f_n (nf t) -> 0 <= pos t k < N.
Proof. intros Ht k Hk. rewrite Nn in Hk by auto. now apply (pos_range h R HS pos HP). Qed.
Lemma ps_inj t : 0 <= t < nn -> forall k l, 0 <= k < f_n (nf t) -> 0 <= l < f_n (nf t) -> pos t k = pos t l -> k = l.
Proof. intros Ht k l Hk Hl. rewrite Nn in Hk, Hl by auto. now apply (pos_inj h R HS pos HP). Qed.

Lemma nthread_pos : 0 < h_nthread h.
Proof. destruct (ro_dims _ R); intuition lia. Qed.

Definition up_sweep su s := if chol then ch_up la h u su s else lu_up la h u su s.
Definition down_sweep sd s := if chol then ch_down la h u sd s else lu_down la h u sd s.

Lemma root_at : ld (a_level_nodes (h_t h)) 0 = Some (nn - 1).
Proof.
  destruct (root_level h R) as [Hr Hl]. pose proof (level_range h R _ Hr) as Hm.
  destruct (level_list h R 0) as (ns & C & L & Nd & In_); [lia|].
  assert (Hin : In (nn - 1) ns) by (apply In_; auto). apply In_getz in Hin as (j & Hj). pose proof (getz_range _ _ _ Hj).
  destruct (getz_in ns 0) as [x Ex]; [lia|]. assert (x = nn - 1). { apply getz_In in Ex. apply In_ in Ex as [X1 X2]. now apply (level0_root h R). }
  rewrite <- (L 0) in Ex by lia. replace (0 * h_nleaf h + 0) with 0 in Ex by lia. congruence.
Qed.

Lemma up_ok su px m0s b : sweep_ok h su -> pv h px b -> mok h m0s ->
  exists s', up_sweep su (px, m0s) = Some s' /\ upst h pos nf b (fun _ => True) s'.
Proof.
  intros Hs Hp Hm. destruct (root_level h R) as [Hr Hrl]. pose proof (level_range h R _ Hr) as Hmx. pose proof nthread_pos as Hnt.
  assert (I0 : upst h pos nf b (fun t => h_maxlevel h < level h t) (px, m0s)).
  { split; auto. exists b, (fun _ => b), (fun _ => b). split; auto. split; intros; try reflexivity; try (pose proof (level_range h R t H); lia).
    destruct (child_at h R p k H H0) as (_ & C & _). pose proof (level_range h R _ C). lia. }
  unfold up_sweep. assert (Ec : chol = true \/ chol = false) by (destruct chol; auto). destruct Ec as [Ec|Ec]; rewrite Ec.
  - unfold ch_up.
    destruct (zfor_inv (fun k s => upst h pos nf b (fun t => h_maxlevel h - k < level h t) s) 0 (h_maxlevel h)
      (fun k s => node_sweep h (fun tid node s => ch_up_node la u tid node s) (su (h_maxlevel h - k)) (h_maxlevel h - k) s) (px, m0s)) as (s1 & E1 & I1).
    + lia.
    + now rewrite Z.sub_0_r.
    + intros k s Hk Is. destruct (up_level h R HS pos HP nf Nn b (fun tid node s => ch_up_node la u tid node s) su (h_maxlevel h - k) s Hs) as (s' & E & I'); auto; [lia| |].
      * intros tid t q ms v Ht Hl Htid Hv Hms. apply (ch_up_ok la LA h chol u t (nf t) (pos t)); auto; try lia.
        -- apply Ns; auto.
        -- apply (fo_r _ (Nf t Ht)).
        -- now apply ps_range.
        -- now apply ps_inj.
      * exists s'. split; auto. replace (h_maxlevel h - (k + 1)) with (h_maxlevel h - k - 1) by lia. auto.
    + rewrite E1. cbn [bind]. rewrite root_at. cbn [bind]. rewrite Z.sub_diag in I1.
      destruct (up_step h R HS pos HP nf Nn b (fun t => 0 < level h t) 0 (nn - 1) s1 (ch_root_node la u false (nn - 1) s1)) as (s2 & E2 & I2); auto; try lia.
      * destruct s1 as [q ms]. intros v Hv. cbn [fst] in Hv. apply (ch_root_up la LA h chol u (nn - 1) (nf (nn - 1)) (pos (nn - 1))); auto; try lia.
        -- apply Ns; auto.
        -- apply (fo_r _ (Nf _ Hr)).
        -- now apply ps_range.
        -- now apply ps_inj.
        -- apply (fo_pm _ (Nf _ Hr)).
        -- rewrite Nr by auto. apply (rank_root h R HS _ Hr Hrl).
        -- exact (proj1 I1).
      * exists s2. split; auto. eapply (upst_iff h R); [|exact I2]. intros x Hx. cbn beta. split; [auto|]. intros _. pose proof (level_range h R x Hx).
        destruct (Z.eq_dec (level h x) 0) as [E0|E0]; [left; now apply (level0_root h R)|right; lia].
  - unfold lu_up.
    destruct (zfor_inv (fun k s => upst h pos nf b (fun t => h_maxlevel h - k < level h t) s) 0 (h_maxlevel h + 1)
      (fun k s => node_sweep h (fun tid node s => lu_up_node la u (h_maxlevel h - k) tid node s) (su (h_maxlevel h - k)) (h_maxlevel h - k) s) (px, m0s)) as (s1 & E1 & I1).
    + lia.
    + now rewrite Z.sub_0_r.
    + intros k s Hk Is. destruct (up_level h R HS pos HP nf Nn b (fun tid node s => lu_up_node la u (h_maxlevel h - k) tid node s) su (h_maxlevel h - k) s Hs) as (s' & E & I'); auto; [lia| |].
      * intros tid t q ms v Ht Hl Htid Hv Hms. rewrite <- Hl. apply (lu_up_ok la LA h chol u t (nf t) (pos t)); auto; try lia.
        -- apply Ns; auto.
        -- apply (fo_r _ (Nf t Ht)).
        -- now apply ps_range.
        -- now apply ps_inj.
        -- apply (fo_pm _ (Nf t Ht)).
      * exists s'. split; auto. replace (h_maxlevel h - (k + 1)) with (h_maxlevel h - k - 1) by lia. auto.
    + rewrite E1. exists s1. split; auto. eapply (upst_iff h R); [|exact I1]. intros x Hx. cbn beta. pose proof (level_range h R x Hx). split; auto. lia.
Qed.

Lemma down_ok sd px m0s v0 out : sweep_ok h sd -> pv h px v0 -> mok h m0s -> (forall t i, 0 <= t < nn -> rank h t <= i < nrows h t -> v0 (pos t i) = out t i) ->
  exists s', down_sweep sd (px, m0s) = Some s' /\ dnst h pos nf out (fun _ => True) s'.
Proof.
  intros Hs Hp Hm Hout. destruct (root_level h R) as [Hr Hrl]. pose proof (level_range h R _ Hr) as Hmx. pose proof nthread_pos as Hnt.
  assert (I0 : dnst h pos nf out (fun t => level h t < 0) (px, m0s)).
  { split; auto. exists v0, (fun _ => v0), (fun _ => v0). split; auto. split; intros; auto; try (pose proof (level_range h R t H); lia); try (pose proof (level_range h R p H); lia).
    destruct (child_at h R p k H H0) as (_ & C & _). pose proof (level_range h R _ C). lia. }
  unfold down_sweep. assert (Ec : chol = true \/ chol = false) by (destruct chol; auto). destruct Ec as [Ec|Ec]; rewrite Ec.
  - unfold ch_down. rewrite root_at. cbn [bind].
    destruct (down_step h R HS pos HP nf Nn v0 out (fun t => level h t < 0) 0 (nn - 1) (px, m0s) (ch_root_node la u true (nn - 1) (px, m0s))) as (s1 & E1 & I1); auto; try lia.
    { intros v Hv. cbn [fst] in Hv. apply (ch_root_down la LA h chol u (nn - 1) (nf (nn - 1)) (pos (nn - 1))); auto; try lia.
        -- apply Ns; auto.
        -- apply (fo_r _ (Nf _ Hr)).
        -- now apply ps_range.
        -- now apply ps_inj.
        -- apply (fo_pm _ (Nf _ Hr)).
        -- rewrite Nr by auto. apply (rank_root h R HS _ Hr Hrl). }
    rewrite E1. cbn [bind].
    destruct (zfor_inv (fun k s => dnst h pos nf out (fun t => level h t < k) s) 1 (h_maxlevel h + 1)
      (fun i s => node_sweep h (fun tid node s => ch_down_node la u tid node s) (sd i) i s) s1) as (s2 & E2 & I2).
    + lia.
    + eapply (dnst_iff h R); [|exact I1]. intros x Hx. cbn beta. pose proof (level_range h R x Hx). split.
      * intros [->|]; lia.
      * intros. left. apply (level0_root h R); auto. lia.
    + intros k s Hk Is. apply (down_level h R HS pos HP nf Nn v0 out (fun tid node s => ch_down_node la u tid node s) sd k s Hs); auto; [lia|].
      intros tid t q ms v Ht Hl Htid Hv Hms. apply (ch_down_ok la LA h chol u t (nf t) (pos t)); auto; try lia.
      * apply Ns; auto.
      * apply (fo_r _ (Nf t Ht)).
      * now apply ps_range.
      * now apply ps_inj.
    + rewrite E2. exists s2. split; auto. eapply (dnst_iff h R); [|exact I2]. intros x Hx. cbn beta. pose proof (level_range h R x Hx). split; auto. lia.
  - unfold lu_down.
    destruct (zfor_inv (fun k s => dnst h pos nf out (fun t => level h t < k) s) 0 (h_maxlevel h + 1)
      (fun i s => node_sweep h (fun tid node s => lu_down_node la u i tid node s) (sd i) i s) (px, m0s)) as (s2 & E2 & I2).
    + lia.
    + auto.
    + intros k s Hk Is. apply (down_level h R HS pos HP nf Nn v0 out (fun tid node s => lu_down_node la u k tid node s) sd k s Hs); auto; [lia|].
      intros tid t q ms v Ht Hl Htid Hv Hms. rewrite <- Hl. apply (lu_down_ok la LA h chol u t (nf t) (pos t)); auto; try lia.
      * apply Ns; auto.
      * apply (fo_r _ (Nf t Ht)).
      * now apply ps_range.
      * now apply ps_inj.
    + rewrite E2. exists s2. split; auto. eapply (dnst_iff h R); [|exact I2]. intros x Hx. cbn beta. pose proof (level_range h R x Hx). split; auto. lia.
Qed.

Local Open Scope ring_K.
(** Both sweeps. *)
Lemma sweeps_ok su sd px m0s b : sweep_ok h su -> sweep_ok h sd -> pv h px b -> mok h m0s ->
  exists p1 m1 v1 p2 m2 x, up_sweep su (px, m0s) = Some (p1, m1) /\ mok h m1 /\ pv h p1 v1 /\ down_sweep sd (p1, m1) = Some (p2, m2) /\ mok h m2 /\ pv h p2 x /\
    forall p, 0 <= p < N -> rsum 0 N (fun q => Smat h shift p q * x q) = b p.
Proof.
  intros Hu Hd Hp Hm. destruct (up_ok su px m0s b Hu Hp Hm) as ([p1 m1] & E1 & M1 & v1 & inn & out & P1 & [U1 U2 U3 U4 U5 U6]). cbn [fst snd] in *.
  destruct (down_ok sd p1 m1 v1 out Hd P1 M1) as ([p2 m2] & E2 & M2 & x & w & z & P2 & [D1 D2 D3 D4 D5 D6]).
  { intros t i Ht Hi. apply U1; auto. }
  cbn [fst snd] in *. exists p1, m1, v1, p2, m2, x. split; auto. split; auto. split; auto. split; auto. split; auto. split; auto.
  apply (tree_solved h R HS shift nf Nn Nr Nf Nl b x inn out w z); intros; auto.
Qed.

(** Change of ordering. *)
Lemma to_pv b bv px : (forall i, 0 <= i < N -> ld b i = Some (bv i)) -> zlen px = N ->
  exists px', gather_vector_elements N (h_fwd h) b 0 px 0 = Some px' /\ pv h px' (fun p => bv (nthz (h_fwd h) p)).
Proof.
  intros Hb Zp. destruct (ro_pmt _ R) as (Z1 & Z2 & Hpm).
  assert (HN : 0 <= N). { destruct (root_level h R) as [Hr _]. pose proof (cluster_range h R _ Hr). lia. }
  destruct (gather_vector_spec N (h_fwd h) b px 0 0 bv N) as (d & E & Zd & G & _); auto; try lia.
  - intros i Hi. apply In_getz in Hi as (j & Hj). pose proof (getz_range _ _ _ Hj) as Hr. rewrite (getz_nthz _ j) in Hj by auto. injection Hj as <-. apply Hpm. lia.
  - exists d. split; auto. split; [lia|]. intros p Hpp. rewrite <- G by auto. reflexivity.
Qed.
Lemma from_pv px v x : pv h px v -> N <= zlen x ->
  exists x', gather_vector_elements N (h_bwd h) px 0 x 0 = Some x' /\ zlen x' = zlen x /\ (forall i, 0 <= i < N -> ld x' i = Some (v (nthz (h_bwd h) i))) /\ forall i, N <= i -> getz x' i = getz x i.
Proof.
  intros [Zp Hv] Zx. destruct (ro_pmt _ R) as (Z1 & Z2 & Hpm).
  assert (HN : 0 <= N). { destruct (root_level h R) as [Hr _]. pose proof (cluster_range h R _ Hr). lia. }
  destruct (gather_vector_spec N (h_bwd h) px x 0 0 v N) as (d & E & Zd & G & Fr); auto; try lia.
  - intros i Hi. apply In_getz in Hi as (j & Hj). pose proof (getz_range _ _ _ Hj) as Hr. rewrite (getz_nthz _ j) in Hj by auto. injection Hj as <-. apply Hpm. lia.
  - exists d. split; auto. split; [lia|]. split; [intros p Hpp; rewrite <- G by auto; reflexivity|]. intros i Hi. apply Fr. lia.
Qed.
Lemma user_system x b : (forall p, 0 <= p < N -> rsum 0 N (fun q => Smat h shift p q * x q) = b (nthz (h_fwd h) p)) ->
  forall i, 0 <= i < N -> rsum 0 N (fun j => Suser h shift i j * x (nthz (h_bwd h) j)) = b i.
Proof.
  intros H i Hi. destruct (ro_pmt _ R) as (_ & _ & Hpm). destruct (Hpm i Hi) as (_ & Hb & _ & Eb). transitivity (b (nthz (h_fwd h) (nthz (h_bwd h) i))); [|now rewrite Eb]. rewrite <- H by auto.
  rewrite <- (rsum_reindex (fun _ => true) (fun q => Smat h shift (nthz (h_bwd h) i) q * x q) (fun j => Suser h shift i j * x (nthz (h_bwd h) j)) 0 N 0 N (nthz (h_bwd h))).
  - reflexivity.
  - intros l Hl. split; [apply Hpm; auto|]. split; reflexivity.
  - intros q Hq _. exists (nthz (h_fwd h) q). split; [apply Hpm; auto|]. symmetry. apply Hpm; auto.
  - intros l l' Hl Hl' Eq. destruct (Hpm l Hl) as (_ & _ & _ & <-). rewrite Eq. apply Hpm; auto.
Qed.

Theorem solve_ok su sd px m0s b bv x : sweep_ok h su -> sweep_ok h sd -> zlen px = N -> mok h m0s -> (forall i, 0 <= i < N -> ld b i = Some (bv i)) -> N <= zlen x ->
  exists px' m0s' x' xv, ulv_solve la chol h true (Some u) 3 su sd px m0s b x = Some (px', m0s', x') /\ zlen px' = N /\ mok h m0s' /\
    zlen x' = zlen x /\ (forall i, 0 <= i < N -> ld x' i = Some (xv i)) /\ (forall i, N <= i -> getz x' i = getz x i) /\
    forall i, 0 <= i < N -> rsum 0 N (fun j => Suser h shift i j * xv j) = bv i.
Proof.
  intros Hu Hd Zp Hm Hb Zx. destruct (to_pv b bv px Hb Zp) as (p0 & E0 & P0).
  destruct (sweeps_ok su sd p0 m0s _ Hu Hd P0 Hm) as (p1 & m1 & v1 & p2 & m2 & xv & E1 & M1 & P1 & E2 & M2 & P2 & Hx).
  destruct (from_pv p2 xv x P2 Zx) as (x' & E3 & Z3 & H3 & F3).
  exists p2, m2, x', (fun i => xv (nthz (h_bwd h) i)). split.
  - unfold ulv_solve, up_sweep, down_sweep in *. cbn [negb]. change (Z.land 3 1 =? 0)%Z with false. change (Z.land 3 2 =? 0)%Z with false. change ((3 <? 1)%Z || (3 <? 3)%Z) with false. cbv iota. rewrite E0. cbn [bind].
    destruct chol; rewrite E1; cbn [bind]; rewrite E2; cbn [bind]; rewrite E3; reflexivity.
  - split; [apply P2|]. split; auto. split; auto. split; auto. split; auto. now apply user_system.
Qed.

(** The two halves of a solve compose. *)
Lemma pv_eq p p' v : pv h p v -> pv h p' v -> p = p'.
Proof.
  intros [Z1 H1] [Z2 H2]. apply getz_ext; [lia|]. intros i Hi. specialize (H1 i ltac:(lia)). specialize (H2 i ltac:(lia)). unfold ld in *.
  destruct (getz_in p i) as [c Ec]; [lia|]. destruct (getz_in p' i) as [c' Ec']; [lia|]. rewrite Ec in H1 |- *. rewrite Ec' in H2 |- *. destruct c, c'; congruence.
Qed.
Theorem solve_halves su sd px m0s b bv x y : sweep_ok h su -> sweep_ok h sd -> zlen px = N -> mok h m0s -> (forall i, 0 <= i < N -> ld b i = Some (bv i)) -> N <= zlen x -> N <= zlen y ->
  exists p1 m1 y1 p2 m2 x', ulv_solve la chol h true (Some u) 1 su sd px m0s b y = Some (p1, m1, y1) /\ ulv_solve la chol h true (Some u) 2 su sd p1 m1 y1 x = Some (p2, m2, x') /\
    ulv_solve la chol h true (Some u) 3 su sd px m0s b x = Some (p2, m2, x').
Proof.
  intros Hu Hd Zp Hm Hb Zx Zy. destruct (to_pv b bv px Hb Zp) as (p0 & E0 & P0).
  destruct (sweeps_ok su sd p0 m0s _ Hu Hd P0 Hm) as (p1 & m1 & v1 & p2 & m2 & xv & E1 & M1 & P1 & E2 & M2 & P2 & Hx).
  destruct (from_pv p1 v1 y P1 Zy) as (y1 & E4 & Z4 & H4 & _).
  destruct (to_pv y1 (fun i => v1 (nthz (h_bwd h) i)) p1 H4 ltac:(apply P1)) as (p1' & E5 & P5).
  assert (p1' = p1). { apply (pv_eq p1' p1 v1); auto. destruct P5 as [Z5 H5]. split; auto. intros p Hpp. rewrite H5 by auto. do 2 f_equal. destruct (ro_pmt _ R) as (_ & _ & Hpm). apply Hpm; auto. }
  subst p1'. destruct (from_pv p2 xv x P2 Zx) as (x' & E3 & Z3 & H3 & F3).
  exists p1, m1, y1, p2, m2, x'. unfold ulv_solve, up_sweep, down_sweep in *. cbn [negb]. change (Z.land 3 1 =? 0)%Z with false. change (Z.land 3 2 =? 0)%Z with false. change (Z.land 1 1 =? 0)%Z with false. change (Z.land 1 2 =? 0)%Z with true. change (Z.land 2 1 =? 0)%Z with true. change (Z.land 2 2 =? 0)%Z with false.
  change ((3 <? 1)%Z || (3 <? 3)%Z) with false. change ((1 <? 1)%Z || (3 <? 1)%Z) with false. change ((2 <? 1)%Z || (3 <? 2)%Z) with false. cbv iota. rewrite E0, E5. cbn [bind].
  destruct chol; rewrite E1, E2; cbn [bind]; rewrite ?E2; cbn [bind]; rewrite E3, E4; auto.
Qed.
End Main.
