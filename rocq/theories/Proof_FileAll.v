(** From what the reading proof delivers to the specification; block look-ups on
    the read handle. *)
From Coq Require Import ZArith QArith List Lia Bool Permutation Sorted.
From Verif Require Import Base Mem Num CRing Conc Model_Utils Spec_Utils Proof_Utils Model_Dense Spec_Dense Proof_Dense Proof_Dense3 Proof_Bucket Model_Partition Spec_Tree Spec_Partition
  Model_Pairs Spec_Pairs Model_Matvec Spec_Matvec Proof_MvTree Proof_MvTop Model_Build Spec_Build Proof_Build Proof_BuildTop Proof_BuildUse Model_Matmul Model_UJ Model_FileIO Proof_FileIO Proof_FileRead Proof_FileRead2 Proof_FileRead3 Proof_FileUse
  Spec_FileIO.
Import ListNotations.
Open Scope Z_scope.

(** Two increasing lists with the same members are equal. *)
Definition incr (ns : list Z) : Prop := forall k k' x y, 0 <= k < k' -> getz ns k = Some x -> getz ns k' = Some y -> x < y.
Lemma incr_tail a l : incr (a :: l) -> incr l /\ forall x, In x l -> a < x.
Proof.
  intros H. split.
  - intros k k' x y Hk E1 E2. apply (H (k + 1) (k' + 1) x y); [lia| |]; rewrite getz_cons by lia; [replace (k + 1 - 1) with k by lia|replace (k' + 1 - 1) with k' by lia]; auto.
  - intros x Hx. apply In_getz in Hx as (k & Hk). pose proof (getz_range _ _ _ Hk). apply (H 0 (k + 1) a x); [lia|reflexivity|]. rewrite getz_cons by lia. now replace (k + 1 - 1) with k by lia.
Qed.
Lemma incr_eq : forall l l', incr l -> incr l' -> (forall x, In x l <-> In x l') -> l = l'.
Proof.
  induction l as [|a l IH]; intros [|b l'] H1 H2 E; auto.
  - exfalso. apply (proj2 (E b)). now left.
  - exfalso. apply (proj1 (E a)). now left.
  - destruct (incr_tail _ _ H1) as (I1 & L1). destruct (incr_tail _ _ H2) as (I2 & L2).
    assert (a = b).
    { destruct (proj1 (E a) ltac:(now left)) as [|Ha]; [congruence|]. destruct (proj2 (E b) ltac:(now left)) as [|Hb]; [congruence|]. apply L1 in Hb. apply L2 in Ha. lia. }
    subst b. f_equal. apply IH; auto. intros x. split; intros Hx.
    + destruct (proj1 (E x) ltac:(now right)) as [<-|]; auto. apply L1 in Hx. lia.
    + destruct (proj2 (E x) ltac:(now right)) as [<-|]; auto. apply L2 in Hx. lia.
Qed.
Lemma lists_same tbl cnt tbl' cnt' cap row (f g : Z -> Prop) : (forall i, f i <-> g i) -> lists tbl cnt cap row f -> lists tbl' cnt' cap row g ->
  ld cnt row = ld cnt' row /\ forall n k, ld cnt' row = Some n -> 0 <= k < n -> ld tbl (row * cap + k) = ld tbl' (row * cap + k).
Proof.
  intros Hfg (ns & C1 & _ & L1 & I1 & S1) (ns' & C2 & _ & L2 & I2 & S2). assert (E : ns = ns') by (apply incr_eq; auto; intros x; rewrite I1, I2; auto). subst ns'.
  split; [congruence|]. intros n k En Hk. rewrite C2 in En. injection En as <-. rewrite L1, L2 by auto. reflexivity.
Qed.

Section All.
Context {F : num} {K : cring}.
Variables (h : h2rep F K) (f : sfields F) (js : Z -> list Z) (uc : Z -> Z -> F) (pi : Z -> Z).
Hypothesis R : rep_ok h.
Hypothesis HU : forall i U, getz (h_U h) i = Some U -> 0 <= dm_nrow U /\ (h_minlevel h <= level h i -> dm_ld U = dm_ncol U).
Hypothesis Hidx : forall i, 0 <= i < h_npoint h -> ld (sf_idx f) i = Some (pi i) /\ 0 <= pi i < h_npoint h.
Hypothesis Hco : forall j i, 0 <= j < h_ptdim h -> 0 <= i < h_npoint h -> ld (sf_coord f) (j * h_npoint h + i) = Some (uc (pi i) j).
Hypothesis HJ : zlen (sf_J f) = h_nnode h /\ forall i v, getz (sf_J f) i = Some v -> iv_holds v (js i).
Hypothesis Hjs : forall i x, 0 <= i < h_nnode h -> In x (js i) -> 0 <= x < h_npoint h.
Variables (nth : Z) (r : rfile F K) (tol : F).
Hypothesis C : contents h f js uc pi nth r tol.
Notation hr := (rf_h r).
Notation N := (h_nnode h).
Notation nB := (zlen (h_adm h)).
Notation nI := (zlen (h_inadm h)).
Notation nL := (h_nleaf h).

Lemma restored_of : restored h f tol r.
Proof.
  pose proof (nLn h R) as HL. pose proof (zlen_nonneg (h_inadm h)) as HI. pose proof (N_pos h R) as HN.
  destruct (c_dims _ _ _ _ _ _ _ _ C) as (E1 & E2 & E3 & E4 & E5 & E6 & E7 & E8 & E9 & E10). destruct (ro_dims _ R) as (D1 & D2 & D3 & D4 & D5 & D6).
  assert (Dfacts : forall k, 0 <= k < nL + nI -> Dnrow h k = msize h (dr h k) /\ Dncol h k = msize h (dc h k) /\ Dnrow hr k = msize h (dr h k) /\ Dncol hr k = msize h (dc h k)).
  { intros k Hk. destruct (f_Dsize h f js uc pi nth r tol C k Hk) as (Q1 & Q2). change (h_Dnrow (fixed h r)) with (h_Dnrow hr) in Q1. change (h_Dncol (fixed h r)) with (h_Dncol hr) in Q2. unfold Dnrow, Dncol. rewrite Q1, Q2. cbn [val].
    destruct (Z.lt_ge_cases k nL) as [Hl|Hl].
    - destruct (leaf_d h k ltac:(lia)) as (W1 & W2). destruct (ro_D0 _ R k ltac:(lia)) as (p & _ & -> & -> & _). rewrite W1, W2. auto.
    - destruct (getz_in (h_inadm h) (k - nL) ltac:(lia)) as [[n0 n1] G]. destruct (inadm_d h _ _ _ G) as (W1 & W2). replace (nL + (k - nL)) with k in * by lia. rewrite W1, W2.
      destruct (ro_D _ R _ _ _ G) as (p & _ & V1 & V2 & _). replace (nL + (k - nL)) with k in * by lia. rewrite V1, V2. auto. }
  constructor.
  - auto 12.
  - destruct (c_scal _ _ _ _ _ _ _ _ C) as (S1 & S2 & S3 & S4 & _). auto.
  - intros i Hi. destruct (cells h f js uc pi R nth r tol C i Hi) as (Q1 & Q2 & Q3 & Q4). destruct (f_mcl h f js uc pi R nth r tol C i Hi) as (M1 & M2).
    change (h_mcl (fixed h r)) with (h_mcl hr) in *. do 4 (split; [assumption|]). rewrite M1, M2, (ld_mfirst h R i Hi), (ld_mlast h R i Hi). do 2 (split; [reflexivity|]).
    split; [intros k Hk; now apply (row_cells h f js uc pi R nth r tol C)|]. intros Hr. destruct (ct_parent _ _ _ _ _ _ (ro_tree _ R) i ltac:(lia)) as (p & nc & k & P1 & P2 & P3 & P4 & P5). rewrite P1.
    assert (Hnc : nchild h p = nc) by (unfold nchild; now rewrite P3). assert (Hch : child h p k = i) by (unfold child; rewrite D4, P5; reflexivity).
    pose proof (tr_parent _ _ _ (c_tree _ _ _ _ _ _ _ _ C) p k ltac:(lia) ltac:(lia)) as T. cbn in T. rewrite Hch in T. exact T.
  - intros l Hl. apply (lists_same _ _ _ _ nL l (fun i => 0 <= i < N /\ ld (a_level (h_t hr)) i = Some l) (fun i => 0 <= i < N /\ ld (a_level (h_t h)) i = Some l)).
    + intros i. split; intros (Hi & E); split; auto; destruct (cells h f js uc pi R nth r tol C i Hi) as (_ & _ & Q & _); change (a_level (tfix h r)) with (a_level (h_t hr)) in Q; congruence.
    + now apply (c_levels _ _ _ _ _ _ _ _ C).
    + now apply (ct_levels _ _ _ _ _ _ (ro_tree _ R)).
  - intros k Hk. rewrite (c_leaves _ _ _ _ _ _ _ _ C k Hk). destruct (leaf_at h R k Hk) as (-> & _). reflexivity.
  - destruct (c_points _ _ _ _ _ _ _ _ C) as (P1 & P2 & _). split; [intros i Hi; rewrite P1 by auto; symmetry; now apply Hidx|]. intros j i Hj Hi. rewrite P2, Hco by auto. reflexivity.
  - exact (c_pmt _ _ _ _ _ _ _ _ C).
  - destruct (c_U _ _ _ _ _ _ _ _ C) as (ZU & GU). split; auto. intros i U EU. pose proof (getz_range _ _ _ EU) as Hi. destruct (ro_U _ R) as (ZU' & _). rewrite ZU' in Hi. destruct (GU i Hi) as (V & EV & V1 & V2 & V3 & V4 & V5 & V6).
    destruct (U_facts h R HU i Hi) as (U0 & EU0 & F1 & F2 & F3 & F4 & F5). assert (U0 = U) by congruence. subst U0. exists V. split; auto. rewrite V1, V2, V3, F1, F2. do 2 (split; auto). intros p c Hp Hc. rewrite V6 by auto. destruct (HU i U EU) as (_ & Hld).
    destruct (Z.lt_ge_cases (level h i) (h_minlevel h)) as [Hl|Hl]; [destruct (ro_U _ R) as (_ & G); destruct (G i U EU) as (G1 & _); specialize (G1 Hl); lia|]. rewrite (Hld Hl), F2. symmetry. now apply F5.
  - destruct (c_skel _ _ _ _ _ _ _ _ C) as (Z1 & _ & G). destruct HJ as (ZJ & GJ). split; auto. intros i v Ev. pose proof (getz_range _ _ _ Ev) as Hi. rewrite ZJ in Hi. destruct (G i Hi) as ((w & Ew & W1 & W2 & W3 & W4) & _). destruct (GJ i v Ev) as (_ & V2 & _ & V4).
    exists w. split; auto. split; [lia|]. intros k Hk. rewrite W4, V4 by lia. reflexivity.
  - destruct (c_skel _ _ _ _ _ _ _ _ C) as (_ & Z1 & G). destruct HJ as (ZJ & GJ). split; auto. intros i v Ev. pose proof (getz_range _ _ _ Ev) as Hi. rewrite ZJ in Hi. destruct (G i Hi) as (_ & (m & Em & W1 & W2 & W3 & W4 & W5)). destruct (GJ i v Ev) as (_ & V2 & _ & V4).
    exists m. split; auto. split; [lia|]. intros d k p Hd Hk Hp. rewrite W5 by lia. rewrite V4 in Hp by lia. rewrite (nthz_eq _ _ _ Hp). symmetry. apply Hco; auto. apply (Hjs i); auto. eapply getz_In; eauto.
  - exact (c_pairs _ _ _ _ _ _ _ _ C).
  - intros k Hk. destruct (f_Bsize h f js uc pi nth r tol C k Hk) as (Q1 & Q2). split; [exact Q1|]. split; [exact Q2|]. intros i j Hi Hj. exact (f_Bval h f js uc pi nth r tol C k i j Hk Hi Hj).
  - intros k Hk. destruct (Dfacts k Hk) as (-> & -> & -> & ->). do 2 (split; [reflexivity|]). intros i j Hi Hj. exact (f_Dval h f js uc pi nth r tol C k i j Hk Hi Hj).
  - destruct (c_bm _ _ _ _ _ _ _ _ C) as (MB & _). destruct (c_dm _ _ _ _ _ _ _ _ C) as (MD & _). destruct (c_B _ _ _ _ _ _ _ _ C) as (ZB & GB). destruct (c_D _ _ _ _ _ _ _ _ C) as (ZD & GD). split.
    + apply (slots_of _ _ _ _ _ _ _ (zlen_nonneg _) MB); [intros k Hk; destruct (adm_facts h R HU k Hk) as (_ & _ & _ & _ & _ & _ & _ & Q1 & Q2 & _); auto|rewrite (mo_total _ _ _ _ _ _ MB); auto|].
      intros k c Hk Hc. destruct (adm_facts h R HU k Hk) as (_ & _ & _ & _ & _ & _ & _ & Q1 & Q2 & _). destruct (rowcol c _ _ Q1 Q2 Hc) as (W1 & W2 & W3). exists (Bval h k (c / Bncol h k) (c mod Bncol h k)). rewrite W3 at 1. now apply GB.
    + apply (slots_of N (nL + nI) _ _ _ _ _ ltac:(lia) MD); [intros k Hk; destruct (d_facts h R k Hk) as (_ & _ & Q1 & Q2 & _); lia|rewrite (mo_total _ _ _ _ _ _ MD); auto|].
      intros k c Hk Hc. destruct (d_facts h R k Hk) as (_ & _ & Q1 & Q2 & _). destruct (rowcol c (msize h (dr h k)) (msize h (dc h k)) ltac:(lia) ltac:(lia) Hc) as (W1 & W2 & W3). exists (Dval h k (c / msize h (dc h k)) (c mod msize h (dc h k))). rewrite W3 at 1. now apply GD.
Qed.

Lemma lookups_of : lookups_restored h r.
Proof.
  intros eval out Ho. pose proof (nLn h R) as HL. pose proof (zlen_nonneg (h_inadm h)) as HI. pose proof (zlen_nonneg (h_adm h)) as HA.
  destruct (c_bm _ _ _ _ _ _ _ _ C) as (MB & _). destruct (c_dm _ _ _ _ _ _ _ _ C) as (MD & _). destruct (c_B _ _ _ _ _ _ _ _ C) as (ZB & GB). destruct (c_D _ _ _ _ _ _ _ _ C) as (ZD & GD).
  assert (Bnn : forall k, 0 <= k < nB -> 0 <= Bnrow h k /\ 0 <= Bncol h k) by (intros k Hk; destruct (adm_facts h R HU k Hk) as (_ & _ & _ & _ & _ & _ & _ & Q1 & Q2 & _); auto).
  assert (Dnn : forall k, 0 <= k < nL + nI -> 0 <= msize h (dr h k) /\ 0 <= msize h (dc h k)) by (intros k Hk; destruct (d_facts h R k Hk) as (_ & _ & Q1 & Q2 & _); lia).
  set (bcell := fun k c => Bval h k (c / Bncol h k) (c mod Bncol h k)). set (dcell := fun k c => Dval h k (c / msize h (dc h k)) (c mod msize h (dc h k))).
  assert (Bdat : forall k c, 0 <= k < nB -> 0 <= c < Bnrow h k * Bncol h k -> ld (h_Bdata hr) (zsumf (fun k => Bnrow h k * Bncol h k) 0 k + c) = Some (bcell k c)).
  { intros k c Hk Hc. destruct (Bnn k Hk) as (Q1 & Q2). destruct (rowcol c _ _ Q1 Q2 Hc) as (W1 & W2 & W3). rewrite W3 at 1. now apply GB. }
  assert (Ddat : forall k c, 0 <= k < nL + nI -> 0 <= c < msize h (dr h k) * msize h (dc h k) -> ld (h_Ddata hr) (zsumf (fun k => msize h (dr h k) * msize h (dc h k)) 0 k + c) = Some (dcell k c)).
  { intros k c Hk Hc. destruct (Dnn k Hk) as (Q1 & Q2). destruct (rowcol c _ _ Q1 Q2 Hc) as (W1 & W2 & W3). rewrite W3 at 1. now apply GD. }
  assert (Bc : forall k i j, 0 <= j < Bncol h k -> bcell k (i * Bncol h k + j) = Bval h k i j).
  { intros k i j Hj. unfold bcell. rewrite (Z.add_comm (i * _)), Z.div_add, Z.mod_add, Z.div_small, Z.mod_small by lia. now rewrite Z.add_0_l. }
  assert (Dc : forall k i j, 0 <= j < msize h (dc h k) -> dcell k (i * msize h (dc h k) + j) = Dval h k i j).
  { intros k i j Hj. unfold dcell. rewrite (Z.add_comm (i * _)), Z.div_add, Z.mod_add, Z.div_small, Z.mod_small by lia. now rewrite Z.add_0_l. }
  (* no regeneration: the evaluation does not matter *)
  assert (NoEv : forall m data n0 n1 eval', get_block eval m data false n0 n1 out = get_block eval' m data false n0 n1 out) by reflexivity.
  pose (evB := fun k (_ _ : Z) (mat : mem K) (_ : Z) => Some (map (fun c => Some (bcell k c)) (zrange 0 (Bnrow h k * Bncol h k)))).
  pose (evD := fun k (_ _ : Z) (mat : mem K) (_ : Z) => Some (map (fun c => Some (dcell k c)) (zrange 0 (msize h (dr h k) * msize h (dc h k))))).
  assert (Fl : forall n (g : Z -> K), forall c, 0 <= c < n -> ld (map (fun c => Some (g c)) (zrange 0 n)) c = Some (g c)).
  { intros n g c Hc. rewrite ld_getz, getz_map, getz_zrange by lia. cbn [option_map]. now rewrite Z.add_0_l. }
  split; [|split; [|split; [|split]]].
  - intros k n0 n1 G. pose proof (getz_range _ _ _ G) as Hk. destruct (In_pair_entries 0 (h_adm h) nB k n0 n1 ltac:(lia) Hk G) as (I1 & I2). rewrite Z.add_0_l in I1, I2. split.
    + destruct (get_spec (evB k) _ _ _ _ _ _ _ bcell MB Bnn Bdat ltac:(rewrite (mo_total _ _ _ _ _ _ MB); auto) k n0 n1 (k + 1) false out Hk I1 ltac:(auto) Ho) as (o & Eo & V1 & V2 & V3 & V4).
      * intros mat Hm. eexists. split; [reflexivity|]. intros c Hc. now apply Fl.
      * exists o. split; [rewrite (NoEv _ _ _ _ (evB k)); exact Eo|]. destruct (Z.ltb_spec (k + 1) 0); [lia|]. do 3 (split; auto). intros i j Hi Hj. rewrite V4, Bc; auto.
    + destruct (get_spec (evB k) _ _ _ _ _ _ _ bcell MB Bnn Bdat ltac:(rewrite (mo_total _ _ _ _ _ _ MB); auto) k n1 n0 (- (k + 1)) false out Hk I2 ltac:(auto) Ho) as (o & Eo & V1 & V2 & V3 & V4).
      * intros mat Hm. eexists. split; [reflexivity|]. intros c Hc. now apply Fl.
      * exists o. split; [rewrite (NoEv _ _ _ _ (evB k)); exact Eo|]. destruct (Z.ltb_spec (- (k + 1)) 0); [|lia]. do 3 (split; auto). intros i j Hi Hj. rewrite V4, Bc; auto.
  - intros n0 n1 Hn N1 N2. apply (get_none _ _ _ _ _ _ _ _ MB); auto. intros v Hin. apply pair_entries_In in Hin as (k & Hk & [[G _]|[G _]]); [apply N1|apply N2|lia]; eapply getz_In; eauto.
  - intros k n0 n1 G. pose proof (getz_range _ _ _ G) as Hk. destruct (In_pair_entries nL (h_inadm h) nI k n0 n1 ltac:(lia) Hk G) as (I1 & I2). destruct (inadm_d h k n0 n1 G) as (W1 & W2). split.
    + destruct (get_spec (evD (nL + k)) _ _ _ _ _ _ _ dcell MD Dnn Ddat ltac:(rewrite (mo_total _ _ _ _ _ _ MD); auto) (nL + k) n0 n1 (nL + k + 1) false out ltac:(lia) ltac:(apply in_or_app; auto) ltac:(auto) Ho) as (o & Eo & V1 & V2 & V3 & V4).
      * intros mat Hm. eexists. split; [reflexivity|]. intros c Hc. now apply Fl.
      * exists o. split; [rewrite (NoEv _ _ _ _ (evD (nL + k))); exact Eo|]. destruct (Z.ltb_spec (nL + k + 1) 0); [lia|]. rewrite W1 in *. rewrite W2 in *. do 3 (split; auto). intros i j Hi Hj. rewrite V4 by auto. rewrite <- W2 at 1. rewrite Dc; auto. now rewrite W2.
    + destruct (get_spec (evD (nL + k)) _ _ _ _ _ _ _ dcell MD Dnn Ddat ltac:(rewrite (mo_total _ _ _ _ _ _ MD); auto) (nL + k) n1 n0 (- (nL + k + 1)) false out ltac:(lia) ltac:(apply in_or_app; auto) ltac:(auto) Ho) as (o & Eo & V1 & V2 & V3 & V4).
      * intros mat Hm. eexists. split; [reflexivity|]. intros c Hc. now apply Fl.
      * exists o. split; [rewrite (NoEv _ _ _ _ (evD (nL + k))); exact Eo|]. destruct (Z.ltb_spec (- (nL + k + 1)) 0); [|lia]. rewrite W1 in *. rewrite W2 in *. do 3 (split; auto). intros i j Hi Hj. rewrite V4 by auto. rewrite <- W2 at 1. rewrite Dc; auto. now rewrite W2.
  - intros k Hk. destruct (leaf_d h k Hk) as (W1 & W2).
    assert (I1 : In (leaf h k, leaf h k, k + 1) (leaf_entries (leaf h) nL)) by (unfold leaf_entries; apply in_map_iff; exists k; split; auto; apply In_zrange; lia).
    destruct (get_spec (evD k) _ _ _ _ _ _ _ dcell MD Dnn Ddat ltac:(rewrite (mo_total _ _ _ _ _ _ MD); auto) k (leaf h k) (leaf h k) (k + 1) false out ltac:(lia) ltac:(apply in_or_app; auto) ltac:(auto) Ho) as (o & Eo & V1 & V2 & V3 & V4).
    + intros mat Hm. eexists. split; [reflexivity|]. intros c Hc. now apply Fl.
    + exists o. split; [rewrite (NoEv _ _ _ _ (evD k)); exact Eo|]. destruct (Z.ltb_spec (k + 1) 0); [lia|]. rewrite W1 in *. rewrite W2 in *. do 3 (split; auto). intros i j Hi Hj. rewrite V4 by auto. rewrite <- W2 at 1. rewrite Dc; auto. now rewrite W2.
  - intros n0 n1 Hn N1 N2 N3. apply (get_none _ _ _ _ _ _ _ _ MD); auto. intros v Hin. apply in_app_or in Hin as [Hin|Hin].
    + unfold leaf_entries in Hin. apply in_map_iff in Hin as (k & E & Hk). apply In_zrange in Hk. injection E as <- <- <-. apply N3. split; auto. exists k. auto.
    + apply pair_entries_In in Hin as (k & Hk & [[G _]|[G _]]); [apply N1|apply N2|lia]; eapply getz_In; eauto.
Qed.
End All.
