(** Proofs for Model_UJ.v: the result does not depend on who did what when. *)
From Coq Require Import ZArith QArith List Lia Bool Permutation FunctionalExtensionality.
From Verif Require Import Base Mem Num FNum Conc Model_Utils Spec_Utils Proof_Utils Model_Dense Spec_Dense Proof_Dense Model_Partition Spec_Tree Spec_Pairs Spec_Matvec
  Model_Build Spec_Build Proof_Build Model_ID Spec_ID Proof_IDQR Proof_IDQRk Proof_IDIndex Proof_IDSolve Proof_IDFinal Model_UJ Spec_UJ Proof_UJ Proof_UJNode Proof_UJSweep.
Import ListNotations.
Open Scope Z_scope.

(** Sorting the first r images of an injection leaves no choice. *)
Lemma sorted_unique r (p s s' : Z -> Z) :
  (forall c, 0 <= c < r -> 0 <= s c < r) -> (forall c, 0 <= c < r -> 0 <= s' c < r) ->
  (forall c d, 0 <= c < r -> 0 <= d < r -> s c = s d -> c = d) -> (forall c d, 0 <= c < r -> 0 <= d < r -> s' c = s' d -> c = d) ->
  (forall c d, 0 <= c < r -> 0 <= d < r -> p c = p d -> c = d) ->
  (forall c d, 0 <= c < d -> d < r -> p (s c) < p (s d)) -> (forall c d, 0 <= c < d -> d < r -> p (s' c) < p (s' d)) ->
  forall k, 0 <= k < r -> s k = s' k.
Proof.
  intros S1 S2 I1 I2 Ip L1 L2 k [Hk0 Hk]. revert Hk. pattern k. apply Zlt_0_ind; auto. clear k Hk0. intros k IH Hk0 Hk.
  assert (W : forall s s', (forall c, 0 <= c < r -> 0 <= s c < r) -> (forall c, 0 <= c < r -> 0 <= s' c < r) -> (forall c d, 0 <= c < r -> 0 <= d < r -> s c = s d -> c = d) ->
    (forall c d, 0 <= c < r -> 0 <= d < r -> s' c = s' d -> c = d) -> (forall c d, 0 <= c < d -> d < r -> p (s' c) < p (s' d)) -> (forall y, 0 <= y < k -> s y = s' y) -> ~ p (s k) < p (s' k)).
  { clear - Hk Hk0. intros s s' S1 S2 I1 I2 L2 IH Hlt. destruct (perm_on_surj r s' (s k) (conj S2 I2) (S1 k ltac:(lia))) as (c & Hc & Ec).
    destruct (Z.lt_trichotomy c k) as [Hl|[->|Hl]]; [|rewrite Ec in Hlt; lia|pose proof (L2 k c ltac:(lia) ltac:(lia)); rewrite Ec in *; lia].
    rewrite <- IH in Ec by lia. apply I1 in Ec; lia. }
  assert (IH' : forall y, 0 <= y < k -> s y = s' y) by (intros y Hy; apply IH; lia).
  pose proof (W s s' S1 S2 I1 I2 L2 IH') as W1. pose proof (W s' s S2 S1 I2 I1 L1 (fun y Hy => eq_sym (IH' y Hy))) as W2.
  apply Ip; auto; lia.
Qed.

Lemma tri_unique {F : fnum} (M : Z -> Z -> F) r c e e' : (forall k, 0 <= k < r -> tri_row M r c e k) -> (forall k, 0 <= k < r -> tri_row M r c e' k) -> forall k, 0 <= k < r -> e k = e' k.
Proof.
  intros H H' k Hk. assert (X : forall t, 0 <= t -> forall k, 0 <= k < r -> r - 1 - t <= k -> e k = e' k); [|apply (X (r - 1 - k)); lia]. clear k Hk.
  intros t Ht. pattern t. apply Zlt_0_ind; auto. clear t Ht. intros t IH Ht k Hk Hk'.
  pose proof (H k Hk) as H1. pose proof (H' k Hk) as H2. unfold tri_row in H1, H2.
  assert (Em : map (fun l => e (k + 1 + l)) (zrange 0 (r - 1 - k)) = map (fun l => e' (k + 1 + l)) (zrange 0 (r - 1 - k))).
  { apply map_ext_in. intros l Hl. apply In_zrange in Hl. apply (IH (t - 1)); lia. }
  rewrite Em, H2 in H1. congruence.
Qed.

(** ** Several rows per point: the block factorisation leaves no choice either *)
Section Block.
Context {F : fnum}.
Variables (dbl : bool) (kdim nrow ncol : Z).

Lemma hsteps_det (M : Z -> Z -> F) B b Mb V : hsteps kdim nrow M B b Mb V -> forall Mb' V', hsteps kdim nrow M B b Mb' V' -> Mb = Mb' /\ forall b' j, 0 <= b' < b -> V b' j = V' b' j.
Proof.
  induction 1 as [V|b Mb V inv H IH Hb x Hinv v d]; intros Mb' V' H'.
  - inversion H' as [V0|b1 Mb1 V1 inv1 H1 Hb1]; subst; [|lia]. split; auto. intros; lia.
  - inversion H' as [V0|b1 Mb1 V1 inv1 H1 Hb1 x1 Hinv1 v1 d1 Eb Em Ev]; subst; [lia|]. assert (b1 = b) by lia. subst b1. destruct (IH _ _ H1) as [<- HV].
    assert (inv1 = inv) by (unfold x, x1 in *; congruence). subst inv1. split; auto. intros b' j Hb'. destruct (Z.eqb_spec b' b); auto. apply HV. lia.
Qed.

Lemma wrel_det n (V V' W W' : Z -> Z -> F) k : (forall b j, 0 <= b < k -> V b j = V' b j) -> (forall b, 0 <= b < k -> wrel n V W b) -> (forall b, 0 <= b < k -> wrel n V' W' b) ->
  forall b j, 0 <= b < k -> 0 <= j < n -> W b j = W' b j.
Proof.
  intros HV HW HW' b j [Hb0 Hb]. revert j Hb. pattern b. apply Zlt_0_ind; auto. clear b Hb0. intros b IH Hb0 j Hb Hj.
  rewrite (HW b ltac:(lia) j Hj), (HW' b ltac:(lia) j Hj). rewrite !HV by lia. destruct (b =? 0); auto. do 3 f_equal.
  - apply map_ext_in. intros l Hl. apply In_zrange in Hl. apply IH; lia.
  - apply map_ext_in. intros l Hl. apply In_zrange in Hl. f_equal; apply map_ext; intros; apply HV; lia.
Qed.

Lemma fk_step_det nblk sr (sn : F) i s s1 s2 : fk_step dbl kdim nrow nblk sr sn i s s1 -> fk_step dbl kdim nrow nblk sr sn i s s2 -> s1 = s2.
Proof.
  intros [X|X1 X2|Mk V W X1 X2 M bn Hs Hw M' bn' pv] [Y|Y1 Y2|Mk1 V1 W1 Y1 Y2 N bn1 Hs1 Hw1 N' bn1' pv1]; try congruence; auto.
  destruct (hsteps_det _ _ _ _ _ Hs _ _ Hs1) as [E HV]. subst Mk1.
  pose proof (wrel_det _ _ _ _ _ kdim HV Hw Hw1) as HW.
  assert (EM : M' = N').
  { apply functional_extensionality. intros r. apply functional_extensionality. intros q. unfold M', N', blkupd. destruct ((q <? i * kdim + kdim) || (r <? i * kdim)); auto. f_equal. f_equal.
    - apply map_ext_in. intros l Hl. apply In_zrange in Hl. apply HV. lia.
    - apply map_ext_in. intros l Hl. apply In_zrange in Hl. f_equal. apply map_ext_in. intros j Hj. apply In_zrange in Hj. apply HW; lia. }
  unfold pv, pv1, bn', bn1'. rewrite EM. reflexivity.
Qed.

Lemma fk_reach_det nblk sr (sn : F) A k s : fk_reach dbl kdim nrow ncol nblk sr sn A k s -> forall s', fk_reach dbl kdim nrow ncol nblk sr sn A k s' -> s = s'.
Proof.
  induction 1 as [|i s s' H IH Hi Hs]; intros s2 H2.
  - inversion H2 as [|i1 z z' H1 Hi1]; subst; auto. lia.
  - inversion H2 as [|i1 z z' H1 Hi1 Hs1 Ei]; subst; [lia|]. assert (i1 = i) by lia. subst i1. rewrite (IH _ H1) in Hs. eapply fk_step_det; eauto.
Qed.
End Block.

Lemma origin_det {F : fnum} dbl (stp : @stop F) kdim m n nblk A M p r M' p' r' : origin dbl stp kdim m n nblk A M p r -> origin dbl stp kdim m n nblk A M' p' r' -> M = M' /\ p = p' /\ r = r'.
Proof.
  unfold origin. destruct (stop_params stp kdim (Z.min m n)) as ((tr & tn) & rel). intros [(K & z & E1 & -> & -> & ->)|(K & z & E1 & -> & -> & ->)] [(K' & z' & E1' & -> & -> & ->)|(K' & z' & E1' & -> & -> & ->)]; try lia.
  - rewrite E1 in E1'. injection E1' as <-. auto.
  - rewrite (fk_reach_det _ _ _ _ _ _ _ _ _ _ E1 _ E1'). auto.
Qed.

(** The decomposition is a function of the matrix. *)
Lemma id_out_det {F : fnum} dbl (stp : @stop F) kdim nblk m n a sk u sk' u' : 1 <= kdim -> 0 <= m -> 0 <= nblk -> n = nblk * kdim -> increasing sk -> increasing sk' ->
  id_out dbl stp kdim m n nblk a sk u -> id_out dbl stp kdim m n nblk a sk' u' -> sk = sk' /\ forall i k, 0 <= i < n -> 0 <= k < zlen sk * kdim -> u i k = u' i k.
Proof.
  intros Hk Hm Hnb En Inc Inc' [M p s q E r Org Pp Ps Shi Slo Qi Qr Sk Uv Tri] [M' p' s' q' E' r' Org' Pp' Ps' Shi' Slo' Qi' Qr' Sk' Uv' Tri'].
  pose proof (origin_struct dbl stp kdim m n nblk _ M p r ltac:(lia) Hm Hnb En Org) as (_ & _ & Hr & _).
  destruct (origin_det _ _ _ _ _ _ _ _ _ _ _ _ _ Org Org') as (<- & <- & Er). assert (Ez : zlen sk = zlen sk') by (apply (Z.mul_reg_r _ _ kdim); [lia|exact Er]).
  assert (Minc : forall l, increasing l -> forall x y, 0 <= x < y -> y < zlen l * kdim -> skrow kdim l x < skrow kdim l y).
  { clear - Hk. intros l Il x y Hx Hy. unfold skrow. pose proof (Z.mod_pos_bound x kdim ltac:(lia)). pose proof (Z.mod_pos_bound y kdim ltac:(lia)). pose proof (Z.div_mod x kdim ltac:(lia)). pose proof (Z.div_mod y kdim ltac:(lia)).
    assert (Hd : x / kdim <= y / kdim) by (apply Z.div_le_mono; lia). assert (y / kdim < zlen l) by (apply Z.div_lt_upper_bound; lia). assert (0 <= x / kdim) by (apply Z.div_pos; lia).
    destruct (Z.eq_dec (x / kdim) (y / kdim)) as [Ed|Nd]; [rewrite Ed in *; lia|]. pose proof (Il (x / kdim) (y / kdim) ltac:(lia) ltac:(lia)).
    assert ((nthz l (x / kdim) + 1) * kdim <= nthz l (y / kdim) * kdim) by (apply Z.mul_le_mono_nonneg_r; lia). lia. }
  assert (Ss : forall k, 0 <= k < r -> s k = s' k).
  { apply (sorted_unique r p); auto.
    - intros c Hc. rewrite Er. apply Slo'. fold r'. lia.
    - intros c d Hc Hd. apply Ps; lia.
    - intros c d Hc Hd. apply Ps'; lia.
    - intros c d Hc Hd. apply Pp; lia.
    - intros c d Hc Hd. rewrite <- !Sk by (fold r; lia). apply Minc; auto.
    - intros c d Hc Hd. rewrite <- !Sk' by (fold r'; lia). apply Minc; auto. unfold r in *. lia. }
  assert (Esk : sk = sk').
  { apply getz_ext; auto. intros k Hk'. assert (B : 0 <= k * kdim < zlen sk * kdim) by (split; [apply Z.mul_nonneg_nonneg; lia|apply Z.mul_lt_mono_pos_r; lia]).
    assert (Es : skrow kdim sk (k * kdim) = skrow kdim sk' (k * kdim)) by (rewrite Sk, Sk' by (fold r r'; lia); f_equal; apply Ss; auto).
    unfold skrow in Es. rewrite Z.div_mul, Z.mod_mul, !Z.add_0_r in Es by lia. apply Z.mul_reg_r in Es; [|lia]. rewrite !getz_nthz by lia. congruence. }
  split; auto. intros i k Hi Hk'. assert (0 < zlen sk) by (destruct (Z.le_gt_cases (zlen sk) 0); auto; assert (zlen sk * kdim <= 0 * kdim) by (apply Z.mul_le_mono_nonneg_r; lia); lia).
  rewrite Uv, Uv' by (try lia; fold r r'; lia). rewrite <- Er.
  assert (Eq : q i = q' i).
  { destruct (perm_on_surj n p i Pp Hi) as (c1 & Hc1 & <-). destruct (perm_on_surj n s c1 Ps Hc1) as (c & Hc & <-).
    rewrite Qi by auto. assert (s c = s' c) as ->. { destruct (Z_lt_le_dec c r); [apply Ss; lia|]. rewrite Shi, Shi' by (fold r r'; lia). reflexivity. } now rewrite Qi'. }
  unfold U_entry. rewrite <- Eq. fold r. destruct (Z.ltb_spec (q i) r) as [Hq|Hq]; auto. rewrite <- (Ss k) by (unfold r; lia).
  pose proof (Qr i Hi). apply (tri_unique M r (q i) (fun l => E l (q i)) (fun l => E' l (q i))).
  - intros l Hl. apply Tri; auto; lia.
  - intros l Hl. rewrite Er. apply Tri'; fold r'; lia.
  - apply Slo. auto.
Qed.

(** Two results of the sweep. *)
Section Det.
Context {F : num} {E : fnum}.
Variable kern : list F -> list F -> Z -> Z -> E.
Variable c : uctx F E.
Variables n_node max_level n_leaf minlevel : Z.
Hypothesis UI : uj_input c n_node max_level n_leaf minlevel.
Variable Q : Z -> list Z -> list Z -> (Z -> Z -> E) -> Prop.
Notation a := (c_t c).
Hypothesis Qdet : forall i ps sk u sk' u', 0 <= i < n_node -> increasing sk -> increasing sk' -> Q i ps sk u -> Q i ps sk' u' ->
  sk = sk' /\ forall r q, 0 <= r < zlen ps * c_kdim c -> 0 <= q < zlen sk * c_kdim c -> u r q = u' r q.

Lemma same_result U J Jc js U' J' Jc' js' :
  skeletons_ok (c_ptdim c) (c_dim c) (c_kdim c) (c_npoint c) n_node minlevel (c_coord c) a U J Jc js ->
  skeletons_ok (c_ptdim c) (c_dim c) (c_kdim c) (c_npoint c) n_node minlevel (c_coord c) a U' J' Jc' js' ->
  (forall i, 0 <= i < n_node -> lev a i < minlevel -> js i = []) -> (forall i, 0 <= i < n_node -> lev a i < minlevel -> js' i = []) ->
  (forall i V, getz U i = Some V -> minlevel <= lev a i -> basis_of c js i V Q) -> (forall i V, getz U' i = Some V -> minlevel <= lev a i -> basis_of c js' i V Q) ->
  forall i, 0 <= i < n_node -> js i = js' i /\ forall V V', getz U i = Some V -> getz U' i = Some V' -> minlevel <= lev a i -> same_mat V V'.
Proof.
  intros S S' L L' B B'. destruct S as [(ZU & _) _ _ _ _]. destruct S' as [(ZU' & _) _ _ _ _]. destruct UI as [(D1 & D2 & D3) CT _ _ _].
  assert (IH : forall d, 0 <= d -> forall i, 0 <= i < n_node -> max_level - lev a i < d -> js i = js' i /\ forall V V', getz U i = Some V -> getz U' i = Some V' -> minlevel <= lev a i -> same_mat V V').
  { intros d Hd. pattern d. apply natlike_ind; auto; clear d Hd.
    - intros i Hi Hl. destruct (node_facts c n_node max_level n_leaf minlevel UI i Hi) as (s & h & nc & _ & _ & _ & _ & X & _). lia.
    - intros d Hd IH i Hi Hl. destruct (Z_lt_le_dec (lev a i) minlevel) as [Hm|Hm]; [rewrite L, L' by auto; split; auto; intros; lia|].
      destruct (getz_in U i ltac:(lia)) as [V EV]. destruct (getz_in U' i ltac:(lia)) as [V' EV'].
      assert (Ep : node_pts a (c_ptdim c) js i = node_pts a (c_ptdim c) js' i).
      { unfold node_pts. destruct (Z.eqb_spec (nch a i) 0) as [|Hnc]; auto. assert (X : forall k, In k (zrange 0 (nch a i)) -> js (chd a (c_ptdim c) i k) = js' (chd a (c_ptdim c) i k)).
        { intros k Hk. apply In_zrange in Hk. destruct (child_facts c n_node max_level n_leaf minlevel UI i Hi Hnc k Hk) as (_ & Hc & El & _). apply IH; lia. }
        revert X. clear. induction (zrange 0 (nch a i)); cbn; auto. intros X. rewrite X by now left. f_equal. apply IHl. intros; apply X. now right. }
      destruct (B i V EV Hm) as (sk & u & J1 & H1 & (K1 & _) & Q1). destruct (B' i V' EV' Hm) as (sk' & u' & J1' & H1' & (K1' & _) & Q1'). rewrite <- Ep in *.
      destruct (Qdet i _ sk u sk' u' Hi K1 K1' Q1 Q1') as [<- Hu]. split; [congruence|]. intros W W' EW EW' _. rewrite EV in EW. injection EW as <-. rewrite EV' in EW'. injection EW' as <-.
      destruct H1 as (_ & R1 & C1 & _ & G1). destruct H1' as (_ & R1' & C1' & _ & G1'). unfold same_mat. rewrite R1, R1', C1, C1'. split; auto. split; auto. intros r q Hr Hq. rewrite G1, G1' by auto. f_equal. auto. }
  intros i Hi. destruct (node_facts c n_node max_level n_leaf minlevel UI i Hi) as (s & h & nc & _ & _ & _ & _ & X & _). apply (IH (max_level - lev a i + 1)); lia.
Qed.

(** A run that left a node without skeleton, and one that did not. *)
Lemma same_empty U J Jc js js' l i :
  skeletons_ok (c_ptdim c) (c_dim c) (c_kdim c) (c_npoint c) n_node minlevel (c_coord c) a U J Jc js ->
  (forall i V, getz U i = Some V -> minlevel <= lev a i -> basis_of c js i V Q) ->
  (forall j, In j l -> 0 <= j < n_node /\ minlevel <= lev a j /\ (exists V, basis_of c js' j V Q) /\ forall k, 0 <= k < nch a j -> In (chd a (c_ptdim c) j k) l) ->
  In i l -> js' i <> [].
Proof.
  intros S B Hl Hi. destruct UI as [(D1 & D2 & D3) CT _ _ _]. destruct S as [(ZU & _) _ _ _ SU].
  assert (IH : forall d, 0 <= d -> forall i, In i l -> max_level - lev a i < d -> js i = js' i).
  { intros d Hd. pattern d. apply natlike_ind; auto; clear d Hd.
    - intros j Hj Hlv. destruct (Hl j Hj) as (Hr & _). destruct (node_facts c n_node max_level n_leaf minlevel UI j Hr) as (s & h & nc & _ & _ & _ & _ & X & _). lia.
    - intros d Hd IH j Hj Hlv. destruct (Hl j Hj) as (Hr & Hm & (V' & sk' & u' & J1' & H1' & (K1' & _) & Q1') & Hch). destruct (getz_in U j ltac:(lia)) as [V EV].
      destruct (B j V EV Hm) as (sk & u & J1 & H1 & (K1 & _) & Q1).
      assert (Ep : node_pts a (c_ptdim c) js j = node_pts a (c_ptdim c) js' j).
      { unfold node_pts. destruct (Z.eqb_spec (nch a j) 0) as [|Hnc]; auto. assert (X : forall k, In k (zrange 0 (nch a j)) -> js (chd a (c_ptdim c) j k) = js' (chd a (c_ptdim c) j k)).
        { intros k Hk. apply In_zrange in Hk. destruct (child_facts c n_node max_level n_leaf minlevel UI j Hr Hnc k Hk) as (_ & Hc & El & _). apply IH; auto; lia. }
        revert X. clear. induction (zrange 0 (nch a j)); cbn; auto. intros X. rewrite X by now left. f_equal. apply IHl. intros; apply X. now right. }
      rewrite Ep in *. destruct (Qdet j _ sk u sk' u' Hr K1 K1' Q1 Q1') as [<- _]. congruence. }
  destruct (Hl i Hi) as (Hr & Hm & _). rewrite <- (IH (max_level - lev a i + 1)); auto; try lia.
  - destruct (getz_in U i ltac:(lia)) as [V EV]. destruct (SU i V EV) as [_ X]. specialize (X Hm). intros E0. rewrite E0 in X. change (zlen []) with 0 in X. lia.
  - destruct (node_facts c n_node max_level n_leaf minlevel UI i Hr) as (s & h & nc & _ & _ & _ & _ & X & _). lia.
Qed.
End Det.
