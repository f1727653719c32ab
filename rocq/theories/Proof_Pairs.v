(** Proofs about the block partition. *)
From Coq Require Import ZArith QArith List Lia Bool.
From Verif Require Import Base Mem Num Model_Partition Spec_Tree Model_Pairs Spec_Pairs Spec_Utils Proof_Utils.
Import ListNotations.
Open Scope Z_scope.

(** ** Loops that append to a list *)
Lemma zfor_acc {A X : Type} (g : Z -> list A -> option (list A)) (Q : Z -> A -> Prop) (R : X -> Prop)
    (mu : list A -> X -> Z) (C : Z -> X -> Z) :
  (forall x, mu [] x = 0) -> (forall l m x, mu (l ++ m) x = mu l x + mu m x) ->
  forall lo hi, lo <= hi ->
  (forall i l, lo <= i < hi -> exists m, g i l = Some (l ++ m) /\ (forall ev, In ev m -> Q i ev) /\ forall x, R x -> mu m x = C i x) ->
  forall l0, exists m, zfor lo hi g l0 = Some (l0 ++ m) /\ (forall ev, In ev m -> exists i, lo <= i < hi /\ Q i ev) /\
    forall x, R x -> mu m x = zsumf (fun i => C i x) lo hi.
Proof.
  intros M0 M1 lo hi Hlh Hg l0.
  destruct (zfor_inv (fun i l => exists m, l = l0 ++ m /\ (forall ev, In ev m -> exists k, lo <= k < i /\ Q k ev) /\
                         forall x, R x -> mu m x = zsumf (fun k => C k x) lo i) lo hi g l0 Hlh) as (l' & E & m & -> & H1 & H2).
  - exists []. rewrite app_nil_r. split; [easy|]. split; [easy|]. intros. rewrite zsumf_empty by lia. apply M0.
  - intros i l Hi (m & -> & H1 & H2). destruct (Hg i (l0 ++ m) Hi) as (m' & E & G1 & G2).
    exists ((l0 ++ m) ++ m'). split; [exact E|]. exists (m ++ m'). rewrite app_assoc. split; [easy|]. split.
    + intros ev Hev. apply in_app_or in Hev as [Hev|Hev].
      * destruct (H1 ev Hev) as (k & ? & ?). exists k. split; [lia|auto].
      * exists i. split; [lia|auto].
    + intros x Hx. rewrite M1, H2, G2, zsumf_snoc by (auto; lia). reflexivity.
  - exists m. auto.
Qed.

Lemma zsumf_add f g lo hi : lo <= hi -> zsumf (fun i => f i + g i) lo hi = zsumf f lo hi + zsumf g lo hi.
Proof.
  intros H. pattern hi. apply (Zlt_lower_bound_ind _ lo); [|lia]. clear. cbv beta. intros hi IH H.
  destruct (Z.eq_dec hi lo) as [->|Hne]. { rewrite !zsumf_empty by lia. lia. }
  replace hi with ((hi-1)+1) by lia. rewrite !zsumf_snoc by lia. rewrite IH by lia. lia.
Qed.

Lemma square_sum (x y : Z -> Z) n : 0 <= n ->
  zsumf (fun i => x i * y i + zsumf (fun j => x i * y j + y i * x j) (i + 1) n) 0 n = zsumf x 0 n * zsumf y 0 n.
Proof.
  intros Hn. pattern n. apply natlike_ind; [| |exact Hn].
  - cbv beta. rewrite !zsumf_empty by lia. lia.
  - clear. cbv beta. intros n Hn IH. unfold Z.succ. rewrite (zsumf_snoc _ 0 n), (zsumf_snoc x 0 n), (zsumf_snoc y 0 n) by lia.
    rewrite (zsumf_empty _ (n+1) (n+1)) by lia.
    rewrite (zsumf_ext _ (fun i => (x i * y i + zsumf (fun j => x i * y j + y i * x j) (i + 1) n) + (x i * y n + y i * x n)) 0 n).
    2: { intros i Hi. rewrite (zsumf_snoc _ (i+1) n) by lia. lia. }
    assert (Hadd : forall f g lo hi, lo <= hi -> zsumf (fun i => f i + g i) lo hi = zsumf f lo hi + zsumf g lo hi).
    { clear. intros f g lo hi H. pattern hi. apply (Zlt_lower_bound_ind _ lo); [|lia]. clear. cbv beta. intros hi IH H.
      destruct (Z.eq_dec hi lo) as [->|Hne]. { rewrite !zsumf_empty by lia. lia. }
      replace hi with ((hi-1)+1) by lia. rewrite !zsumf_snoc by lia. rewrite IH by lia. lia. }
    assert (Hmul : forall f c lo hi, lo <= hi -> zsumf (fun i => f i * c) lo hi = zsumf f lo hi * c).
    { clear. intros f c lo hi H. pattern hi. apply (Zlt_lower_bound_ind _ lo); [|lia]. clear. cbv beta. intros hi IH H.
      destruct (Z.eq_dec hi lo) as [->|Hne]. { rewrite !zsumf_empty by lia. lia. }
      replace hi with ((hi-1)+1) by lia. rewrite !zsumf_snoc by lia. rewrite IH by lia. lia. }
    rewrite Hadd by lia. rewrite IH. rewrite Hadd by lia. rewrite !Hmul by lia. lia.
Qed.

Definition b2z (b : bool) : Z := if b then 1 else 0.

Lemma b2z_range b : 0 <= b2z b <= 1. Proof. destruct b; simpl; lia. Qed.
Lemma b2z_and b c : b2z (b && c) = b2z b * b2z c. Proof. destruct b, c; reflexivity. Qed.

Lemma zcount_zsumf (f : Z -> bool) (l : list Z) : zcount f l = zsumf (fun k => b2z (f (nthz l k))) 0 (zlen l).
Proof.
  induction l as [|x l IH] using rev_ind; [reflexivity|]. rewrite zcount_app, zlen_app. change (zlen [x]) with 1.
  rewrite zsumf_snoc by zlia. rewrite IH. f_equal.
  - apply zsumf_ext. intros k Hk. now rewrite nthz_app1 by lia.
  - rewrite zcount_cons, zcount_nil. rewrite nthz_last. unfold b2z. destruct (f x); reflexivity.
Qed.

Section Pairs.
Context {F : num}.
Variables (pt_dim n_point n_node max_level n_leaf : Z) (a : tarrays F).
Hypothesis CT : cluster_tree pt_dim n_point n_node max_level n_leaf a.
Notation own i p := (b2z (owns a i p)).

Lemma owns_data i s e lv h nc p : node_data a i s e lv h nc -> owns a i p = (s <=? p) && (p <=? e).
Proof. intros (E1 & E2 & _). unfold owns. now rewrite E1, E2. Qed.

Lemma leaf_dec i : 0 <= i < n_node -> exists nc, ld (a_nchild a) i = Some nc /\ 0 <= nc <= 2 ^ pt_dim.
Proof. intros Hi. destruct (ct_node _ _ _ _ _ _ CT i Hi) as (s & e & lv & h & nc & (D1 & D2 & D3 & D4 & D5) & ?). exists nc. split; [auto|lia]. Qed.

Lemma tiles_count p lv : forall cs s e, tiles a p lv s e cs -> s - 1 <= e /\
   (forall q, zcount (fun c => owns a c q) cs = b2z ((s <=? q) && (q <=? e))) /\
   (forall c, In c cs -> 0 <= c < p /\ ld (a_level a) c = Some lv).
Proof.
  induction cs as [|c cs IH]; intros s e T; simpl in T.
  - subst e. split; [lia|]. split; [|easy]. intros q. rewrite zcount_nil. unfold b2z. destruct (Z.leb_spec s q), (Z.leb_spec q (s-1)); simpl; lia.
  - destruct T as (ce & h & nc & D & _ & Hc & Hs & T). destruct (IH _ _ T) as (I1 & I2 & I3). split; [lia|]. split.
    + intros q. rewrite zcount_cons, I2, (owns_data _ _ _ _ _ _ q D). unfold b2z.
      destruct (Z.leb_spec s q), (Z.leb_spec q ce), (Z.leb_spec (ce+1) q), (Z.leb_spec q e); simpl; lia.
    + intros c' [<-|Hin]; [|auto]. split; [lia|]. apply D.
Qed.

Lemma kids i nc : 0 <= i < n_node -> ld (a_nchild a) i = Some nc -> nc <> 0 ->
  exists cs lv, zlen cs = nc /\ 0 < nc /\ ld (a_level a) i = Some lv /\
    (forall k, 0 <= k < nc -> ld (a_children a) (i * 2 ^ pt_dim + k) = Some (nthz cs k)) /\
    (forall k, 0 <= k < nc -> 0 <= nthz cs k < i /\ ld (a_level a) (nthz cs k) = Some (lv + 1)) /\
    (forall q, zsumf (fun k => own (nthz cs k) q) 0 nc = own i q).
Proof.
  intros Hi En Hnc. destruct (ct_node _ _ _ _ _ _ CT i Hi) as (s & e & lv & h & nc' & D & Hs & He & Hl & Hh & Hn & _).
  assert (nc' = nc) by (destruct D as (_ & _ & _ & _ & D); congruence). subst nc'.
  destruct (ct_children _ _ _ _ _ _ CT i s e lv h nc Hi D Hnc) as (cs & Lc & Cc & T & _).
  destruct (tiles_count _ _ _ _ _ T) as (I1 & I2 & I3).
  exists cs, lv. split; [auto|]. split; [lia|]. split; [apply D|]. split; [|split].
  - intros k Hk. rewrite Cc by lia. apply getz_nthz. lia.
  - intros k Hk. apply I3. eapply getz_In. apply getz_nthz. lia.
  - intros q. rewrite <- Lc. rewrite <- (zcount_zsumf (fun c => owns a c q)). rewrite I2. now rewrite (owns_data _ _ _ _ _ _ q D).
Qed.

Lemma zsumf_le_one (x : Z -> Z) n k : (forall i, 0 <= i < n -> 0 <= x i) -> 0 <= k < n -> x k <= zsumf x 0 n.
Proof.
  intros Hp Hk. rewrite (zsumf_split x 0 k n), (zsumf_split x k (k+1) n), (zsumf_snoc x k k), (zsumf_empty x k k) by lia.
  pose proof (zsumf_nonneg x 0 k ltac:(intros; apply Hp; lia)). pose proof (zsumf_nonneg x (k+1) n ltac:(intros; apply Hp; lia)). lia.
Qed.

Lemma kid_sub n nc cs : (forall q, zsumf (fun k => own (nthz cs k) q) 0 nc = own n q) ->
  forall k q, 0 <= k < nc -> owns a (nthz cs k) q = true -> owns a n q = true.
Proof.
  intros Hsum k q Hk Ho. pose proof (zsumf_le_one (fun k => own (nthz cs k) q) nc k ltac:(intros; apply b2z_range) Hk) as L. cbv beta in L.
  rewrite Hsum, Ho in L. destruct (owns a n q); simpl in L; auto; lia.
Qed.

Lemma kids_disjoint nc cs i q j k : 0 <= j < k -> k < nc ->
  (forall q, zsumf (fun k => own (nthz cs k) q) 0 nc = own i q) -> owns a (nthz cs j) q && owns a (nthz cs k) q = false.
Proof.
  intros Hj Hk Hsum. destruct (owns a (nthz cs j) q) eqn:Ej; auto. destruct (owns a (nthz cs k) q) eqn:Ek; auto. exfalso.
  specialize (Hsum q). rewrite (zsumf_split _ 0 k nc) in Hsum by lia.
  pose proof (zsumf_le_one (fun k => own (nthz cs k) q) k j ltac:(intros; apply b2z_range) ltac:(lia)) as L. cbv beta in L.
  rewrite (zsumf_split _ k (k+1) nc), (zsumf_snoc _ k k), (zsumf_empty _ k k) in Hsum by lia.
  pose proof (zsumf_nonneg (fun k => own (nthz cs k) q) (k+1) nc ltac:(intros; apply b2z_range)).
  rewrite Ej in L. rewrite Ek in Hsum. pose proof (b2z_range (owns a i q)). simpl in *. lia.
Qed.

Lemma zsumf_pos (f : Z -> bool) n : 0 <= n -> zsumf (fun k => b2z (f k)) 0 n <> 0 -> exists k, 0 <= k < n /\ f k = true.
Proof.
  intros Hn. pattern n. apply natlike_ind; [| |exact Hn].
  - cbv beta. now rewrite zsumf_empty by lia.
  - clear. cbv beta. intros n Hn IH. unfold Z.succ. rewrite zsumf_snoc by lia. destruct (f n) eqn:E.
    + intros _. exists n. split; [lia|auto].
    + simpl. intros H. destruct IH as (k & ? & ?); [lia|]. exists k. split; [lia|auto].
Qed.

(** Every node owning a point contains the leaf of that point. *)
Lemma leaf_below p q n : same_leaf a n_node p q -> 0 <= p < n_point -> 0 <= q < n_point -> 0 <= n < n_node -> owns a n p = owns a n q.
Proof.
  intros (i & Hi & Hl & Op & Oq) Hp Hq. 
  assert (K : forall n, 0 <= n -> n < n_node -> forall p q, 0 <= p < n_point -> owns a i p = true -> owns a i q = true -> owns a n p = true -> owns a n q = true).
  { clear n p q Hp Hq Op Oq. intros n Hn0'. assert (Hn0 := Hn0'). revert Hn0'. pattern n. apply Z_lt_induction; [|exact Hn0]. clear n Hn0. cbv beta. intros n IH Hn0 Hn p q Hp Op Oq On.
    destruct (leaf_dec n ltac:(lia)) as (nc & En & Hnc). destruct (Z.eq_dec nc 0) as [->|Hne].
    - destruct (ct_leaf_of_point _ _ _ _ _ _ CT p Hp) as (i0 & _ & U).
      assert (L : forall j, 0 <= j < n_node -> ld (a_nchild a) j = Some 0 -> owns a j p = true ->
        (0 <= j < n_node /\ exists s e lv, node_data a j s e lv 0 0 /\ s <= p <= e)).
      { intros j Hj Ej Oj. split; [auto|]. destruct (ct_node _ _ _ _ _ _ CT j Hj) as (s & e & lv & h & nc' & D & _ & _ & _ & _ & _ & Hh).
        rewrite (owns_data _ _ _ _ _ _ _ D) in Oj. assert (nc' = 0) by (destruct D as (_ & _ & _ & _ & D); congruence). subst nc'.
        assert (h = 0) by (apply Hh; auto). subst h. exists s, e, lv. split; [auto|lia]. }
      rewrite (U n (L n ltac:(lia) En On)), <- (U i (L i Hi Hl Op)). auto.
    - destruct (kids n nc ltac:(lia) En Hne) as (cs & lv & Lc & Hpos & El & Cc & Hc & Hsum).
      destruct (zsumf_pos (fun k => owns a (nthz cs k) p) nc) as (k & Hk & Ok); [lia| |].
      { rewrite Hsum, On. discriminate. }
      destruct (Hc k Hk) as [Hck _]. assert (owns a (nthz cs k) q = true) by (apply (IH (nthz cs k)) with (p := p); auto; lia).
      eapply kid_sub; eauto. }
  intros Hn. destruct (owns a n p) eqn:E1.
  - symmetry. apply (K n) with (p := p); auto; lia.
  - destruct (owns a n q) eqn:E2; auto. assert (owns a n p = true) by (apply (K n) with (p := q); auto; lia). congruence.
Qed.

Lemma same_leaf_em p q : 0 <= p < n_point -> same_leaf a n_node p q \/ ~ same_leaf a n_node p q.
Proof.
  intros Hp. destruct (ct_leaf_of_point _ _ _ _ _ _ CT p Hp) as (i & (Hi & s & e & lv & D & Hs) & U).
  destruct (owns a i q) eqn:Eq.
  - left. exists i. split; [auto|]. split; [apply D|]. split; [|auto]. rewrite (owns_data _ _ _ _ _ _ _ D). lia.
  - right. intros (j & Hj & Lj & Oj & Oq). replace j with i in *; [congruence|]. symmetry. apply U. split; [auto|].
    destruct (ct_node _ _ _ _ _ _ CT j Hj) as (s' & e' & lv' & h & nc' & D' & _ & _ & _ & _ & _ & Hh).
    rewrite (owns_data _ _ _ _ _ _ _ D') in Oj. assert (nc' = 0) by (destruct D' as (_ & _ & _ & _ & D'); unfold is_leaf in Lj; congruence). subst nc'.
    assert (h = 0) by (apply Hh; auto). subst h. exists s', e', lv'. split; [auto|lia].
Qed.

(** ** The recursion *)
Definition cov (l : list (bool * (Z * Z))) (x : Z * Z) : Z :=
  zcount (fun '(_, (n0, n1)) => owns a n0 (fst x) && owns a n1 (snd x)) l.

Lemma cov_nil x : cov [] x = 0. Proof. reflexivity. Qed.
Lemma cov_app l m x : cov (l ++ m) x = cov l x + cov m x. Proof. apply zcount_app. Qed.

Definition swp (x : Z * Z) := (snd x, fst x).
Definition scov l x := cov l x + cov l (swp x).

Variable self : bool.
Variable test : Z -> Z -> option bool.
Hypothesis test_total : forall n0 n1, 0 <= n0 < n_node -> 0 <= n1 < n_node -> exists b, test n0 n1 = Some b.

Definition disjoint n0 n1 := forall p, owns a n0 p && owns a n1 p = false.

Definition ev_ok (ev : bool * (Z * Z)) : Prop :=
  let '(adm, (n0, n1)) := ev in
  0 <= n0 < n_node /\ 0 <= n1 < n_node /\ levels_fit a n0 n1 /\ test n0 n1 = Some adm /\
  (adm = false -> is_leaf a n0 /\ is_leaf a n1) /\ (self = true -> disjoint n0 n1).

Definition inr (x : Z * Z) := 0 <= fst x < n_point /\ 0 <= snd x < n_point.

Lemma disjoint_ne n0 n1 : 0 <= n0 < n_node -> disjoint n0 n1 -> n0 <> n1.
Proof.
  intros H D ->. destruct (ct_node _ _ _ _ _ _ CT n1 H) as (s & e & lv & h & nc & Dn & Hs & _).
  specialize (D s). rewrite (owns_data _ _ _ _ _ _ _ Dn) in D. lia.
Qed.

Lemma zsumf_mul_r f c n : 0 <= n -> zsumf (fun i => f i * c) 0 n = zsumf f 0 n * c.
Proof.
  intros Hn. pattern n. apply natlike_ind; [| |exact Hn]; cbv beta.
  - rewrite !zsumf_empty by lia. lia.
  - clear. intros n Hn IH. unfold Z.succ. rewrite !zsumf_snoc by lia. lia.
Qed.

Lemma disjoint_sub n0 n1 m0 m1 : (forall q, owns a m0 q = true -> owns a n0 q = true) -> (forall q, owns a m1 q = true -> owns a n1 q = true) ->
  disjoint n0 n1 -> disjoint m0 m1.
Proof.
  intros H0 H1 D p. specialize (D p). destruct (owns a m0 p) eqn:E0; auto. destruct (owns a m1 p) eqn:E1; auto.
  rewrite (H0 _ E0), (H1 _ E1) in D. auto.
Qed.

Notation w := (walk (a_children a) (a_nchild a) (2 ^ pt_dim) self test).

Lemma walk_pair : forall fuel n0 n1, n0 + n1 < Z.of_nat fuel -> 0 <= n0 < n_node -> 0 <= n1 < n_node -> levels_fit a n0 n1 ->
  (self = true -> disjoint n0 n1) ->
  exists m, w fuel n0 n1 = Some m /\ (forall ev, In ev m -> ev_ok ev) /\ forall x, cov m x = own n0 (fst x) * own n1 (snd x).
Proof.
  induction fuel as [|fuel IH]; intros n0 n1 Hf H0 H1 HL HD; [lia|].
  cbn [walk]. destruct (leaf_dec n0 H0) as (c0 & E0 & Hc0). destruct (leaf_dec n1 H1) as (c1 & E1 & Hc1).
  destruct (test_total n0 n1 H0 H1) as (b & Eb).
  replace (self && (n0 =? n1)) with false.
  2: { destruct self; auto. simpl. symmetry. apply Z.eqb_neq. apply disjoint_ne; auto. }
  rewrite E0, E1, Eb. cbn [bind].
  assert (Hone : forall adm x, cov [(adm, (n0, n1))] x = own n0 (fst x) * own n1 (snd x)).
  { intros. unfold cov. rewrite zcount_cons, zcount_nil, <- b2z_and. unfold b2z. lia. }
  destruct HL as (l0 & l1 & L0 & L1 & HL).
  assert (HL' : levels_fit a n0 n1) by (exists l0, l1; auto).
  destruct b.
  { eexists; split; [reflexivity|]. split; [|apply Hone]. intros ev [<-|[]]. simpl. repeat split; auto; try lia; discriminate. }
  destruct (Z.eqb_spec c0 0) as [->|N0], (Z.eqb_spec c1 0) as [->|N1]; cbn [andb].
  - eexists; split; [reflexivity|]. split; [|apply Hone]. intros ev [<-|[]]. simpl. repeat split; auto; try lia.
  - replace (0 <? c1) with true by (symmetry; apply Z.ltb_lt; lia).
    destruct (kids n1 c1 H1 E1 N1) as (cs & lv & Lc & Hpos & El & Cc & Hc & Hsum).
    assert (lv = l1) by congruence. subst lv.
    assert (Hlt : l0 <= l1). { destruct HL as [?|[[? ?]|[? X]]]; try lia. unfold is_leaf in X. congruence. }
    destruct (zfor_acc (fun j l => cj <- ld (a_children a) (n1 * 2 ^ pt_dim + j); m <- w fuel n0 cj; Some (l ++ m))
      (fun _ ev => ev_ok ev) (fun _ => True) cov (fun j x => own (nthz cs j) (snd x) * own n0 (fst x)) cov_nil cov_app 0 c1 ltac:(lia)) with (l0 := @nil (bool*(Z*Z)))
      as (m & Em & M1 & M2).
    { intros j l Hj. rewrite Cc by auto. cbn [bind]. destruct (Hc j Hj) as [Hcj Lj].
      destruct (IH n0 (nthz cs j)) as (m & Em & M1 & M2); try lia.
      - exists l0, (l1 + 1). split; [auto|]. split; [auto|]. right. left. split; [lia|auto].
      - intros Hs. apply (disjoint_sub n0 n1); auto. intros q. eapply kid_sub; eauto.
      - exists m. rewrite Em. cbn [bind]. split; [auto|]. split; [auto|]. intros x _. rewrite M2. lia. }
    exists m. split; [exact Em|]. split. { intros ev Hev. destruct (M1 ev Hev) as (_ & _ & ?); auto. }
    intros x. rewrite M2 by auto. rewrite (zsumf_mul_r (fun j => own (nthz cs j) (snd x))) by lia. rewrite Hsum. lia.
  - replace (0 <? c0) with true by (symmetry; apply Z.ltb_lt; lia). cbn [andb].
    destruct (kids n0 c0 H0 E0 N0) as (cs & lv & Lc & Hpos & El & Cc & Hc & Hsum).
    assert (lv = l0) by congruence. subst lv.
    assert (Hlt : l1 <= l0). { destruct HL as [?|[[? X]|[? ?]]]; try lia. unfold is_leaf in X. congruence. }
    destruct (zfor_acc (fun j l => cj <- ld (a_children a) (n0 * 2 ^ pt_dim + j); m <- w fuel cj n1; Some (l ++ m))
      (fun _ ev => ev_ok ev) (fun _ => True) cov (fun j x => own (nthz cs j) (fst x) * own n1 (snd x)) cov_nil cov_app 0 c0 ltac:(lia)) with (l0 := @nil (bool*(Z*Z)))
      as (m & Em & M1 & M2).
    { intros j l Hj. rewrite Cc by auto. cbn [bind]. destruct (Hc j Hj) as [Hcj Lj].
      destruct (IH (nthz cs j) n1) as (m & Em & M1 & M2); try lia.
      - exists (l0 + 1), l1. split; [auto|]. split; [auto|]. right. right. split; [lia|auto].
      - intros Hs. apply (disjoint_sub n0 n1); auto. intros q. eapply kid_sub; eauto.
      - exists m. rewrite Em. cbn [bind]. split; [auto|]. split; [auto|]. intros x _. rewrite M2. lia. }
    exists m. split; [exact Em|]. split. { intros ev Hev. destruct (M1 ev Hev) as (_ & _ & ?); auto. }
    intros x. rewrite M2 by auto. rewrite (zsumf_mul_r (fun j => own (nthz cs j) (fst x))) by lia. rewrite Hsum. lia.
  - replace (0 <? c0) with true by (symmetry; apply Z.ltb_lt; lia). replace (0 <? c1) with true by (symmetry; apply Z.ltb_lt; lia). cbn [andb].
    destruct (kids n0 c0 H0 E0 N0) as (cs & lv & Lc & Hpos & El & Cc & Hc & Hsum).
    destruct (kids n1 c1 H1 E1 N1) as (ds & lv' & Ld & Hpos' & El' & Cd & Hd & Hsum').
    assert (lv = l0) by congruence. subst lv. assert (lv' = l1) by congruence. subst lv'.
    assert (Hlt : l1 = l0). { unfold is_leaf in HL. destruct HL as [?|[[? X]|[? X]]]; [lia| |]; congruence. } subst l1.
    destruct (zfor_acc (fun i l => ci <- ld (a_children a) (n0 * 2 ^ pt_dim + i);
          zfor 0 c1 (fun j l => cj <- ld (a_children a) (n1 * 2 ^ pt_dim + j); m <- w fuel ci cj; Some (l ++ m)) l)
      (fun _ ev => ev_ok ev) (fun _ => True) cov (fun i x => own (nthz cs i) (fst x) * own n1 (snd x)) cov_nil cov_app 0 c0 ltac:(lia)) with (l0 := @nil (bool*(Z*Z)))
      as (m & Em & M1 & M2).
    { intros i l Hi. rewrite Cc by auto. cbn [bind]. destruct (Hc i Hi) as [Hci Li].
      destruct (zfor_acc (fun j l => cj <- ld (a_children a) (n1 * 2 ^ pt_dim + j); m <- w fuel (nthz cs i) cj; Some (l ++ m))
        (fun _ ev => ev_ok ev) (fun _ => True) cov (fun j x => own (nthz ds j) (snd x) * own (nthz cs i) (fst x)) cov_nil cov_app 0 c1 ltac:(lia)) with (l0 := l)
        as (m & Em & M1 & M2).
      - intros j l' Hj. rewrite Cd by auto. cbn [bind]. destruct (Hd j Hj) as [Hdj Lj].
        destruct (IH (nthz cs i) (nthz ds j)) as (m & Em & M1 & M2); try lia.
        + exists (l0 + 1), (l0 + 1). auto.
        + intros Hs. apply (disjoint_sub n0 n1); auto; intros q; eapply kid_sub; eauto.
        + exists m. rewrite Em. cbn [bind]. split; [auto|]. split; [auto|]. intros x _. rewrite M2. lia.
      - exists m. split; [exact Em|]. split. { intros ev Hev. destruct (M1 ev Hev) as (_ & _ & ?); auto. }
        intros x _. rewrite M2 by auto. rewrite (zsumf_mul_r (fun j => own (nthz ds j) (snd x))) by lia. rewrite Hsum'. lia. }
    exists m. split; [exact Em|]. split. { intros ev Hev. destruct (M1 ev Hev) as (_ & _ & ?); auto. }
    intros x. rewrite M2 by auto. rewrite (zsumf_mul_r (fun j => own (nthz cs j) (fst x))) by lia. rewrite Hsum. lia.
Qed.

Lemma scov_nil x : scov [] x = 0. Proof. reflexivity. Qed.
Lemma scov_app l m x : scov (l ++ m) x = scov l x + scov m x. Proof. unfold scov. rewrite !cov_app. lia. Qed.

Lemma walk_self : self = true -> forall fuel n, n + n < Z.of_nat fuel -> 0 <= n < n_node ->
  exists m, w fuel n n = Some m /\ (forall ev, In ev m -> ev_ok ev) /\
    (forall x, inr x -> same_leaf a n_node (fst x) (snd x) -> scov m x = 0) /\
    (forall x, inr x -> ~ same_leaf a n_node (fst x) (snd x) -> scov m x = own n (fst x) * own n (snd x)).
Proof.
  intros Hself. induction fuel as [|fuel IH]; intros n Hf Hn; [lia|].
  cbn [walk]. replace (self && (n =? n)) with true by (now rewrite Hself, Z.eqb_refl). destruct (leaf_dec n Hn) as (c & Ec & Hc0). rewrite Ec. cbn [bind].
  destruct (Z.eqb_spec c 0) as [->|Nc].
  { exists []. split; [auto|]. split; [easy|]. split; [reflexivity|]. intros x _ Hns. rewrite scov_nil.
    destruct (owns a n (fst x)) eqn:E1, (owns a n (snd x)) eqn:E2; try reflexivity. exfalso. apply Hns. exists n. auto. }
  destruct (kids n c Hn Ec Nc) as (cs & lv & Lc & Hpos & El & Cc & Hc & Hsum).
  destruct (zfor_acc (fun i l => cj <- ld (a_children a) (n * 2 ^ pt_dim + i); m <- w fuel cj cj; Some (l ++ m))
     (fun _ ev => ev_ok ev) (fun x => inr x /\ same_leaf a n_node (fst x) (snd x)) scov (fun _ _ => 0) scov_nil scov_app 0 c ltac:(lia)) with (l0 := @nil (bool*(Z*Z))) as (m & Em & M1 & M2).
  { intros i l Hi. rewrite Cc by auto. cbn [bind]. destruct (Hc i Hi) as [Hci _]. destruct (IH (nthz cs i)) as (m & Em & M1 & M2 & M3); try lia.
    exists m. rewrite Em. cbn [bind]. split; [auto|]. split; [auto|]. intros x [? ?]. auto. }
  destruct (zfor_acc (fun i l => cj <- ld (a_children a) (n * 2 ^ pt_dim + i); m <- w fuel cj cj; Some (l ++ m))
     (fun _ ev => ev_ok ev) (fun x => inr x /\ ~ same_leaf a n_node (fst x) (snd x)) scov (fun i x => own (nthz cs i) (fst x) * own (nthz cs i) (snd x)) scov_nil scov_app 0 c ltac:(lia)) with (l0 := @nil (bool*(Z*Z))) as (m' & Em' & M1' & M2').
  { intros i l Hi. rewrite Cc by auto. cbn [bind]. destruct (Hc i Hi) as [Hci _]. destruct (IH (nthz cs i)) as (m' & Em' & M1' & M2' & M3'); try lia.
    exists m'. rewrite Em'. cbn [bind]. split; [auto|]. split; [auto|]. intros x [? ?]. auto. }
  assert (m' = m). { rewrite Em in Em'. injection Em' as ->. auto. } subst m'. cbn [app] in *. rewrite Em. cbn [bind]. clear Em'.
  set (D := fun i x => zsumf (fun j => own (nthz cs i) (fst x) * own (nthz cs j) (snd x) + own (nthz cs i) (snd x) * own (nthz cs j) (fst x)) (i + 1) c).
  destruct (zfor_acc (fun i l => ci <- ld (a_children a) (n * 2 ^ pt_dim + i);
          zfor (i + 1) c (fun j l => cj <- ld (a_children a) (n * 2 ^ pt_dim + j); m <- w fuel ci cj; Some (l ++ m)) l)
      (fun _ ev => ev_ok ev) (fun _ => True) scov D scov_nil scov_app 0 c ltac:(lia)) with (l0 := m)
      as (m2 & Em2 & N1 & N2).
  { intros i l Hi. rewrite Cc by auto. cbn [bind]. destruct (Hc i Hi) as [Hci Li].
    destruct (zfor_acc (fun j l => cj <- ld (a_children a) (n * 2 ^ pt_dim + j); m <- w fuel (nthz cs i) cj; Some (l ++ m))
        (fun _ ev => ev_ok ev) (fun _ => True) scov (fun j x => own (nthz cs i) (fst x) * own (nthz cs j) (snd x) + own (nthz cs i) (snd x) * own (nthz cs j) (fst x)) scov_nil scov_app (i + 1) c ltac:(lia)) with (l0 := l)
        as (m3 & Em3 & N1 & N2).
    - intros j l' Hj. rewrite Cc by lia. cbn [bind]. destruct (Hc j ltac:(lia)) as [Hcj Lj].
      destruct (walk_pair fuel (nthz cs i) (nthz cs j)) as (m3 & Em3 & N1 & N2); try lia.
      + exists (lv + 1), (lv + 1). auto.
      + intros _ q. eapply (kids_disjoint c cs n q i j); eauto; lia.
      + exists m3. rewrite Em3. cbn [bind]. split; [auto|]. split; [auto|]. intros x _. unfold scov. rewrite !N2. unfold swp. cbn [fst snd]. lia.
    - exists m3. split; [exact Em3|]. split. { intros ev Hev. destruct (N1 ev Hev) as (_ & _ & ?); auto. }
      intros x _. rewrite N2 by auto. reflexivity. }
  exists (m ++ m2). split; [exact Em2|].
  split. { intros ev Hev. apply in_app_or in Hev as [Hev|Hev]. destruct (M1 ev Hev) as (_ & _ & ?); auto. destruct (N1 ev Hev) as (_ & _ & ?); auto. }
  assert (SQ : forall x, zsumf (fun i => own (nthz cs i) (fst x) * own (nthz cs i) (snd x)) 0 c + zsumf (fun i => D i x) 0 c = own n (fst x) * own n (snd x)).
  { intros x. rewrite <- (Hsum (fst x)), <- (Hsum (snd x)). rewrite <- square_sum by lia. unfold D. symmetry. rewrite zsumf_add; [|lia].  reflexivity. }
  split.
  - intros x Hx Hs. rewrite scov_app, M2, N2 by auto. rewrite (zsumf_ext (fun _ => 0) (fun _ => 0 * 0)) by (intros; lia). rewrite (zsumf_mul_r (fun _ => 0)) by lia.
    enough (zsumf (fun i => own (nthz cs i) (fst x) * own (nthz cs i) (snd x)) 0 c = own n (fst x) * own n (snd x)) by (specialize (SQ x); lia).
    rewrite <- (leaf_below _ _ n Hs) by (try apply Hx; auto).
    rewrite (zsumf_ext _ (fun k => own (nthz cs k) (fst x))).
    + rewrite Hsum. destruct (owns a n (fst x)); reflexivity.
    + intros k Hk. destruct (Hc k Hk) as [? _]. rewrite <- (leaf_below _ _ (nthz cs k) Hs) by (try apply Hx; lia). destruct (owns a (nthz cs k) (fst x)); reflexivity.
  - intros x Hx Hs. rewrite scov_app, M2', N2 by auto. apply SQ.
Qed.
End Pairs.
