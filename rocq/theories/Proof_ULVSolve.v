(** The sweeps of the ULV solves, and the whole solves. *)
From Coq Require Import ZArith List Lia Bool Permutation.
From Verif Require Import Base Mem Num CRing Conc Model_Utils Spec_Utils Model_Dense Spec_Dense Proof_Dense3 Model_Partition Spec_Tree Model_Matvec Spec_Matvec Proof_MvTree Proof_MvFwd Proof_MvCor Spec_Lapack Blk Model_ULV Spec_ULV Proof_ULVMath Proof_ULVTree Proof_ULVMem Proof_ULVAsm Proof_ULVFac Proof_ULVNode Proof_ULVFact Proof_ULVVec.
Import ListNotations.
Open Scope Z_scope.

Section Solve.
Context {F : num} {K : cring}.
Variable h : h2rep F K.
Hypothesis R : rep_ok h.
Hypothesis HS : hss_ok h.
Notation nn := (h_nnode h).
Notation N := (h_kms h).

(** ** Positions *)
Variable pos : Z -> Z -> Z.
Hypothesis HP : forall t, 0 <= t < nn -> pos_ok h pos t.

Lemma nrows_leaf t : nchild h t = 0 -> nrows h t = msize h t.
Proof. intros E. unfold nrows. rewrite E. reflexivity. Qed.
Lemma nrows_node t : nchild h t <> 0 -> nrows h t = choff h t (nchild h t).
Proof. intros E. unfold nrows. destruct (Z.eqb_spec (nchild h t) 0); congruence. Qed.
(** The rows of a non-leaf node. *)
Lemma row_find t i : 0 <= t < nn -> nchild h t <> 0 -> 0 <= i < nrows h t ->
  exists k d, 0 <= k < nchild h t /\ 0 <= d < rank h (child h t k) /\ i = choff h t k + d /\ pos t i = pos (child h t k) d.
Proof.
  intros Ht Hc Hi. rewrite nrows_node in Hi by auto. pose proof (nchild_range h R t Ht).
  destruct (choff_find h t (nchild h t) i Ht) as (k & d & Hk & Hd & E); [lia|auto|]. exists k, d. split; auto. split; auto. split; auto.
  subst i. apply (HP t Ht); auto.
Qed.
Lemma row_in t k d : 0 <= t < nn -> 0 <= k < nchild h t -> 0 <= d < rank h (child h t k) -> 0 <= choff h t k + d < nrows h t.
Proof. intros Ht Hk Hd. rewrite nrows_node by lia. pose proof (choff_le h R t k Ht Hk). lia. Qed.

Lemma pos_inside : forall t i, 0 <= t < nn -> 0 <= i < nrows h t -> inside h t (pos t i) = true.
Proof.
  intros t i Ht. generalize Ht. revert i. pattern t. apply Z_lt_induction; [|lia]. clear t Ht. intros t IH i Ht Hi. destruct (Z.eq_dec (nchild h t) 0) as [E|E].
  - rewrite nrows_leaf in Hi by auto. destruct (HP t Ht) as [H1 _]. rewrite H1 by auto. apply inside_iff. lia.
  - destruct (row_find t i Ht E Hi) as (k & d & Hk & Hd & _ & ->). destruct (child_at h R t k Ht Hk) as (_ & C1 & C2 & _). pose proof (rank_le h R HS _ C1).
    eapply (child_inside h R); eauto. apply IH; lia.
Qed.
Lemma pos_range t i : 0 <= t < nn -> 0 <= i < nrows h t -> 0 <= pos t i < N.
Proof. intros Ht Hi. pose proof (pos_inside t i Ht Hi) as H. apply inside_iff in H. pose proof (cluster_range h R t Ht). lia. Qed.

Lemma pos_inj : forall t i j, 0 <= t < nn -> 0 <= i < nrows h t -> 0 <= j < nrows h t -> pos t i = pos t j -> i = j.
Proof.
  intros t i j Ht. generalize Ht. revert i j. pattern t. apply Z_lt_induction; [|lia]. clear t Ht. intros t IH i j Ht Hi Hj Eq. destruct (Z.eq_dec (nchild h t) 0) as [E|E].
  - rewrite nrows_leaf in Hi, Hj by auto. destruct (HP t Ht) as [H1 _]. rewrite !H1 in Eq by auto. lia.
  - destruct (row_find t i Ht E Hi) as (k & d & Hk & Hd & Ei & Pi). destruct (row_find t j Ht E Hj) as (k' & d' & Hk' & Hd' & Ej & Pj).
    destruct (child_at h R t k Ht Hk) as (_ & C1 & C2 & C3). destruct (child_at h R t k' Ht Hk') as (_ & C1' & C2' & C3'). pose proof (rank_le h R HS _ C1). pose proof (rank_le h R HS _ C1').
    rewrite Pi, Pj in Eq. assert (Ec : child h t k = child h t k').
    { apply (same_level_disjoint h R _ _ (pos (child h t k) d)); auto; [lia| |]; [|rewrite Eq]; apply pos_inside; auto; lia. }
    destruct (child_inj h R t k t k' Ht Hk Ht Hk' Ec) as [_ <-]. assert (d = d') by (apply (IH (child h t k)); auto; lia). lia.
Qed.

Lemma leaf_disjoint t t' p : 0 <= t < nn -> 0 <= t' < nn -> nchild h t = 0 -> level h t < level h t' -> inside h t p = true -> inside h t' p = true -> False.
Proof.
  intros Ht Ht' Hc Hl Hi. remember (level h t' - level h t) as m eqn:Em. assert (Hm : 0 <= m) by lia. revert t' Ht' Hl Em. pattern m. apply natlike_ind; [| |exact Hm]; clear m Hm.
  - intros; lia.
  - intros m Hm IH t' Ht' Hl Em Hi'. destruct (Z.eq_dec t' (nn - 1)) as [->|Hne]; [destruct (root_level h R); pose proof (level_range h R t Ht); lia|].
    destruct (has_parent h R t' Ht' Hne) as (q & k & Hq & Hk & <-). destruct (child_at h R q k Hq Hk) as (_ & _ & _ & C3).
    assert (Hiq : inside h q p = true) by (eapply (child_inside h R); eauto). destruct (Z.eq_dec (level h t) (level h q)) as [E|E].
    + assert (t = q) by (eapply (same_level_disjoint h R); eauto). subst q. lia.
    + apply (IH q); auto; lia.
Qed.

(** Eliminated rows of a node are not rows of a node at the same level or above. *)
Lemma sep t' i' : 0 <= t' < nn -> rank h t' <= i' < nrows h t' -> forall t i, 0 <= t < nn -> t <> t' -> level h t <= level h t' -> 0 <= i < nrows h t -> pos t i <> pos t' i'.
Proof.
  intros Ht' Hi' t i Ht Hne Hl Hi. remember (level h t' - level h t) as m eqn:Em. assert (Hm : 0 <= m) by lia. revert t i Ht Hne Hl Hi Em. pattern m.
  pose proof (rank_nonneg h R t' Ht') as Hr.
  apply natlike_ind; [| |exact Hm]; clear m Hm.
  - intros t i Ht Hne Hl Hi Em Eq. apply Hne. apply (same_level_disjoint h R _ _ (pos t i)); auto; [lia| |]; [|rewrite Eq]; apply pos_inside; auto; lia.
  - intros m Hm IH t i Ht Hne Hl Hi Em Eq. destruct (Z.eq_dec (nchild h t) 0) as [E|E].
    + apply (leaf_disjoint t t' (pos t i)); auto; [lia| |]; [|rewrite Eq]; apply pos_inside; auto; lia.
    + destruct (row_find t i Ht E Hi) as (k & d & Hk & Hd & _ & Pi). destruct (child_at h R t k Ht Hk) as (_ & C1 & C2 & C3). pose proof (rank_le h R HS _ C1).
      rewrite Pi in Eq. destruct (Z.eq_dec (child h t k) t') as [Ec|Ec].
      * rewrite Ec in *. apply pos_inj in Eq; auto; lia.
      * apply (IH (child h t k) d); auto; lia.
Qed.

(** ** The up sweep *)
Section Sweeps.
Local Open Scope ring_K.
Variable nf : Z -> @nfac K.
Hypothesis Nn : forall t, 0 <= t < nn -> f_n (nf t) = nrows h t.
Hypothesis Nr : forall t, 0 <= t < nn -> f_r (nf t) = rank h t.
Variable b : Z -> K.

Record UP (S : Z -> Prop) (v : Z -> K) (inn out : Z -> Z -> K) : Prop := {
  up_1 : forall t i, 0 <= t < nn -> S t -> rank h t <= i < nrows h t -> v (pos t i) = out t i;
  up_2 : forall p k i, 0 <= p < nn -> 0 <= k < nchild h p -> ~ S p -> S (child h p k) -> 0 <= i < rank h (child h p k) -> v (pos (child h p k) i) = out (child h p k) i;
  up_3 : forall t i, 0 <= t < nn -> nchild h t = 0%Z -> ~ S t -> 0 <= i < msize h t -> v (mfirst h t + i)%Z = b (mfirst h t + i)%Z;
  up_4 : forall t i, 0 <= t < nn -> S t -> nchild h t = 0%Z -> 0 <= i < msize h t -> inn t i = b (mfirst h t + i)%Z;
  up_5 : forall t k i, 0 <= t < nn -> S t -> 0 <= k < nchild h t -> 0 <= i < rank h (child h t k) -> inn t (choff h t k + i)%Z = out (child h t k) i;
  up_6 : forall t, 0 <= t < nn -> S t -> up_rel (nf t) (inn t) (out t) }.
Definition upst (S : Z -> Prop) (s : svst) : Prop := mok h (snd s) /\ exists v inn out, pv h (fst s) v /\ UP S v inn out.

Lemma upst_iff S S' s : (forall x, 0 <= x < nn -> (S x <-> S' x)) -> upst S s -> upst S' s.
Proof.
  intros E (M & v & inn & out & P & [H1 H2 H3 H4 H5 H6]). split; auto. exists v, inn, out. split; auto.
  assert (E' : forall t, 0 <= t < nn -> (S' t -> S t)) by (intros t Ht; apply E; auto).
  assert (E'' : forall t, 0 <= t < nn -> (~ S' t -> ~ S t)) by (intros t Ht H HS'; apply H; apply E; auto).
  split; intros; eauto.
  destruct (child_at h R p k) as (_ & C & _); eauto.
Qed.

Lemma up_step S l x s s' : 0 <= x < nn -> level h x = l -> ~ S x -> (forall t, 0 <= t < nn -> l < level h t -> S t) -> (forall t, 0 <= t < nn -> S t -> l <= level h t) ->
  upst S s -> (forall v, pv h (fst s) v -> up_done h (nf x) (pos x) s' v) -> exists s'', s' = Some s'' /\ upst (fun t => t = x \/ S t) s''.
Proof.
  intros Hx Hl Hn Hhi Hlo (M & v & inn & out & P & [H1 H2 H3 H4 H5 H6]) Hd. destruct s as [px m0s]. cbn [fst snd] in *.
  destruct (Hd v P) as (px' & m0s' & v' & o & E & M' & P' & [A1 A2] & U). exists (px', m0s'). split; auto. split; auto.
  rewrite Nn in A1, A2 by auto.
  exists v', (fupd inn x (fun i => v (pos x i))), (fupd out x o). cbn [fst]. split; auto.
  assert (Hch : forall t k, 0 <= t < nn -> 0 <= k < nchild h t -> (l <= level h t)%Z -> child h t k <> x).
  { intros t k Ht Hk Hlt Eq. destruct (child_at h R t k Ht Hk) as (_ & _ & _ & C). rewrite Eq in C. lia. }
  split.
  - intros t i Ht [->|Ht'] Hi.
    + rewrite fupd_same. apply A1. pose proof (rank_nonneg h R x Hx). lia.
    + assert (t <> x) by congruence. rewrite fupd_other by auto. rewrite <- H1 by auto. apply A2. intros k Hk. apply not_eq_sym. apply sep; auto. specialize (Hlo t Ht Ht'). lia.
  - intros p k i Hp Hk Hnp Hc Hi. destruct (child_at h R p k Hp Hk) as (_ & C1 & C2 & C3). pose proof (rank_le h R HS _ C1).
    destruct Hc as [Ec|Hc].
    + rewrite Ec in *. rewrite fupd_same. apply A1. lia.
    + assert (child h p k <> x) by congruence. rewrite fupd_other by auto. rewrite <- H2 by auto. apply A2. intros j Hj Eq.
      assert (I1 : inside h (child h p k) (pos (child h p k) i) = true) by (apply pos_inside; auto; lia).
      assert (I2 : inside h x (pos (child h p k) i) = true) by (rewrite Eq; apply pos_inside; auto).
      assert (I3 : inside h p (pos (child h p k) i) = true) by (eapply (child_inside h R); eauto).
      specialize (Hlo _ C1 Hc). destruct (Z.eq_dec (level h (child h p k)) l) as [El|El].
      * apply H0. eapply (same_level_disjoint h R); eauto. lia.
      * assert (level h p = l). { destruct (Z.lt_ge_cases l (level h p)) as [G|G]; [|lia]. exfalso. apply Hnp. right. apply Hhi; auto. }
        apply Hnp. left. eapply (same_level_disjoint h R); eauto. lia.
  - intros t i Ht Hc Hnt Hi. rewrite <- H3 by auto. apply A2. intros k Hk Eq.
    assert (I1 : inside h t (mfirst h t + i) = true) by (apply inside_iff; lia).
    assert (I2 : inside h x (mfirst h t + i) = true) by (rewrite Eq; apply pos_inside; auto).
    assert (Hlt : level h t <= l). { destruct (Z.lt_ge_cases l (level h t)) as [G|G]; [|lia]. exfalso. apply Hnt. right. apply Hhi; auto. }
    destruct (Z.eq_dec (level h t) l) as [El|El].
    + apply Hnt. left. eapply (same_level_disjoint h R); eauto. lia.
    + apply (leaf_disjoint t x (mfirst h t + i)); auto. lia.
  - intros t i Ht Ht' Hc Hi. destruct (Z.eq_dec t x) as [->|Hne].
    + rewrite fupd_same. destruct (HP x Hx) as [HP1 _]. rewrite HP1 by auto. apply H3; auto.
    + rewrite fupd_other by auto. apply H4; auto. tauto.
  - intros t k i Ht Ht' Hk Hi. destruct (Z.eq_dec t x) as [->|Hne].
    + rewrite fupd_same. rewrite fupd_other by (apply Hch; auto; lia). destruct (HP x Hx) as [_ HP2]. rewrite HP2 by auto.
      destruct (child_at h R x k Hx Hk) as (_ & C1 & C2 & C3). apply H2; auto. apply Hhi; auto. lia.
    + assert (S t) by tauto. specialize (Hlo t Ht H). rewrite !fupd_other by (auto; apply Hch; auto). apply H5; auto.
  - intros t Ht Ht'. destruct (Z.eq_dec t x) as [->|Hne].
    + rewrite !fupd_same. exact U.
    + rewrite !fupd_other by auto. apply H6; auto. tauto.
Qed.

Lemma up_level item sched l s : sweep_ok h sched -> 0 <= l <= h_maxlevel h -> upst (fun t => l < level h t) s ->
  (forall tid t px m0s v, 0 <= t < nn -> level h t = l -> 0 <= tid < h_nthread h -> pv h px v -> mok h m0s -> up_done h (nf t) (pos t) (item tid t (px, m0s)) v) ->
  exists s', node_sweep h item (sched l) l s = Some s' /\ upst (fun t => l - 1 < level h t) s'.
Proof.
  intros Hs Hl H0 Hi. destruct (level_inv h R upst (fun t => l < level h t) item sched l s Hs Hl upst_iff H0) as (s' & E & Hs').
  - intros S tid x s0 Hx Hlx Htid Hn HS0 HSl. destruct s0 as [px m0s].
    destruct (up_step (fun t => l < level h t \/ S t) l x (px, m0s) (item tid x (px, m0s))) as (s' & E & H); auto.
    + intros [G|G]; [lia|auto].
    + intros t Ht [G|G]; [lia|]. rewrite (HSl t G). lia.
    + intros v Hv. apply Hi; auto. exact (proj1 HS0).
    + exists s'. split; auto.
  - exists s'. split; auto. eapply upst_iff; [|exact Hs']. intros x Hx. cbn beta. lia.
Qed.

(** ** The down sweep *)
Variable out : Z -> Z -> K.
Record DN (S : Z -> Prop) (v : Z -> K) (w z : Z -> Z -> K) : Prop := {
  dn_1 : forall t i, 0 <= t < nn -> ~ S t -> rank h t <= i < nrows h t -> v (pos t i) = out t i;
  dn_2 : forall p k i, 0 <= p < nn -> 0 <= k < nchild h p -> S p -> ~ S (child h p k) -> 0 <= i < rank h (child h p k) -> v (pos (child h p k) i) = z p (choff h p k + i)%Z;
  dn_3 : forall t i, 0 <= t < nn -> nchild h t = 0%Z -> S t -> 0 <= i < msize h t -> v (mfirst h t + i)%Z = z t i;
  dn_4 : forall t i, 0 <= t < nn -> S t -> rank h t <= i < nrows h t -> w t i = out t i;
  dn_5 : forall p k i, 0 <= p < nn -> 0 <= k < nchild h p -> S (child h p k) -> 0 <= i < rank h (child h p k) -> w (child h p k) i = z p (choff h p k + i)%Z;
  dn_6 : forall t, 0 <= t < nn -> S t -> down_rel (nf t) (w t) (z t) }.
Definition dnst (S : Z -> Prop) (s : svst) : Prop := mok h (snd s) /\ exists v w z, pv h (fst s) v /\ DN S v w z.

Lemma dnst_iff S S' s : (forall x, 0 <= x < nn -> (S x <-> S' x)) -> dnst S s -> dnst S' s.
Proof.
  intros E (M & v & w & z & P & [H1 H2 H3 H4 H5 H6]). split; auto. exists v, w, z. split; auto.
  assert (E' : forall t, 0 <= t < nn -> (S' t -> S t)) by (intros t Ht; apply E; auto).
  assert (E'' : forall t, 0 <= t < nn -> (~ S' t -> ~ S t)) by (intros t Ht H HS'; apply H; apply E; auto).
  assert (Ec : forall p k, 0 <= p < nn -> 0 <= k < nchild h p -> 0 <= child h p k < nn) by (intros p k Hp Hk; apply (child_at h R p k Hp Hk)).
  split; intros; eauto.
Qed.

Lemma down_step S l x s s' : 0 <= x < nn -> level h x = l -> ~ S x -> (forall t, 0 <= t < nn -> level h t < l -> S t) -> (forall t, 0 <= t < nn -> S t -> level h t <= l) ->
  dnst S s -> (forall v, pv h (fst s) v -> down_done h (nf x) (pos x) s' v) -> exists s'', s' = Some s'' /\ dnst (fun t => t = x \/ S t) s''.
Proof.
  intros Hx Hl Hn Hhi Hlo (M & v & w & z & P & [H1 H2 H3 H4 H5 H6]) Hd. destruct s as [px m0s]. cbn [fst snd] in *.
  destruct (Hd v P) as (px' & m0s' & v' & o & E & M' & P' & [A1 A2] & U). exists (px', m0s'). split; auto. split; auto.
  rewrite Nn in A1, A2 by auto.
  exists v', (fupd w x (fun i => v (pos x i))), (fupd z x o). cbn [fst]. split; auto.
  assert (Hge : forall t, 0 <= t < nn -> ~ S t -> (l <= level h t)%Z).
  { intros t Ht HSt. destruct (Z.lt_ge_cases (level h t) l); auto. destruct HSt. auto. }
  split.
  - intros t i Ht Hnt Hi. rewrite <- H1 by (auto; tauto). apply A2. intros k Hk. apply not_eq_sym. apply sep; auto. specialize (Hge t Ht ltac:(tauto)). lia.
  - intros p k i Hp Hk Hpp Hc Hi. destruct (child_at h R p k Hp Hk) as (_ & C1 & C2 & C3). pose proof (rank_le h R HS _ C1).
    destruct (Z.eq_dec p x) as [->|Hne].
    + rewrite fupd_same. rewrite <- A1 by (apply row_in; auto). f_equal. symmetry. apply (HP x Hx); auto.
    + rewrite fupd_other by auto. assert (Sp : S p) by tauto. rewrite <- H2 by (auto; tauto). apply A2. intros j Hj Eq.
      assert (I1 : inside h (child h p k) (pos (child h p k) i) = true) by (apply pos_inside; auto; lia).
      assert (I2 : inside h x (pos (child h p k) i) = true) by (rewrite Eq; apply pos_inside; auto).
      assert (I3 : inside h p (pos (child h p k) i) = true) by (eapply (child_inside h R); eauto).
      specialize (Hlo p Hp Sp). specialize (Hge _ C1 ltac:(tauto)). destruct (Z.eq_dec (level h (child h p k)) l) as [El|El].
      * apply Hc. left. eapply (same_level_disjoint h R); eauto. lia.
      * apply Hne. eapply (same_level_disjoint h R); eauto. lia.
  - intros t i Ht Hc Ht' Hi. destruct (Z.eq_dec t x) as [->|Hne].
    + rewrite fupd_same. rewrite <- A1 by (rewrite nrows_leaf by auto; auto). f_equal. symmetry. apply (HP x Hx); auto.
    + rewrite fupd_other by auto. assert (St : S t) by tauto. rewrite <- H3 by auto. apply A2. intros k Hk Eq.
      assert (I1 : inside h t (mfirst h t + i) = true) by (apply inside_iff; lia).
      assert (I2 : inside h x (mfirst h t + i) = true) by (rewrite Eq; apply pos_inside; auto).
      specialize (Hlo t Ht St). destruct (Z.eq_dec (level h t) l) as [El|El].
      * apply Hne. eapply (same_level_disjoint h R); eauto. lia.
      * apply (leaf_disjoint t x (mfirst h t + i)); auto. lia.
  - intros t i Ht Ht' Hi. destruct (Z.eq_dec t x) as [->|Hne].
    + rewrite fupd_same. apply H1; auto.
    + rewrite fupd_other by auto. apply H4; auto. tauto.
  - intros p k i Hp Hk Hc Hi. destruct (child_at h R p k Hp Hk) as (_ & C1 & C2 & C3). destruct (Z.eq_dec (child h p k) x) as [Ex|Hne].
    + rewrite Ex, fupd_same. assert (p <> x) by (intros ->; lia). rewrite fupd_other by auto. rewrite <- H2; auto.
      * now rewrite Ex.
      * apply Hhi; auto. rewrite Ex in C3. lia.
      * now rewrite Ex.
    + rewrite (fupd_other w) by auto. assert (Sc : S (child h p k)) by tauto. specialize (Hlo _ C1 Sc). assert (p <> x) by (intros ->; lia). rewrite fupd_other by auto. apply H5; auto.
  - intros t Ht Ht'. destruct (Z.eq_dec t x) as [->|Hne].
    + rewrite !fupd_same. exact U.
    + rewrite !fupd_other by auto. apply H6; auto. tauto.
Qed.

Lemma down_level item sched l s : sweep_ok h sched -> 0 <= l <= h_maxlevel h -> dnst (fun t => level h t < l) s ->
  (forall tid t px m0s v, 0 <= t < nn -> level h t = l -> 0 <= tid < h_nthread h -> pv h px v -> mok h m0s -> down_done h (nf t) (pos t) (item tid t (px, m0s)) v) ->
  exists s', node_sweep h item (sched l) l s = Some s' /\ dnst (fun t => level h t < l + 1) s'.
Proof.
  intros Hs Hl H0 Hi. destruct (level_inv h R dnst (fun t => level h t < l) item sched l s Hs Hl dnst_iff H0) as (s' & E & Hs').
  - intros S tid x s0 Hx Hlx Htid Hn HS0 HSl. destruct s0 as [px m0s].
    destruct (down_step (fun t => level h t < l \/ S t) l x (px, m0s) (item tid x (px, m0s))) as (s' & E & H); auto.
    + intros [G|G]; [lia|auto].
    + intros t Ht [G|G]; [lia|]. rewrite (HSl t G). lia.
    + intros v Hv. apply Hi; auto. exact (proj1 HS0).
    + exists s'. split; auto.
  - exists s'. split; auto. eapply dnst_iff; [|exact Hs']. intros x Hx. cbn beta. lia.
Qed.
End Sweeps.
End Solve.
