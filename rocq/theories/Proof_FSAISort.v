From Coq Require Import ZArith List Lia Bool Permutation.
From Verif Require Import Base Mem Num CRing Model_CSR Spec_CSR Proof_Qsort Model_FSAI Spec_FSAI.
Import ListNotations.
Open Scope Z_scope.

Section Sort.
Context {A B : Type} (lt : A -> A -> bool).
Hypothesis T : total_lt lt.
Definition le (a b : A) : Prop := lt b a = false.

Lemma le_refl a : le a a.
Proof. unfold le. destruct (lt a a) eqn:E; auto. pose proof (tl_asym lt T a a E). congruence. Qed.
Lemma le_trans a b c : le a b -> le b c -> le a c.
Proof. unfold le. intros. eapply (tl_trans lt T); eauto. Qed.
Lemma lt_le a b : lt a b = true -> le a b.
Proof. apply (tl_asym lt T). Qed.

Definition gcells (key : mem A) (val : mem B) (lo hi : Z) : list (option A * option B) := map (fun k => (ld key k, ld val k)) (zrange lo hi).

Lemma gcells_split key val lo mid hi : lo <= mid <= hi -> gcells key val lo hi = gcells key val lo mid ++ gcells key val mid hi.
Proof. intros. unfold gcells. now rewrite (zrange_app lo mid hi), map_app by lia. Qed.
Lemma gcells_ext key val key' val' lo hi : (forall k, lo <= k < hi -> ld key k = ld key' k /\ ld val k = ld val' k) -> gcells key val lo hi = gcells key' val' lo hi.
Proof. intros H. unfold gcells. apply map_ext_in. intros k Hk. apply In_zrange in Hk. destruct (H k Hk) as [-> ->]. reflexivity. Qed.
Lemma gperm_sub key val key' val' lo hi a b : lo <= a -> a <= b -> b <= hi -> same_out key key' a b -> same_out val val' a b ->
  Permutation (gcells key' val' a b) (gcells key val a b) -> Permutation (gcells key' val' lo hi) (gcells key val lo hi).
Proof.
  intros H1 H2 H3 S1 S2 P. rewrite (gcells_split key' val' lo a hi), (gcells_split key' val' a b hi) by lia.
  rewrite (gcells_split key val lo a hi), (gcells_split key val a b hi) by lia.
  rewrite (gcells_ext key' val' key val lo a), (gcells_ext key' val' key val b hi).
  - apply Permutation_app_head. apply Permutation_app_tail. auto.
  - intros k Hk. split; [apply S1|apply S2]; lia.
  - intros k Hk. split; [apply S1|apply S2]; lia.
Qed.
Lemma gperm_at key val key' val' lo hi : Permutation (gcells key' val' lo hi) (gcells key val lo hi) ->
  forall k, lo <= k < hi -> exists k', lo <= k' < hi /\ ld key' k = ld key k' /\ ld val' k = ld val k'.
Proof.
  intros P k Hk'. assert (In (ld key' k, ld val' k) (gcells key val lo hi)).
  { eapply Permutation_in; [exact P|]. unfold gcells. apply in_map_iff. exists k. split; auto. now apply In_zrange. }
  unfold gcells in H. apply in_map_iff in H as (k' & E & Hk2). apply In_zrange in Hk2. injection E as <- <-. eauto.
Qed.
Lemma gperm_inited key val key' val' lo hi : Permutation (gcells key' val' lo hi) (gcells key val lo hi) ->
  inited key lo hi -> inited val lo hi -> inited key' lo hi /\ inited val' lo hi.
Proof.
  intros P Hk Hv. split; intros k Hk'; destruct (gperm_at _ _ _ _ _ _ P k Hk') as (k' & Hr & E1 & E2); [rewrite E1|rewrite E2]; auto.
Qed.
Lemma gperm_keys key val key' val' lo hi (Q : A -> Prop) : Permutation (gcells key' val' lo hi) (gcells key val lo hi) ->
  (forall k v, lo <= k < hi -> ld key k = Some v -> Q v) -> (forall k v, lo <= k < hi -> ld key' k = Some v -> Q v).
Proof.
  intros P H k v Hk Hv. destruct (gperm_at _ _ _ _ _ _ P k Hk) as (k' & Hr & E1 & E2). apply (H k' v Hr). congruence.
Qed.

Lemma kv_up_spec key mid : forall fuel i k0 v0,
  i <= k0 -> ld key k0 = Some v0 -> le mid v0 -> inited key i (k0 + 1) -> (Z.to_nat (k0 - i) < fuel)%nat ->
  exists i', kv_up lt fuel key i mid = Some i' /\ i <= i' <= k0 /\
    (forall k v, i <= k < i' -> ld key k = Some v -> lt v mid = true) /\ exists v, ld key i' = Some v /\ le mid v.
Proof.
  induction fuel; intros i k0 v0 Hle Hk0 Hv Hi Hf; [lia|]. cbn [kv_up].
  destruct (Hi i ltac:(lia)) as [v Hvi]. rewrite Hvi. cbn [bind]. destruct (lt v mid) eqn:El.
  - assert (i <> k0) by (intros ->; unfold le in Hv; congruence).
    destruct (IHfuel (i + 1) k0 v0) as (i' & E & Hr & Hb & Hx); auto; try lia.
    { intros k Hk. apply Hi. lia. }
    exists i'. split; auto. split; [lia|]. split; auto.
    intros k w Hk Hw. destruct (Z.eq_dec k i) as [->|]; [congruence|]. apply (Hb k); auto; lia.
  - exists i. split; auto. split; [lia|]. split; [intros; lia|]. eauto.
Qed.
Lemma kv_down_spec key mid : forall fuel j k0 v0,
  k0 <= j -> ld key k0 = Some v0 -> le v0 mid -> inited key k0 (j + 1) -> (Z.to_nat (j - k0) < fuel)%nat ->
  exists j', kv_down lt fuel key j mid = Some j' /\ k0 <= j' <= j /\
    (forall k v, j' < k <= j -> ld key k = Some v -> lt mid v = true) /\ exists v, ld key j' = Some v /\ le v mid.
Proof.
  induction fuel; intros j k0 v0 Hle Hk0 Hv Hi Hf; [lia|]. cbn [kv_down].
  destruct (Hi j ltac:(lia)) as [v Hvi]. rewrite Hvi. cbn [bind]. destruct (lt mid v) eqn:El.
  - assert (j <> k0) by (intros ->; unfold le in Hv; congruence).
    destruct (IHfuel (j - 1) k0 v0) as (j' & E & Hr & Hb & Hx); auto; try lia.
    { intros k Hk. apply Hi. lia. }
    exists j'. split; auto. split; [lia|]. split; auto.
    intros k w Hk Hw. destruct (Z.eq_dec k j) as [->|]; [congruence|]. apply (Hb k); auto; lia.
  - exists j. split; auto. split; [lia|]. split; [intros; lia|]. eauto.
Qed.

Lemma swap_spec {C} (m : mem C) i j a b : ld m i = Some a -> ld m j = Some b ->
  exists m', (x <- ld m i; y <- ld m j; m <- st m i y; st m j x) = Some m' /\ zlen m' = zlen m /\ ld m' i = Some b /\ ld m' j = Some a /\
    forall k, k <> i -> k <> j -> ld m' k = ld m k.
Proof. apply mswap_spec. Qed.

Record gpart_inv (key0 : mem A) (val0 : mem B) (l r : Z) (mid : A) (key : mem A) (val : mem B) (i j : Z) : Prop := {
  pv_zk : zlen key = zlen key0; pv_zv : zlen val = zlen val0;
  pv_ok : same_out key0 key l (r + 1); pv_ov : same_out val0 val l (r + 1);
  pv_p : Permutation (gcells key val l (r + 1)) (gcells key0 val0 l (r + 1));
  pv_ik : inited key l (r + 1); pv_iv : inited val l (r + 1);
  pv_lo : forall k v, l <= k < i -> ld key k = Some v -> le v mid;
  pv_hi : forall k v, j < k <= r -> ld key k = Some v -> le mid v;
  pv_i : l <= i; pv_j : j <= r;
  pv_st : (i = l /\ j = r /\ exists k, l <= k <= r /\ ld key k = Some mid) \/ (l < i /\ j < r)
}.

Lemma kv_part_spec key0 val0 l r mid : l <= r -> r < zlen key0 -> 0 <= l -> forall fuel key val i j,
  gpart_inv key0 val0 l r mid key val i j -> (Z.to_nat (j - i + 2) < fuel)%nat ->
  exists key' val' i' j', kv_part lt fuel key val i j mid = Some (key', val', i', j') /\
    gpart_inv key0 val0 l r mid key' val' i' j' /\ j' < i' /\ l < i' /\ j' < r.
Proof.
  intros Hlr Hrz Hl0. induction fuel as [|fuel IH]; intros key val i j I Hf; [lia|]. cbn [kv_part].
  destruct (Z.leb_spec i j).
  2:{ do 4 eexists. split; [reflexivity|]. split; auto. destruct I. destruct pv_st0 as [(-> & -> & _)|]; lia. }
  destruct I.
  assert (exists k0 v0, i <= k0 <= r /\ ld key k0 = Some v0 /\ le mid v0) as (ku & vu & Hu1 & Hu2 & Hu3).
  { destruct pv_st0 as [(-> & -> & k & Hk & Hm)|[H1 H2]].
    - exists k, mid. repeat split; auto; try lia. apply le_refl.
    - destruct (pv_ik0 (j + 1) ltac:(lia)) as [v Hv]. exists (j + 1), v. split; [lia|]. split; auto. apply (pv_hi0 (j + 1)); auto; lia. }
  assert (exists k0 v0, l <= k0 <= j /\ ld key k0 = Some v0 /\ le v0 mid) as (kd & vd & Hd1 & Hd2 & Hd3).
  { destruct pv_st0 as [(-> & -> & k & Hk & Hm)|[H1 H2]].
    - exists k, mid. repeat split; auto; try lia. apply le_refl.
    - destruct (pv_ik0 (i - 1) ltac:(lia)) as [v Hv]. exists (i - 1), v. split; [lia|]. split; auto. apply (pv_lo0 (i - 1)); auto; lia. }
  destruct (kv_up_spec key mid (S (length key)) i ku vu) as (i' & Ei & Ri & Bi & wi & Wi & Wi'); auto; try lia.
  { intros k Hk. apply pv_ik0. lia. }
  { unfold zlen in *. lia. }
  destruct (kv_down_spec key mid (S (length key)) j kd vd) as (j' & Ej & Rj & Bj & wj & Wj & Wj'); auto; try lia.
  { intros k Hk. apply pv_ik0. lia. }
  { unfold zlen in *. lia. }
  rewrite Ei. cbn [bind]. rewrite Ej. cbn [bind].
  destruct (Z.leb_spec i' j').
  - unfold swap_pair. destruct (swap_spec key i' j' wi wj Wi Wj) as (key1 & Ek & Zk & K1 & K2 & K3). rewrite Ek. cbn [bind].
    destruct (pv_iv0 i' ltac:(lia)) as [xi Xi]. destruct (pv_iv0 j' ltac:(lia)) as [xj Xj].
    destruct (swap_spec val i' j' xi xj Xi Xj) as (val1 & Ev & Zv & V1 & V2 & V3). rewrite Ev. cbn [bind].
    assert (P : Permutation (gcells key1 val1 l (r + 1)) (gcells key val l (r + 1))).
    { unfold gcells. apply (map_transpose_perm _ _ l (r + 1) i' j'); try lia.
      - now rewrite K1, V1, Wj, Xj. - now rewrite K2, V2, Wi, Xi.
      - intros k H1 H2. now rewrite K3, V3. }
    destruct (gperm_inited _ _ _ _ _ _ P pv_ik0 pv_iv0) as [IK IV].
    apply IH; [|lia]. constructor; try (solve [auto]).
    + lia. + lia.
    + intros k Hk. rewrite K3 by lia. apply pv_ok0. auto.
    + intros k Hk. rewrite V3 by lia. apply pv_ov0. auto.
    + eapply Permutation_trans; eauto.
    + intros k v Hk Hv. destruct (Z.eq_dec k i') as [->|].
      * rewrite K1 in Hv. injection Hv as <-. auto.
      * destruct (Z.eq_dec k j') as [->|]; [lia|]. rewrite K3 in Hv by auto.
        destruct (Z_lt_le_dec k i); [apply (pv_lo0 k); auto; lia|]. apply lt_le. apply (Bi k v ltac:(lia) Hv).
    + intros k v Hk Hv. destruct (Z.eq_dec k j') as [->|].
      * rewrite K2 in Hv. injection Hv as <-. auto.
      * destruct (Z.eq_dec k i') as [->|]; [lia|]. rewrite K3 in Hv by auto.
        destruct (Z_lt_le_dec j k); [apply (pv_hi0 k); auto; lia|]. apply lt_le. apply (Bj k v ltac:(lia) Hv).
    + lia. + lia. + right. lia.
  - assert (l < i' /\ j' < r).
    { destruct pv_st0 as [(-> & -> & k & Hk & Hm)|[H1 H2]]; [|lia].
      exfalso. pose proof (le_refl mid) as LR. unfold le in LR. destruct (Z_lt_le_dec k i') as [Hc|Hc].
      - specialize (Bi k mid ltac:(lia) Hm). congruence.
      - destruct (Z_lt_le_dec j' k) as [Hc'|Hc']; [|lia]. specialize (Bj k mid ltac:(lia) Hm). congruence. }
    apply IH; [|lia]. constructor; try (solve [auto]).
    + intros k v Hk Hv. destruct (Z_lt_le_dec k i); [apply (pv_lo0 k); auto; lia|]. apply lt_le. apply (Bi k v ltac:(lia) Hv).
    + intros k v Hk Hv. destruct (Z_lt_le_dec j k); [apply (pv_hi0 k); auto; lia|]. apply lt_le. apply (Bj k v ltac:(lia) Hv).
    + lia. + lia.
Qed.

(** The first cells, up to position k, are in order and below all later ones. *)
Definition qp_post (key : mem A) (val : mem B) (key' : mem A) (val' : mem B) (l r n : Z) : Prop :=
  zlen key' = zlen key /\ zlen val' = zlen val /\
  same_out key key' l (r + 1) /\ same_out val val' l (r + 1) /\
  Permutation (gcells key' val' l (r + 1)) (gcells key val l (r + 1)) /\
  forall p q a b, l <= p < n -> p <= q <= r -> ld key' p = Some a -> ld key' q = Some b -> le a b.

Lemma qp_trivial key val l r n : r <= l -> qp_post key val key val l r n.
Proof.
  intros H. split; auto. split; auto. split; [intros k ?; auto|]. split; [intros k ?; auto|]. split; auto.
  intros p q a b H1 H2 Ha Hb. assert (p = q) by lia. subst. rewrite Ha in Hb. injection Hb as ->. apply le_refl.
Qed.

Lemma Qpart_spec n : forall fuel key val l r, (Z.to_nat (r - l + 1) < fuel)%nat ->
  0 <= l <= r -> r < zlen key -> inited key l (r + 1) -> inited val l (r + 1) ->
  exists key' val', Qpart_key_val lt fuel key val l r n = Some (key', val') /\ qp_post key val key' val' l r n.
Proof.
  induction fuel as [|fuel IH]; intros key val l r Hf Hlr Hr Hk Hv; [lia|]. cbn [Qpart_key_val].
  rewrite Z.quot_div_nonneg by lia. set (m := (l + r) / 2).
  assert (Hm : l <= m <= r) by (unfold m; pose proof (Z.div_mod (l + r) 2 ltac:(lia)); pose proof (Z.mod_pos_bound (l + r) 2 ltac:(lia)); lia).
  destruct (Hk m ltac:(lia)) as [mid Emid]. rewrite Emid. cbn [bind].
  destruct (kv_part_spec key val l r mid ltac:(lia) Hr ltac:(lia) (Z.to_nat (r - l + 3)) key val l r) as (key1 & val1 & i & j & E & I & Hij & Hi & Hj).
  { constructor; try (solve [auto]); try lia. - intros k ?; auto. - intros k ?; auto.
    - left. split; auto. split; auto. exists m. auto. }
  { lia. }
  rewrite E. cbn [bind]. destruct I.
  (* left part *)
  assert (exists key2 val2, (if l <? j then Qpart_key_val lt fuel key1 val1 l j n else Some (key1, val1)) = Some (key2, val2) /\
     qp_post key1 val1 key2 val2 l j n) as (key2 & val2 & E2 & Q2).
  { destruct (Z.ltb_spec l j).
    - apply IH; try lia. + intros k Hkk; apply pv_ik0; lia. + intros k Hkk; apply pv_iv0; lia.
    - exists key1, val1. split; auto. apply qp_trivial. lia. }
  rewrite E2. cbn [bind]. destruct Q2 as (Z2k & Z2v & O2k & O2v & P2 & S2).
  assert (P2' : Permutation (gcells key2 val2 l (r + 1)) (gcells key val l (r + 1))).
  { eapply Permutation_trans; [|exact pv_p0].
    destruct (Z_le_dec l j).
    - apply (gperm_sub key1 val1 key2 val2 l (r + 1) l (j + 1)); auto; lia.
    - rewrite (gcells_ext key2 val2 key1 val1 l (r + 1)); [auto|]. intros k Hkk. split; [apply O2k|apply O2v]; lia. }
  destruct (gperm_inited _ _ _ _ _ _ P2' Hk Hv) as [IK2 IV2].
  (* right part *)
  assert (exists key3 val3, (if (i <? r) && (i <? n) then Qpart_key_val lt fuel key2 val2 i r n else Some (key2, val2)) = Some (key3, val3) /\
     qp_post key2 val2 key3 val3 i r n) as (key3 & val3 & E3 & Q3).
  { destruct (Z.ltb_spec i r); [destruct (Z.ltb_spec i n)|]; cbn [andb].
    - apply IH; try lia. + intros k Hkk; apply IK2; lia. + intros k Hkk; apply IV2; lia.
    - exists key2, val2. split; auto. split; auto. split; auto. split; [intros k ?; auto|]. split; [intros k ?; auto|]. split; auto. intros; lia.
    - exists key2, val2. split; auto. apply qp_trivial. lia. }
  exists key3, val3. split; auto. destruct Q3 as (Z3k & Z3v & O3k & O3v & P3 & S3).
  assert (P3' : Permutation (gcells key3 val3 l (r + 1)) (gcells key val l (r + 1))).
  { eapply Permutation_trans; [|exact P2'].
    destruct (Z_le_dec i r).
    - apply (gperm_sub key2 val2 key3 val3 l (r + 1) i (r + 1)); auto; lia.
    - rewrite (gcells_ext key3 val3 key2 val2 l (r + 1)); [auto|]. intros k Hkk. split; [apply O3k|apply O3v]; lia. }
  assert (Bl : forall k v, l <= k < j + 1 -> ld key3 k = Some v -> le v mid).
  { intros k v Hkk Hvv. rewrite O3k in Hvv by lia. revert k v Hkk Hvv. apply (gperm_keys _ _ _ _ _ _ _ P2).
    intros k v Hkk Hvv. apply (pv_lo0 k); auto; lia. }
  assert (Br : forall k v, i <= k < r + 1 -> ld key3 k = Some v -> le mid v).
  { apply (gperm_keys _ _ _ _ _ _ _ P3). intros k v Hkk Hvv. rewrite O2k in Hvv by lia. apply (pv_hi0 k); auto; lia. }
  assert (Bm : forall k v, l <= k <= r -> j < k < i -> ld key3 k = Some v -> le v mid /\ le mid v).
  { intros k v Hlr2 Hkk Hvv. rewrite O3k in Hvv by lia. rewrite O2k in Hvv by lia.
    split; [apply (pv_lo0 k); auto; lia|apply (pv_hi0 k); auto; lia]. }
  split; [lia|]. split; [lia|].
  split; [eapply (same_out_trans _ key2 _ _ _ i (r + 1)); [lia|lia| |auto]; eapply (same_out_trans _ key1 _ _ _ l (j + 1)); [lia|lia|auto|auto]|].
  split; [eapply (same_out_trans _ val2 _ _ _ i (r + 1)); [lia|lia| |auto]; eapply (same_out_trans _ val1 _ _ _ l (j + 1)); [lia|lia|auto|auto]|].
  split; auto.
  intros p q a b H1 H2 Ha Hb.
  destruct (Z_le_dec q j).
  { rewrite O3k in Ha, Hb by lia. apply (S2 p q); auto; lia. }
  destruct (Z_le_dec i p).
  { apply (S3 p q); auto; lia. }
  apply (le_trans _ mid).
  - destruct (Z_le_dec p j); [apply (Bl p); auto; lia|]. apply (Bm p a); auto; lia.
  - destruct (Z_le_dec i q); [apply (Br q); auto; lia|]. apply (Bm q b); auto; lia.
Qed.
End Sort.
