From Coq Require Import ZArith List Lia Bool Permutation.
From Verif Require Import Base Mem Model_CSR Spec_CSR.
Import ListNotations.
Open Scope Z_scope.

Definition inited {A} (m : mem A) (lo hi : Z) := forall k, lo <= k < hi -> exists v, ld m k = Some v.

Lemma scan_up_spec key mid : forall fuel i k0 v0,
  i <= k0 -> ld key k0 = Some v0 -> mid <= v0 -> inited key i (k0 + 1) -> (Z.to_nat (k0 - i) < fuel)%nat ->
  exists i', scan_up fuel key i mid = Some i' /\ i <= i' <= k0 /\
    (forall k v, i <= k < i' -> ld key k = Some v -> v < mid) /\
    exists v, ld key i' = Some v /\ mid <= v.
Proof.
  induction fuel; intros i k0 v0 Hle Hk0 Hv Hi Hf; [lia|]. cbn [scan_up].
  destruct (Hi i ltac:(lia)) as [v Hvi]. rewrite Hvi. cbn [bind]. destruct (Z.ltb_spec v mid).
  - assert (i <> k0) by (intros ->; rewrite Hk0 in Hvi; injection Hvi as <-; lia).
    destruct (IHfuel (i + 1) k0 v0) as (i' & E & Hr & Hb & Hx); auto; try lia.
    { intros k Hk. apply Hi. lia. }
    exists i'. split; auto. split; [lia|]. split; auto.
    intros k w Hk Hw. destruct (Z.eq_dec k i) as [->|]; [congruence|]. apply (Hb k); auto; lia.
  - exists i. split; auto. split; [lia|]. split; [intros; lia|]. eauto.
Qed.

Lemma scan_down_spec key mid : forall fuel j k0 v0,
  k0 <= j -> ld key k0 = Some v0 -> v0 <= mid -> inited key k0 (j + 1) -> (Z.to_nat (j - k0) < fuel)%nat ->
  exists j', scan_down fuel key j mid = Some j' /\ k0 <= j' <= j /\
    (forall k v, j' < k <= j -> ld key k = Some v -> mid < v) /\
    exists v, ld key j' = Some v /\ v <= mid.
Proof.
  induction fuel; intros j k0 v0 Hle Hk0 Hv Hi Hf; [lia|]. cbn [scan_down].
  destruct (Hi j ltac:(lia)) as [v Hvi]. rewrite Hvi. cbn [bind]. destruct (Z.ltb_spec mid v).
  - assert (j <> k0) by (intros ->; rewrite Hk0 in Hvi; injection Hvi as <-; lia).
    destruct (IHfuel (j - 1) k0 v0) as (j' & E & Hr & Hb & Hx); auto; try lia.
    { intros k Hk. apply Hi. lia. }
    exists j'. split; auto. split; [lia|]. split; auto.
    intros k w Hk Hw. destruct (Z.eq_dec k j) as [->|]; [congruence|]. apply (Hb k); auto; lia.
  - exists j. split; auto. split; [lia|]. split; [intros; lia|]. eauto.
Qed.

Lemma mswap_spec {A} (m : mem A) i j a b : ld m i = Some a -> ld m j = Some b ->
  exists m', mswap m i j = Some m' /\ zlen m' = zlen m /\ ld m' i = Some b /\ ld m' j = Some a /\
    forall k, k <> i -> k <> j -> ld m' k = ld m k.
Proof.
  intros Ha Hb. unfold mswap. rewrite Ha, Hb. cbn [bind].
  destruct (st_Some m i b (ld_range _ _ _ Ha)) as [m1 E1]. rewrite E1. cbn [bind].
  pose proof (st_zlen _ _ _ _ E1) as Z1. pose proof (ld_range _ _ _ Hb).
  destruct (st_Some m1 j a ltac:(lia)) as [m2 E2]. exists m2. split; auto.
  rewrite (st_zlen _ _ _ _ E2). split; auto. rewrite !(ld_st _ _ _ _ _ E2), !(ld_st _ _ _ _ _ E1).
  split; [|split].
  - destruct (Z.eqb_spec j i); [congruence|]. now rewrite Z.eqb_refl.
  - now rewrite Z.eqb_refl.
  - intros k H1 H2. rewrite (ld_st _ _ _ _ _ E2), (ld_st _ _ _ _ _ E1).
    destruct (Z.eqb_spec j k); [congruence|]. destruct (Z.eqb_spec i k); congruence.
Qed.

(** Permuting cells *)
Lemma map_transpose_perm {B} (g g' : Z -> B) lo hi i j : lo <= i < hi -> lo <= j < hi ->
  g' i = g j -> g' j = g i -> (forall k, k <> i -> k <> j -> g' k = g k) ->
  Permutation (map g' (zrange lo hi)) (map g (zrange lo hi)).
Proof.
  intros Hi Hj E1 E2 E3. set (tau := fun k => if k =? i then j else if k =? j then i else k).
  assert (Ht : forall k, tau (tau k) = k).
  { intros k. unfold tau. destruct (Z.eqb_spec k i); [subst|destruct (Z.eqb_spec k j); [subst|]].
    - destruct (Z.eqb_spec j i); [congruence|]. now rewrite Z.eqb_refl.
    - now rewrite Z.eqb_refl.
    - destruct (Z.eqb_spec k i); [congruence|]. destruct (Z.eqb_spec k j); congruence. }
  assert (Hg : forall k, g' k = g (tau k)).
  { intros k. unfold tau. destruct (Z.eqb_spec k i); [subst; auto|]. destruct (Z.eqb_spec k j); [subst; auto|]. auto. }
  rewrite (map_ext _ _ Hg). rewrite <- (map_map tau g). apply Permutation_map.
  apply NoDup_Permutation.
  - apply FinFun.Injective_map_NoDup; [|apply NoDup_zrange]. intros a b Hab. rewrite <- (Ht a), <- (Ht b). now f_equal.
  - apply NoDup_zrange.
  - intros x. rewrite in_map_iff, In_zrange. split.
    + intros (k & <- & Hk). apply In_zrange in Hk. unfold tau. destruct (k =? i); [lia|]. destruct (k =? j); lia.
    + intros Hx. exists (tau x). split; auto. apply In_zrange. unfold tau. destruct (x =? i); [lia|]. destruct (x =? j); lia.
Qed.

Definition same_out {A} (m m' : mem A) (lo hi : Z) := forall k, ~ (lo <= k < hi) -> ld m' k = ld m k.

Lemma cells_split {A} key (val : mem A) lo mid hi : lo <= mid <= hi -> cells key val lo hi = cells key val lo mid ++ cells key val mid hi.
Proof. intros. unfold cells. now rewrite (zrange_app lo mid hi), map_app by lia. Qed.

Lemma cells_ext {A} key (val : mem A) key' val' lo hi : (forall k, lo <= k < hi -> ld key k = ld key' k /\ ld val k = ld val' k) ->
  cells key val lo hi = cells key' val' lo hi.
Proof.
  intros H. unfold cells. apply map_ext_in. intros k Hk. apply In_zrange in Hk. destruct (H k Hk) as [-> ->]. reflexivity.
Qed.

(** A rearrangement inside a subrange rearranges the range. *)
Lemma perm_sub {A} key (val : mem A) key' val' lo hi a b : lo <= a -> a <= b -> b <= hi ->
  same_out key key' a b -> same_out val val' a b ->
  Permutation (cells key' val' a b) (cells key val a b) ->
  Permutation (cells key' val' lo hi) (cells key val lo hi).
Proof.
  intros H1 H2 H3 S1 S2 P. rewrite (cells_split key' val' lo a hi), (cells_split key' val' a b hi) by lia.
  rewrite (cells_split key val lo a hi), (cells_split key val a b hi) by lia.
  rewrite (cells_ext key' val' key val lo a), (cells_ext key' val' key val b hi).
  - apply Permutation_app_head. apply Permutation_app_tail. auto.
  - intros k Hk. split; [apply S1|apply S2]; lia.
  - intros k Hk. split; [apply S1|apply S2]; lia.
Qed.

Lemma perm_inited {A} key (val : mem A) key' val' lo hi : Permutation (cells key' val' lo hi) (cells key val lo hi) ->
  inited key lo hi -> inited val lo hi -> inited key' lo hi /\ inited val' lo hi.
Proof.
  intros P Hk Hv.
  assert (forall k, lo <= k < hi -> exists k', lo <= k' < hi /\ ld key' k = ld key k' /\ ld val' k = ld val k').
  { intros k Hk'. assert (In (ld key' k, ld val' k) (cells key val lo hi)).
    { eapply Permutation_in; [exact P|]. unfold cells. apply in_map_iff. exists k. split; auto. now apply In_zrange. }
    unfold cells in H. apply in_map_iff in H as (k' & E & Hk2). apply In_zrange in Hk2. injection E as <- <-. eauto. }
  split; intros k Hk'; destruct (H k Hk') as (k' & Hr & E1 & E2); [rewrite E1|rewrite E2]; auto.
Qed.

Lemma perm_keys {A} key (val : mem A) key' val' lo hi (Q : Z -> Prop) : Permutation (cells key' val' lo hi) (cells key val lo hi) ->
  (forall k v, lo <= k < hi -> ld key k = Some v -> Q v) -> (forall k v, lo <= k < hi -> ld key' k = Some v -> Q v).
Proof.
  intros P H k v Hk Hv. assert (In (ld key' k, ld val' k) (cells key val lo hi)).
  { eapply Permutation_in; [exact P|]. unfold cells. apply in_map_iff. exists k. split; auto. now apply In_zrange. }
  unfold cells in H0. apply in_map_iff in H0 as (k' & E & Hk2). apply In_zrange in Hk2. injection E as E1 E2.
  apply (H k' v Hk2). congruence.
Qed.

Record part_inv {A} (key0 : mem Z) (val0 : mem A) (l r mid : Z) (key : mem Z) (val : mem A) (i j : Z) : Prop := {
  pv_zk : zlen key = zlen key0; pv_zv : zlen val = zlen val0;
  pv_ok : same_out key0 key l (r + 1); pv_ov : same_out val0 val l (r + 1);
  pv_p : Permutation (cells key val l (r + 1)) (cells key0 val0 l (r + 1));
  pv_ik : inited key l (r + 1); pv_iv : inited val l (r + 1);
  pv_lo : forall k v, l <= k < i -> ld key k = Some v -> v <= mid;
  pv_hi : forall k v, j < k <= r -> ld key k = Some v -> mid <= v;
  pv_i : l <= i; pv_j : j <= r;
  pv_st : (i = l /\ j = r /\ exists k, l <= k <= r /\ ld key k = Some mid) \/ (l < i /\ j < r)
}.

Lemma part_loop_spec {A} key0 (val0 : mem A) l r mid : l <= r -> r < zlen key0 -> 0 <= l -> forall fuel key val i j,
  part_inv key0 val0 l r mid key val i j -> (Z.to_nat (j - i + 2) < fuel)%nat ->
  exists key' val' i' j', part_loop fuel key val i j mid = Some (key', val', i', j') /\
    part_inv key0 val0 l r mid key' val' i' j' /\ j' < i' /\ l < i' /\ j' < r.
Proof.
  intros Hlr Hrz Hl0. induction fuel as [|fuel IH]; intros key val i j I Hf; [lia|]. cbn [part_loop].
  destruct (Z.leb_spec i j).
  2:{ do 4 eexists. split; [reflexivity|]. split; auto. destruct I. destruct pv_st0 as [(-> & -> & _)|]; lia. }
  destruct I.
  assert (exists k0 v0, i <= k0 <= r /\ ld key k0 = Some v0 /\ mid <= v0) as (ku & vu & Hu1 & Hu2 & Hu3).
  { destruct pv_st0 as [(-> & -> & k & Hk & Hm)|[H1 H2]].
    - exists k, mid. repeat split; auto; lia.
    - destruct (pv_ik0 (j + 1) ltac:(lia)) as [v Hv]. exists (j + 1), v. split; [lia|]. split; auto. apply (pv_hi0 (j + 1)); auto; lia. }
  assert (exists k0 v0, l <= k0 <= j /\ ld key k0 = Some v0 /\ v0 <= mid) as (kd & vd & Hd1 & Hd2 & Hd3).
  { destruct pv_st0 as [(-> & -> & k & Hk & Hm)|[H1 H2]].
    - exists k, mid. repeat split; auto; lia.
    - destruct (pv_ik0 (i - 1) ltac:(lia)) as [v Hv]. exists (i - 1), v. split; [lia|]. split; auto. apply (pv_lo0 (i - 1)); auto; lia. }
  destruct (scan_up_spec key mid (S (length key)) i ku vu) as (i' & Ei & Ri & Bi & wi & Wi & Wi'); auto; try lia.
  { intros k Hk. apply pv_ik0. lia. }
  { unfold zlen in *. lia. }
  destruct (scan_down_spec key mid (S (length key)) j kd vd) as (j' & Ej & Rj & Bj & wj & Wj & Wj'); auto; try lia.
  { intros k Hk. apply pv_ik0. lia. }
  { unfold zlen in *. lia. }
  rewrite Ei. cbn [bind]. rewrite Ej. cbn [bind].
  destruct (Z.leb_spec i' j').
  - destruct (mswap_spec key i' j' wi wj Wi Wj) as (key1 & Ek & Zk & K1 & K2 & K3). rewrite Ek. cbn [bind].
    destruct (pv_iv0 i' ltac:(lia)) as [xi Xi]. destruct (pv_iv0 j' ltac:(lia)) as [xj Xj].
    destruct (mswap_spec val i' j' xi xj Xi Xj) as (val1 & Ev & Zv & V1 & V2 & V3). rewrite Ev. cbn [bind].
    assert (P : Permutation (cells key1 val1 l (r + 1)) (cells key val l (r + 1))).
    { unfold cells. apply (map_transpose_perm _ _ l (r + 1) i' j'); try lia.
      - now rewrite K1, V1, Wj, Xj. - now rewrite K2, V2, Wi, Xi.
      - intros k H1 H2. now rewrite K3, V3. }
    destruct (perm_inited _ _ _ _ _ _ P pv_ik0 pv_iv0) as [IK IV].
    apply IH; [|lia]. constructor; try (solve [auto]).
    + lia. + lia.
    + intros k Hk. rewrite K3 by lia. apply pv_ok0. auto.
    + intros k Hk. rewrite V3 by lia. apply pv_ov0. auto.
    + eapply Permutation_trans; eauto.
    + intros k v Hk Hv. destruct (Z.eq_dec k i') as [->|].
      * rewrite K1 in Hv. injection Hv as <-. auto.
      * destruct (Z.eq_dec k j') as [->|]; [lia|]. rewrite K3 in Hv by auto.
        destruct (Z_lt_le_dec k i); [apply (pv_lo0 k); auto; lia|]. specialize (Bi k v ltac:(lia) Hv). lia.
    + intros k v Hk Hv. destruct (Z.eq_dec k j') as [->|].
      * rewrite K2 in Hv. injection Hv as <-. auto.
      * destruct (Z.eq_dec k i') as [->|]; [lia|]. rewrite K3 in Hv by auto.
        destruct (Z_lt_le_dec j k); [apply (pv_hi0 k); auto; lia|]. specialize (Bj k v ltac:(lia) Hv). lia.
    + lia. + lia. + right. lia.
  - assert (l < i' /\ j' < r).
    { destruct pv_st0 as [(-> & -> & k & Hk & Hm)|[H1 H2]]; [|lia].
      exfalso. destruct (Z_lt_le_dec k i') as [Hc|Hc].
      - specialize (Bi k mid ltac:(lia) Hm). lia.
      - destruct (Z_lt_le_dec j' k) as [Hc'|Hc']; [|lia]. specialize (Bj k mid ltac:(lia) Hm). lia. }
    apply IH; [|lia]. constructor; try (solve [auto]).
    + intros k v Hk Hv. destruct (Z_lt_le_dec k i); [apply (pv_lo0 k); auto; lia|]. specialize (Bi k v ltac:(lia) Hv). lia.
    + intros k v Hk Hv. destruct (Z_lt_le_dec j k); [apply (pv_hi0 k); auto; lia|]. specialize (Bj k v ltac:(lia) Hv). lia.
    + lia. + lia.
Qed.

Definition qs_post {A} (key : mem Z) (val : mem A) (key' : mem Z) (val' : mem A) (l r : Z) : Prop :=
  zlen key' = zlen key /\ zlen val' = zlen val /\
  same_out key key' l (r + 1) /\ same_out val val' l (r + 1) /\
  Permutation (cells key' val' l (r + 1)) (cells key val l (r + 1)) /\
  sorted_cells key' l (r + 1).

Lemma same_out_trans {A} (m1 : mem A) m2 m3 lo hi a b : lo <= a -> b <= hi -> same_out m1 m2 lo hi -> same_out m2 m3 a b -> same_out m1 m3 lo hi.
Proof. intros H1 H2 S1 S2 k Hk. rewrite S2 by lia. apply S1. auto. Qed.

Lemma qsort_kv_spec {A} : forall fuel key (val : mem A) l r, (Z.to_nat (r - l + 1) < fuel)%nat ->
  0 <= l <= r -> r < zlen key -> inited key l (r + 1) -> inited val l (r + 1) ->
  exists key' val', qsort_kv fuel key val l r = Some (key', val') /\ qs_post key val key' val' l r.
Proof.
  induction fuel as [|fuel IH]; intros key val l r Hf Hlr Hr Hk Hv; [lia|]. cbn [qsort_kv].
  rewrite Z.quot_div_nonneg by lia. set (m := (l + r) / 2).
  assert (Hm : l <= m <= r) by (unfold m; pose proof (Z.div_mod (l + r) 2 ltac:(lia)); pose proof (Z.mod_pos_bound (l + r) 2 ltac:(lia)); lia).
  destruct (Hk m ltac:(lia)) as [mid Emid]. rewrite Emid. cbn [bind].
  destruct (part_loop_spec key val l r mid ltac:(lia) Hr ltac:(lia) (Z.to_nat (r - l + 3)) key val l r) as (key1 & val1 & i & j & E & I & Hij & Hi & Hj).
  { constructor; try (solve [auto]); try lia. - intros k ?; auto. - intros k ?; auto.
    - left. split; auto. split; auto. exists m. auto. }
  { lia. }
  rewrite E. cbn [bind]. destruct I.
  (* right half *)
  assert (exists key2 val2, (if i <? r then qsort_kv fuel key1 val1 i r else Some (key1, val1)) = Some (key2, val2) /\
     qs_post key1 val1 key2 val2 i r) as (key2 & val2 & E2 & Q2).
  { destruct (Z.ltb_spec i r).
    - apply IH; try lia. + intros k Hkk; apply pv_ik0; lia. + intros k Hkk; apply pv_iv0; lia.
    - exists key1, val1. split; auto. split; [auto|]. split; [auto|]. split; [intros k ?; auto|]. split; [intros k ?; auto|]. split; [auto|].
      split; [intros k Hkk; apply pv_ik0; lia|]. intros k k' a b H1 H2 Ha Hb. assert (k = k') by lia. subst. assert (a = b) by congruence. lia. }
  rewrite E2. cbn [bind]. destruct Q2 as (Z2k & Z2v & O2k & O2v & P2 & [S2i S2]).
  assert (P2' : Permutation (cells key2 val2 l (r + 1)) (cells key val l (r + 1))).
  { eapply Permutation_trans; [|exact pv_p0].
    destruct (Z_le_dec i r).
    - apply (perm_sub key1 val1 key2 val2 l (r + 1) i (r + 1)); auto; lia.
    - rewrite (cells_ext key2 val2 key1 val1 l (r + 1)); [auto|]. intros k Hkk. split; [apply O2k|apply O2v]; lia. }
  destruct (perm_inited _ _ _ _ _ _ P2' Hk Hv) as [IK2 IV2].
  (* left half *)
  assert (exists key3 val3, (if l <? j then qsort_kv fuel key2 val2 l j else Some (key2, val2)) = Some (key3, val3) /\
     qs_post key2 val2 key3 val3 l j) as (key3 & val3 & E3 & Q3).
  { destruct (Z.ltb_spec l j).
    - apply IH; try lia. + intros k Hkk; apply IK2; lia. + intros k Hkk; apply IV2; lia.
    - exists key2, val2. split; auto. split; [auto|]. split; [auto|]. split; [intros k ?; auto|]. split; [intros k ?; auto|]. split; [auto|].
      split; [intros k Hkk; apply IK2; lia|]. intros k k' a b H1 H2 Ha Hb. assert (k = k') by lia. subst. assert (a = b) by congruence. lia. }
  exists key3, val3. split; auto. destruct Q3 as (Z3k & Z3v & O3k & O3v & P3 & [S3i S3]).
  assert (P3' : Permutation (cells key3 val3 l (r + 1)) (cells key val l (r + 1))).
  { eapply Permutation_trans; [|exact P2'].
    destruct (Z_le_dec l j).
    - apply (perm_sub key2 val2 key3 val3 l (r + 1) l (j + 1)); auto; lia.
    - rewrite (cells_ext key3 val3 key2 val2 l (r + 1)); [auto|]. intros k Hkk. split; [apply O3k|apply O3v]; lia. }
  destruct (perm_inited _ _ _ _ _ _ P3' Hk Hv) as [IK3 IV3].
  (* bounds on the parts of the result *)
  assert (Bl : forall k v, l <= k < j + 1 -> ld key3 k = Some v -> v <= mid).
  { apply (perm_keys _ _ _ _ _ _ _ P3). intros k v Hkk Hvv. rewrite O2k in Hvv by lia. apply (pv_lo0 k); auto; lia. }
  assert (Br : forall k v, i <= k < r + 1 -> ld key3 k = Some v -> mid <= v).
  { intros k v Hkk Hvv. rewrite O3k in Hvv by lia. revert k v Hkk Hvv. apply (perm_keys _ _ _ _ _ _ _ P2).
    intros k v Hkk Hvv. apply (pv_hi0 k); auto; lia. }
  assert (Bm : forall k v, l <= k <= r -> j < k < i -> ld key3 k = Some v -> v = mid).
  { intros k v Hlr2 Hkk Hvv. rewrite O3k in Hvv by lia. rewrite O2k in Hvv by lia.
    pose proof (pv_lo0 k v ltac:(lia) Hvv). pose proof (pv_hi0 k v ltac:(lia) Hvv). lia. }
  split; [lia|]. split; [lia|].
  split; [eapply (same_out_trans _ key2 _ _ _ l (j + 1)); [lia|lia| |auto]; eapply (same_out_trans _ key1 _ _ _ i (r + 1)); [lia|lia|auto|auto]|].
  split; [eapply (same_out_trans _ val2 _ _ _ l (j + 1)); [lia|lia| |auto]; eapply (same_out_trans _ val1 _ _ _ i (r + 1)); [lia|lia|auto|auto]|].
  split; auto. split; auto.
  intros k k' a b H1 H2 Ha Hb.
  destruct (Z_le_dec k' j).
  { apply (S3 k k'); auto; lia. }
  destruct (Z_le_dec i k).
  { rewrite O3k in Ha, Hb by lia. apply (S2 k k'); auto; lia. }
  assert (a <= mid).
  { destruct (Z_le_dec k j); [apply (Bl k); auto; lia|]. rewrite (Bm k a); auto; lia. }
  assert (mid <= b).
  { destruct (Z_le_dec i k'); [apply (Br k'); auto; lia|]. rewrite (Bm k' b); auto; lia. }
  lia.
Qed.
