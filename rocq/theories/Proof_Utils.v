From Coq Require Import ZArith List Lia Bool.
From Verif Require Import Base Mem Model_Utils Spec_Utils.
Import ListNotations.
Open Scope Z_scope.

(** * calc_block_spos_len *)

Lemma cb_eq len nblk i : 0 <= len -> 0 < nblk -> 0 <= i < nblk ->
  calc_block_spos_len len nblk i =
    Some (len / nblk * i + Z.min i (len mod nblk), len / nblk + (if i <? len mod nblk then 1 else 0)).
Proof.
  intros Hl Hn Hi. unfold calc_block_spos_len.
  destruct (Z.ltb_spec i 0); [lia|]. destruct (Z.ltb_spec nblk i); [lia|]. simpl.
  destruct (Z.eqb_spec nblk 0); [lia|].
  rewrite Z.rem_mod_nonneg, Z.quot_div_nonneg by lia.
  destruct (Z.ltb_spec i (len mod nblk)); do 2 f_equal; lia.
Qed.

Lemma cb_tiles len nblk : 0 <= len -> 0 < nblk ->
  (forall i, 0 <= i < nblk -> exists s l, calc_block_spos_len len nblk i = Some (s, l) /\
      0 <= s /\ 0 <= l /\ s + l <= len) /\
  (forall x, 0 <= x < len -> exists i s l, 0 <= i < nblk /\
      calc_block_spos_len len nblk i = Some (s, l) /\ s <= x < s + l) /\
  (forall i j s l s' l', 0 <= i < j -> j < nblk ->
      calc_block_spos_len len nblk i = Some (s, l) ->
      calc_block_spos_len len nblk j = Some (s', l') -> s + l <= s' /\ l' <= l <= l' + 1).
Proof.
  intros Hl Hn.
  pose proof (Z.mod_pos_bound len nblk Hn) as Hm. pose proof (Z.div_mod len nblk ltac:(lia)) as Hd.
  pose proof (Z.div_pos len nblk Hl Hn) as Hq.
  set (q := len / nblk) in *. set (r := len mod nblk) in *.
  repeat split.
  - intros i Hi. rewrite cb_eq by lia. fold q r. do 2 eexists. split; [reflexivity|].
    destruct (Z.ltb_spec i r); nia.
  - intros x Hx.
    destruct (Z_lt_le_dec x ((q + 1) * r)) as [H|H].
    + exists (x / (q + 1)).
      pose proof (Z.div_mod x (q + 1) ltac:(lia)). pose proof (Z.mod_pos_bound x (q + 1) ltac:(lia)).
      pose proof (Z.div_pos x (q + 1) ltac:(lia) ltac:(lia)).
      assert (x / (q + 1) < r) by (apply Z.div_lt_upper_bound; lia).
      do 2 eexists. split; [lia|]. split; [apply cb_eq; lia|]. fold q r.
      destruct (Z.ltb_spec (x / (q + 1)) r); [|lia]. rewrite Z.min_l by lia. lia.
    + assert (0 < q) by nia. set (y := x - (q + 1) * r).
      pose proof (Z.div_mod y q ltac:(lia)). pose proof (Z.mod_pos_bound y q ltac:(lia)).
      pose proof (Z.div_pos y q ltac:(lia) ltac:(lia)).
      assert (y / q < nblk - r) by (apply Z.div_lt_upper_bound; lia).
      exists (r + y / q). do 2 eexists. split; [lia|]. split; [apply cb_eq; lia|]. fold q r.
      destruct (Z.ltb_spec (r + y / q) r); [lia|]. rewrite Z.min_r by lia. lia.
  - rewrite cb_eq in H1 by lia. rewrite cb_eq in H2 by lia. fold q r in H1, H2.
    injection H1 as <- <-. injection H2 as <- <-. destruct (Z.ltb_spec i r); nia.
  - rewrite cb_eq in H1 by lia. rewrite cb_eq in H2 by lia. fold q r in H1, H2.
    injection H1 as <- <-. injection H2 as <- <-. destruct (Z.ltb_spec i r), (Z.ltb_spec j r); lia.
  - rewrite cb_eq in H1 by lia. rewrite cb_eq in H2 by lia. fold q r in H1, H2.
    injection H1 as <- <-. injection H2 as <- <-. destruct (Z.ltb_spec i r), (Z.ltb_spec j r); lia.
Qed.

Lemma cb_rejects len nblk i : i < 0 \/ nblk < i -> calc_block_spos_len len nblk i = Some (-1, 0).
Proof.
  intros H. unfold calc_block_spos_len. destruct (Z.ltb_spec i 0); simpl; auto.
  destruct (Z.ltb_spec nblk i); auto; lia.
Qed.

(** * Sums *)
Lemma zsum_app l m : zsum (l ++ m) = zsum l + zsum m.
Proof. induction l; simpl; lia. Qed.
Lemma zsumf_empty f lo hi : hi <= lo -> zsumf f lo hi = 0.
Proof. intros; unfold zsumf; now rewrite zrange_empty. Qed.
Lemma zsumf_split f lo mid hi : lo <= mid <= hi -> zsumf f lo hi = zsumf f lo mid + zsumf f mid hi.
Proof. intros; unfold zsumf. now rewrite (zrange_app lo mid hi), map_app, zsum_app. Qed.
Lemma zsumf_snoc f lo hi : lo <= hi -> zsumf f lo (hi + 1) = zsumf f lo hi + f hi.
Proof. intros; unfold zsumf. rewrite zrange_snoc, map_app, zsum_app by lia. simpl. lia. Qed.
Lemma zsumf_nonneg f lo hi : (forall i, lo <= i < hi -> 0 <= f i) -> 0 <= zsumf f lo hi.
Proof.
  intros H. unfold zsumf.
  assert (forall l, (forall i, In i l -> 0 <= f i) -> 0 <= zsum (map f l)).
  { induction l; simpl; intros Hl; [lia|]. pose proof (Hl a (or_introl eq_refl)).
    specialize (IHl (fun i Hi => Hl i (or_intror Hi))). lia. }
  apply H0. intros i Hi. apply H. now apply In_zrange.
Qed.
Lemma zsumf_zero_all f lo hi : (forall i, lo <= i < hi -> 0 <= f i) -> zsumf f lo hi = 0 ->
  forall i, lo <= i < hi -> f i = 0.
Proof.
  intros Hp Hz i Hi. pose proof (zsumf_split f lo i hi ltac:(lia)).
  pose proof (zsumf_split f i (i + 1) hi ltac:(lia)).
  pose proof (zsumf_snoc f i i ltac:(lia)). rewrite (zsumf_empty f i i) in H1 by lia.
  pose proof (zsumf_nonneg f lo i ltac:(intros; apply Hp; lia)).
  pose proof (zsumf_nonneg f (i + 1) hi ltac:(intros; apply Hp; lia)).
  pose proof (Hp i Hi). lia.
Qed.
Lemma zsumf_ext f g lo hi : (forall i, lo <= i < hi -> f i = g i) -> zsumf f lo hi = zsumf g lo hi.
Proof.
  intros H. unfold zsumf. f_equal. apply map_ext_in. intros i Hi. apply H. now apply In_zrange.
Qed.

(** * Vectors *)
Lemma iv_holds_init c : 0 <= c -> iv_holds (iv_init c) [].
Proof.
  intros H. unfold iv_init. destruct (Z.ltb_spec c 0); [lia|]. unfold iv_holds; simpl.
  rewrite zlen_alloc by lia. split; auto. split; auto. unfold zlen; simpl. split; [lia|]. intros; simpl in *; lia.
Qed.
Lemma iv_holds_init_neg c : c < 0 -> iv_holds (iv_init c) [].
Proof.
  intros H. unfold iv_init. destruct (Z.ltb_spec c 0); [|lia]. unfold iv_holds; simpl.
  split; auto. split; auto. unfold zlen; simpl. split; [lia|]. intros; simpl in *; lia.
Qed.

Lemma iv_set_capacity_spec v l c : iv_holds v l ->
  exists v', iv_set_capacity v c = Some v' /\ iv_holds v' l /\ iv_cap v' = Z.max (iv_cap v) c.
Proof.
  intros (Hc & Hl & Hle & Hd). unfold iv_set_capacity. destruct (Z.ltb_spec (iv_cap v) c).
  - pose proof (zlen_nonneg l).
    destruct (mcpy_spec (alloc c) 0 (iv_data v) 0 (iv_len v)) as (nd & E & El & Eg); try lia.
    { rewrite zlen_alloc by lia. lia. }
    rewrite E. cbn [bind]. eexists. split; [reflexivity|]. rewrite zlen_alloc in El by lia.
    unfold iv_holds; simpl. repeat split; try lia.
    intros k Hk. rewrite <- Hd by lia. unfold ld. rewrite Eg.
    destruct (Z.leb_spec 0 k); [|lia]. destruct (Z.ltb_spec k (0 + iv_len v)); [|lia]. simpl.
    replace (0 + (k - 0)) with k by lia. auto.
  - exists v. split; auto. split; [|lia]. repeat split; auto.
Qed.

Lemma iv_push_back_spec v l x : iv_holds v l -> 0 < iv_cap v ->
  exists v', iv_push_back v x = Some v' /\ iv_holds v' (l ++ [x]) /\ 0 < iv_cap v'.
Proof.
  intros H Hp. unfold iv_push_back.
  assert (exists v1, (if iv_cap v =? iv_len v then iv_set_capacity v (iv_cap v * 2) else Some v) = Some v1 /\
    iv_holds v1 l /\ zlen l < iv_cap v1) as (v1 & -> & H1 & Hlt).
  { destruct (Z.eqb_spec (iv_cap v) (iv_len v)).
    - destruct (iv_set_capacity_spec v l (iv_cap v * 2) H) as (v1 & E & H1 & Hc).
      exists v1. split; auto. split; auto. destruct H as (_ & ? & _). lia.
    - exists v. split; auto. split; auto. destruct H as (_ & ? & ? & _). lia. }
  cbn [bind]. destruct H1 as (Hc & Hl & Hle & Hd). pose proof (zlen_nonneg l).
  destruct (st_Some (iv_data v1) (iv_len v1) x ltac:(lia)) as [d E]. rewrite E. cbn [bind].
  eexists. split; [reflexivity|]. simpl. split; [|lia].
  unfold iv_holds; simpl. rewrite (st_zlen _ _ _ _ E). rewrite zlen_app.
  replace (zlen [x]) with 1 by reflexivity. repeat split; try lia.
  intros k Hk. rewrite (ld_st _ _ _ _ _ E). destruct (Z.eqb_spec (iv_len v1) k).
  - subst k. rewrite getz_app2 by lia. rewrite Hl, Z.sub_diag. reflexivity.
  - rewrite getz_app1 by lia. apply Hd. lia.
Qed.

Lemma iv_concatenate_spec v l w m : iv_holds v l -> iv_holds w m ->
  exists v', iv_concatenate v w = Some v' /\ iv_holds v' (l ++ m) /\ iv_cap v <= iv_cap v'.
Proof.
  intros H Hw. unfold iv_concatenate.
  assert (exists v1, (if iv_cap v <? iv_len w + iv_len v then iv_set_capacity v (iv_len w + iv_len v) else Some v) = Some v1 /\
    iv_holds v1 l /\ zlen m + zlen l <= iv_cap v1 /\ iv_cap v <= iv_cap v1) as (v1 & -> & H1 & Hlt & Hcc).
  { destruct H as (Hc & Hl & Hle & Hd). destruct Hw as (Hcw & Hlw & _ & _).
    destruct (Z.ltb_spec (iv_cap v) (iv_len w + iv_len v)).
    - destruct (iv_set_capacity_spec v l (iv_len w + iv_len v)) as (v1 & E & H1 & Hc1); [repeat split; auto|].
      exists v1. split; auto. split; auto. lia.
    - exists v. split; auto. split; [repeat split; auto|]. lia. }
  cbn [bind]. destruct H as (Hc & Hl & Hle & Hd). destruct H1 as (Hc1 & Hl1 & Hle1 & Hd1).
  destruct Hw as (Hcw & Hlw & Hlew & Hdw). pose proof (zlen_nonneg l). pose proof (zlen_nonneg m).
  destruct (mcpy_spec (iv_data v1) (iv_len v) (iv_data w) 0 (iv_len w)) as (nd & E & El & Eg); try lia.
  rewrite E. cbn [bind]. eexists. split; [reflexivity|]. simpl. split; [|lia].
  unfold iv_holds; simpl. rewrite zlen_app. repeat split; try lia.
  intros k Hk. unfold ld. rewrite Eg.
  destruct (Z_lt_le_dec k (zlen l)).
  - destruct (Z.leb_spec (iv_len v) k); [lia|]. simpl. rewrite getz_app1 by lia. apply Hd1. lia.
  - destruct (Z.leb_spec (iv_len v) k); [|lia]. destruct (Z.ltb_spec k (iv_len v + iv_len w)); [|lia]. simpl.
    rewrite getz_app2 by lia. rewrite Z.add_0_l, Hl. apply Hdw. lia.
Qed.

Lemma iv_gather_spec src l idx il dst dl :
  iv_holds src l -> iv_holds idx il -> iv_holds dst dl ->
  (forall i, In i il -> 0 <= i < zlen l) ->
  exists v', iv_gather src idx dst = Some v' /\ iv_holds v' (map (nthz l) il).
Proof.
  intros Hs Hi Hd Hin. unfold iv_gather.
  destruct (iv_set_capacity_spec dst dl (iv_len idx) Hd) as (d1 & -> & H1 & Hc1). cbn [bind].
  destruct H1 as (Hcap & Hl & Hle & _). destruct Hi as (Hic & Hil & Hile & Hid).
  destruct Hs as (Hsc & Hsl & Hsle & Hsd). pose proof (zlen_nonneg il).
  match goal with |- context [zfor 0 _ ?b _] =>
    destruct (zfor_inv (fun i (d : mem Z) => zlen d = iv_cap d1 /\ forall k, 0 <= k < i -> ld d k = getz (map (nthz l) il) k) 0 (iv_len idx) b (iv_data d1)) as (nd & E & P1 & P2) end.
  - lia.
  - split; [auto|]. intros; lia.
  - intros i d Hi [P1 P2].
    destruct (getz_in il i ltac:(lia)) as [j Hj]. rewrite Hid, Hj by lia. cbn [bind].
    pose proof (Hin j (getz_In _ _ _ Hj)) as Hjr.
    rewrite Hsd, (getz_nthz l j) by lia. cbn [bind].
    destruct (st_Some d i (nthz l j) ltac:(lia)) as [d' E]. exists d'. split; auto.
    split; [rewrite (st_zlen _ _ _ _ E); auto|].
    intros k Hk. rewrite (ld_st _ _ _ _ _ E). destruct (Z.eqb_spec i k).
    + subst. rewrite getz_map, Hj. reflexivity.
    + apply P2. lia.
  - rewrite E. cbn [bind]. eexists. split; [reflexivity|]. unfold iv_holds; simpl.
    rewrite zlen_map. repeat split; try lia. intros; apply P2; lia.
Qed.

Lemma iv_run_refines os : forall v l, iv_holds v l -> 0 < iv_cap v -> (forall o, In o os -> op_ok o) ->
  exists v', iv_run v os = Some v' /\ iv_holds v' (fold_left seq_apply os l) /\ 0 < iv_cap v'.
Proof.
  induction os as [|o os IH]; intros v l H Hp Hok; simpl.
  - eauto.
  - assert (exists v1, iv_apply v o = Some v1 /\ iv_holds v1 (seq_apply l o) /\ 0 < iv_cap v1) as (v1 & -> & H1 & Hp1).
    { pose proof (Hok o (or_introl eq_refl)) as Ho. destruct o; simpl in *.
      - apply iv_push_back_spec; auto.
      - destruct (iv_set_capacity_spec v l c H) as (v1 & E & H1 & Hc). exists v1. split; auto. split; auto. lia.
      - eexists. split; [reflexivity|]. split; [apply (iv_holds_init 128); lia|simpl; lia].
      - destruct (iv_concatenate_spec v l v0 l0 H Ho) as (v1 & E & H1 & Hc). exists v1. split; auto. split; auto. lia. }
    cbn [bind]. apply IH; auto. intros; apply Hok; now right.
Qed.

(** * Workload partition *)

Lemma nthz_app1 l m i : i < zlen l -> nthz (l ++ m) i = nthz l i.
Proof. intros. unfold nthz. now rewrite getz_app1. Qed.
Lemma nthz_last l x : nthz (l ++ [x]) (zlen l) = x.
Proof. unfold nthz. rewrite getz_app2 by lia. now rewrite Z.sub_diag. Qed.

Definition full_blocks (sizes : list Z) (bs : Z) (b : list Z) : Prop :=
  forall k, 0 <= k -> k + 1 < zlen b -> bs <= work sizes (nthz b k) (nthz b (k + 1)).

Record pw_inv (sizes : list Z) (bs n : Z) (cap : Z) (i : Z) (s : Z * Z * mem Z) (b : list Z) : Prop := {
  pi_len : zlen b = snd (fst s);
  pi_cap : zlen (snd s) = cap;
  pi_dat : forall k, 0 <= k < zlen b -> ld (snd s) k = getz b k;
  pi_inc : incr_from0 b;
  pi_last : 0 <= nthz b (zlen b - 1) <= i;
  pi_curr : fst (fst s) = work sizes (nthz b (zlen b - 1)) i;
  pi_lt : fst (fst s) < bs;
  pi_sz : block_sizes_ok sizes bs b;
  pi_full : full_blocks sizes bs b;
  pi_tot : (zlen b - 1) * bs <= work sizes 0 (nthz b (zlen b - 1))
}.

Lemma incr_snoc b x : incr_from0 b -> nthz b (zlen b - 1) < x -> incr_from0 (b ++ [x]).
Proof.
  intros [H0 H] Hx. pose proof (getz_range _ _ _ H0).
  split; [rewrite getz_app1 by lia; auto|]. rewrite zlen_app. replace (zlen [x]) with 1 by reflexivity.
  intros k Hk Hk1. rewrite (nthz_app1 b [x] k) by lia.
  destruct (Z.eq_dec (k + 1) (zlen b)) as [E|].
  - rewrite E, nthz_last. replace k with (zlen b - 1) by lia. auto.
  - rewrite nthz_app1 by lia. apply H; lia.
Qed.

Lemma blocks_snoc (P : Z -> Z -> Prop) b x : 0 < zlen b ->
  (forall k, 0 <= k -> k + 1 < zlen b -> P (nthz b k) (nthz b (k + 1))) -> P (nthz b (zlen b - 1)) x ->
  forall k, 0 <= k -> k + 1 < zlen (b ++ [x]) -> P (nthz (b ++ [x]) k) (nthz (b ++ [x]) (k + 1)).
Proof.
  intros Hb H Hx k Hk Hk1. rewrite zlen_app in Hk1. replace (zlen [x]) with 1 in Hk1 by reflexivity.
  rewrite (nthz_app1 b [x] k) by lia.
  destruct (Z.eq_dec (k + 1) (zlen b)) as [E|].
  - rewrite E, nthz_last. replace k with (zlen b - 1) by lia. auto.
  - rewrite nthz_app1 by lia. apply H; lia.
Qed.

Lemma partition_workload_spec n sizes total n_block displs dl :
  iv_holds displs dl -> zlen sizes = n -> (forall i, 0 <= i < n -> 0 <= nthz sizes i) ->
  total = work sizes 0 n -> 1 <= n_block ->
  exists v b, partition_workload n sizes total n_block displs = Some v /\ iv_holds v b /\
    incr_from0 b /\ zlen b <= n_block + 1 /\
    nthz b (zlen b - 1) <= n /\
    (forall i, nthz b (zlen b - 1) <= i < n -> nthz sizes i = 0) /\
    block_sizes_ok sizes (total / n_block + 1) b /\
    (forall k, 0 <= k -> k + 2 < zlen b ->
       total / n_block + 1 <= work sizes (nthz b k) (nthz b (k + 1))).
Proof.
  intros Hd Hn Hpos Htot Hnb. unfold partition_workload. pose proof (zlen_nonneg sizes) as Hn0.
  destruct (iv_set_capacity_spec displs dl (n_block + 1) Hd) as (v & -> & Hv & Hcap). cbn [bind].
  destruct Hv as (Hc & _ & _ & _).
  destruct (st_Some (iv_data v) 0 0 ltac:(lia)) as [d0 E0]. rewrite E0. cbn [bind].
  pose proof (st_zlen _ _ _ _ E0) as Z0.
  match goal with |- context [zfor 1 _ ?f d0] =>
    destruct (zfor_inv (fun i (d : mem Z) => zlen d = iv_cap v /\ ld d 0 = Some 0) 1 (iv_cap v) f d0) as (d1 & -> & Z1 & L1) end.
  { lia. } { split; [lia|]. rewrite (ld_st _ _ _ _ _ E0). reflexivity. }
  { intros k t Hk [A B]. destruct (st_Some t k n ltac:(lia)) as [t' E]. exists t'. split; auto.
    split; [rewrite (st_zlen _ _ _ _ E); auto|]. rewrite (ld_st _ _ _ _ _ E). destruct (Z.eqb_spec k 0); auto; lia. }
  cbn [bind]. destruct (Z.eqb_spec n_block 0); [lia|].
  assert (Ht : 0 <= total) by (rewrite Htot; apply zsumf_nonneg; auto).
  rewrite Z.quot_div_nonneg by lia. set (bs := total / n_block + 1).
  assert (Hbs : total < n_block * bs).
  { unfold bs. pose proof (Z.div_mod total n_block ltac:(lia)). pose proof (Z.mod_pos_bound total n_block ltac:(lia)). lia. }
  assert (Hbp : 0 < bs) by (unfold bs; pose proof (Z.div_pos total n_block ltac:(lia) ltac:(lia)); lia).
  match goal with |- context [zfor 0 n ?f _] =>
    destruct (zfor_inv (fun i s => exists b, pw_inv sizes bs n (iv_cap v) i s b) 0 n f (0, 1, d1)) as (s & -> & b & I) end.
  - lia.
  - exists [0]. constructor; simpl; auto.
    + intros k Hk. assert (k = 0) by zlia. subst. rewrite L1. reflexivity.
    + split; [reflexivity|]. intros; zlia.
    + replace (nthz [0] _) with 0 by reflexivity. lia.
    + intros k Hk Hk1. zlia.
    + intros k Hk Hk1. zlia.
    + replace (zlen [0]) with 1 by reflexivity. replace (nthz [0] (1 - 1)) with 0 by reflexivity. unfold work. rewrite zsumf_empty by lia. lia.
  - intros i [[curr idx] d] Hi [b I]. destruct I; simpl in *.
    rewrite (getz_nthz sizes i) by lia. cbn [bind].
    assert (Hb0 : 0 < zlen b) by (destruct pi_inc0 as [G _]; apply getz_range in G; lia).
    assert (Hw : work sizes (nthz b (zlen b - 1)) (i + 1) = curr + nthz sizes i).
    { unfold work. rewrite zsumf_snoc by lia. fold (work sizes (nthz b (zlen b - 1)) i). lia. }
    destruct (Z.leb_spec bs (curr + nthz sizes i)).
    + assert (Hsum : (zlen b) * bs <= work sizes 0 (i + 1)).
      { unfold work. rewrite (zsumf_split _ 0 (nthz b (zlen b - 1)) (i + 1)) by lia.
        fold (work sizes 0 (nthz b (zlen b - 1))). fold (work sizes (nthz b (zlen b - 1)) (i + 1)). lia. }
      assert (work sizes 0 (i + 1) <= total).
      { rewrite Htot. unfold work. rewrite (zsumf_split _ 0 (i + 1) n) by lia.
        pose proof (zsumf_nonneg (nthz sizes) (i + 1) n ltac:(intros; apply Hpos; lia)). lia. }
      assert (zlen b < n_block) by nia.
      destruct (st_Some d idx (i + 1) ltac:(lia)) as [d' E]. rewrite E. cbn [bind].
      eexists. split; [reflexivity|]. exists (b ++ [i + 1]).
      assert (ZB : zlen (b ++ [i + 1]) = zlen b + 1) by (rewrite zlen_app; reflexivity).
      assert (LB : nthz (b ++ [i + 1]) (zlen (b ++ [i + 1]) - 1) = i + 1).
      { replace (zlen (b ++ [i + 1]) - 1) with (zlen b) by lia. apply nthz_last. }
      constructor; simpl; try rewrite LB; try lia.
      * rewrite (st_zlen _ _ _ _ E). auto.
      * intros k Hk. rewrite (ld_st _ _ _ _ _ E). destruct (Z.eqb_spec idx k).
        { subst k. rewrite getz_app2 by lia. replace (idx - zlen b) with 0 by lia. reflexivity. }
        { rewrite getz_app1 by lia. apply pi_dat0. lia. }
      * apply incr_snoc; auto. lia.
      * unfold work. now rewrite zsumf_empty by lia.
      * unfold block_sizes_ok. apply (blocks_snoc (fun x y => 0 < work sizes x y /\ work sizes x (y - 1) < bs)); auto.
        split; [lia|]. replace (i + 1 - 1) with i by lia. lia.
      * unfold full_blocks. apply (blocks_snoc (fun x y => bs <= work sizes x y)); auto. lia.
    + eexists. split; [reflexivity|]. exists b. constructor; simpl; auto; lia.
  - cbn [bind]. destruct s as [[curr idx] d]. destruct I; simpl in *.
    assert (Hb0 : 0 < zlen b) by (destruct pi_inc0 as [G _]; apply getz_range in G; lia).
    assert (zlen b <= n_block).
    { assert (work sizes 0 (nthz b (zlen b - 1)) <= total).
      { rewrite Htot. unfold work. rewrite (zsumf_split _ 0 (nthz b (zlen b - 1)) n) by lia.
        pose proof (zsumf_nonneg (nthz sizes) (nthz b (zlen b - 1)) n ltac:(intros; apply Hpos; lia)). lia. }
      nia. }
    destruct (Z.ltb_spec 0 curr).
    + assert (Hlast : nthz b (zlen b - 1) < n).
      { destruct (Z.eq_dec (nthz b (zlen b - 1)) n) as [E|]; [|lia].
        rewrite pi_curr0, E in H0. unfold work in H0. rewrite zsumf_empty in H0 by lia. lia. }
      destruct (st_Some d idx n ltac:(lia)) as [d' E]. rewrite E. cbn [bind].
      exists (mkIV (iv_cap v) (idx + 1) d'), (b ++ [n]).
      assert (ZB : zlen (b ++ [n]) = zlen b + 1) by (rewrite zlen_app; reflexivity).
      assert (LB : nthz (b ++ [n]) (zlen (b ++ [n]) - 1) = n).
      { replace (zlen (b ++ [n]) - 1) with (zlen b) by lia. apply nthz_last. }
      rewrite LB. repeat split; simpl; try lia.
      * rewrite (st_zlen _ _ _ _ E). auto.
      * intros k Hk. rewrite (ld_st _ _ _ _ _ E). destruct (Z.eqb_spec idx k).
        { subst k. rewrite getz_app2 by lia. replace (idx - zlen b) with 0 by lia. reflexivity. }
        { rewrite getz_app1 by lia. apply pi_dat0. lia. }
      * rewrite getz_app1 by lia. apply pi_inc0.
      * apply incr_snoc; auto.
      * revert k H1 H2. apply (blocks_snoc (fun x y => 0 < work sizes x y)); auto; try lia.
        intros k A B; apply (pi_sz0 k A B).
      * revert k H1 H2. apply (blocks_snoc (fun x y => work sizes x (y - 1) < bs)); auto; try lia.
        { intros k A B; apply (pi_sz0 k A B). }
        pose proof (zsumf_snoc (nthz sizes) (nthz b (zlen b - 1)) (n - 1) ltac:(lia)) as Q.
        replace (n - 1 + 1) with n in Q by lia. fold (work sizes (nthz b (zlen b - 1)) n) in Q.
        fold (work sizes (nthz b (zlen b - 1)) (n - 1)) in Q. pose proof (Hpos (n - 1) ltac:(lia)). lia.
      * intros k Hk Hk2. rewrite !nthz_app1 by lia. apply pi_full0; lia.
    + exists (mkIV (iv_cap v) idx d), b. repeat split; simpl; auto; try lia; try apply pi_inc0; auto.
      * intros i Hi. apply (zsumf_zero_all (nthz sizes) (nthz b (zlen b - 1)) n); auto.
        { intros; apply Hpos; lia. }
        { fold (work sizes (nthz b (zlen b - 1)) n).
          pose proof (zsumf_nonneg (nthz sizes) (nthz b (zlen b - 1)) n ltac:(intros; apply Hpos; lia)) as Q.
          fold (work sizes (nthz b (zlen b - 1)) n) in Q. lia. }
      * apply (pi_sz0 k); lia.
      * apply (pi_sz0 k); lia.
      * intros k Hk Hk2. apply pi_full0; lia.
Qed.
