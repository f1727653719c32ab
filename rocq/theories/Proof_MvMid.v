(** The intermediate multiplication: pairs accumulate into per-thread buffers. *)
From Coq Require Import ZArith List Lia Bool Permutation.
From Verif Require Import Base Mem Num CRing Conc Model_Utils Spec_Utils Proof_Utils Model_Dense Spec_Dense Model_Partition Spec_Tree Model_Matvec Spec_Matvec Proof_Gemv Proof_MvTree Proof_MvFwd.
Import ListNotations.
Open Scope Z_scope.

(** ** Schedules *)

Lemma inter_permutation {A} (ths : list (list A)) l : inter ths l -> Permutation l (concat ths).
Proof.
  induction 1 as [ths Hn|pre a t0 post l Hi IH].
  - now rewrite concat_nils.
  - rewrite concat_app in *. cbn [concat] in *. rewrite <- app_comm_cons. apply Permutation_cons_app. auto.
Qed.

Lemma zrange_tile (b : list Z) m : 1 <= m -> m <= zlen b -> getz b 0 = Some 0 ->
  (forall k, 0 <= k -> k + 1 < zlen b -> nthz b k <= nthz b (k + 1)) ->
  concat (map (fun k => zrange (nthz b k) (nthz b (k + 1))) (zrange 0 (m - 1))) = zrange 0 (nthz b (m - 1)) /\ 0 <= nthz b (m - 1).
Proof.
  intros Hm. replace m with (Z.of_nat (S (Z.to_nat (m - 1)))) by lia. generalize (Z.to_nat (m - 1)). clear m Hm.
  intros n. induction n as [|n IH]; intros Hl H0 Hi.
  - cbn [zrange map concat]. replace (Z.of_nat 1 - 1) with 0 by lia. rewrite (nthz_eq _ _ _ H0), zrange_empty by lia. cbn. split; auto; lia.
  - destruct IH as [IH1 IH2]; auto; try lia. replace (Z.of_nat (S (S n)) - 1) with (Z.of_nat (S n) - 1 + 1) by lia.
    rewrite zrange_snoc by lia. rewrite map_app, concat_app, IH1. cbn [map concat]. rewrite app_nil_r.
    specialize (Hi (Z.of_nat (S n) - 1) ltac:(lia) ltac:(lia)).
    split; [|lia]. symmetry. apply zrange_app. lia.
Qed.

Lemma perm_concat_map {A B} (f : A -> list B) l m : Permutation l m -> Permutation (concat (map f l)) (concat (map f m)).
Proof.
  induction 1; cbn [map concat]; auto.
  - now apply Permutation_app_head.
  - rewrite !app_assoc. apply Permutation_app_tail, Permutation_app_comm.
  - etransitivity; eauto.
Qed.

(** The blocks handed to the threads are all blocks. *)
Lemma assignment_perm nth nblk asg : 0 <= nblk -> 0 <= nth -> block_assignment nth nblk asg ->
  zlen asg = nth /\ Permutation (concat asg) (zrange 0 nblk).
Proof.
  intros Hb Ht. unfold block_assignment. destruct (Z.leb_spec nblk nth); auto. intros ->. split.
  - rewrite zlen_map, zlen_zrange; lia.
  - replace (zrange 0 nth) with (zrange 0 nblk ++ zrange nblk nth) by (symmetry; apply zrange_app; lia).
    rewrite map_app, concat_app.
    assert (E1 : forall l, Forall (fun t => t < nblk) l -> concat (map (fun t => if t <? nblk then [t] else []) l) = l).
    { induction 1; auto. cbn [map concat]. rewrite IHForall. destruct (Z.ltb_spec x nblk); auto; lia. }
    assert (E2 : forall l, Forall (fun t => nblk <= t) l -> concat (map (fun t => if t <? nblk then [t] else []) l) = []).
    { induction 1; auto. cbn [map concat]. rewrite IHForall. destruct (Z.ltb_spec x nblk); auto; lia. }
    rewrite E1, E2, app_nil_r; auto.
    + rewrite Forall_forall. intros x Hx. apply In_zrange in Hx. lia.
    + rewrite Forall_forall. intros x Hx. apply In_zrange in Hx. lia.
Qed.

Lemma number_spec {A} (l : list A) : forall k x, In (k, x) (number l) <-> getz l k = Some x.
Proof.
  intros k x. unfold number. split.
  - intros H. apply In_getz in H as (i & Hi). pose proof (getz_range _ _ _ Hi) as Ri.
    assert (Zn : zlen (combine (zrange 0 (zlen l)) l) = zlen l).
    { unfold zlen at 1. rewrite combine_length. unfold zrange. rewrite map_length, seq_length. unfold zlen. lia. }
    assert (E : getz (combine (zrange 0 (zlen l)) l) i = Some (i, nth (Z.to_nat i) l x)).
    { unfold getz. destruct (Z.leb_spec 0 i); [|lia].
      rewrite (nth_error_nth' _ (0, x)) by (unfold zlen in *; lia). f_equal. rewrite combine_nth.
      - f_equal. pose proof (getz_zrange 0 (zlen l) i ltac:(lia)) as G. unfold getz in G. destruct (0 <=? i); [|discriminate].
        apply (nth_error_nth _ _ 0) in G. rewrite G. lia.
      - unfold zrange. rewrite map_length, seq_length. unfold zlen. lia. }
    rewrite E in Hi. injection Hi as <- <-. unfold getz. destruct (Z.leb_spec 0 i); [|lia].
    apply nth_error_nth'. unfold zlen in *. lia.
  - intros H. pose proof (getz_range _ _ _ H) as Ri. unfold getz in H. destruct (Z.leb_spec 0 k); [|lia].
    apply (nth_error_In _ (Z.to_nat k)).
    rewrite (nth_error_nth' _ (0, x)) by (rewrite combine_length; unfold zrange; rewrite map_length, seq_length; unfold zlen in *; lia).
    f_equal. rewrite combine_nth.
    + f_equal.
      * pose proof (getz_zrange 0 (zlen l) k ltac:(lia)) as G. unfold getz in G. destruct (0 <=? k); [|discriminate].
        apply (nth_error_nth _ _ 0) in G. rewrite G. lia.
      * now apply nth_error_nth.
    + unfold zrange. rewrite map_length, seq_length. unfold zlen. lia.
Qed.

Lemma map_snd_number {A} (l : list A) : map snd (number l) = l.
Proof.
  unfold number, zrange. rewrite Z.sub_0_r. unfold zlen. rewrite Nat2Z.id. generalize 0%nat.
  induction l as [|a l IH]; intros n; cbn; auto. f_equal. apply IH.
Qed.

Lemma thread_items_spec blk b asg : iv_holds blk b -> 1 <= zlen b -> getz b 0 = Some 0 ->
  (forall k, 0 <= k -> k + 1 < zlen b -> nthz b k <= nthz b (k + 1)) ->
  Permutation (concat asg) (zrange 0 (iv_len blk - 1)) ->
  Permutation (map snd (concat (thread_items blk asg))) (zrange 0 (nthz b (zlen b - 1))) /\
  (forall t i, In (t, i) (concat (thread_items blk asg)) -> 0 <= t < zlen asg).
Proof.
  intros (I1 & I2 & I3 & I4) Hb H0 Hi Hp. split.
  - rewrite <- (proj1 (zrange_tile b (zlen b) Hb (Z.le_refl _) H0 Hi)). rewrite I2 in Hp.
    transitivity (concat (map (block_items blk) (concat asg))).
    + unfold thread_items. rewrite concat_map, map_map.
      rewrite (map_ext _ (fun x : Z * list Z => concat (map (block_items blk) (snd x)))).
      2:{ intros [t0 bs]. cbn [snd]. rewrite map_map. cbn [snd]. now rewrite map_id. }
      rewrite <- (map_map snd (fun bs => concat (map (block_items blk) bs))), map_snd_number.
      rewrite concat_map. clear Hp. induction asg; auto. cbn [map concat]. rewrite concat_app, IHasg. auto.
    + rewrite (perm_concat_map _ _ _ Hp). apply Permutation_refl'. f_equal. apply map_ext_in. intros k Hk.
      apply In_zrange in Hk. unfold block_items. rewrite !I4 by lia. now rewrite !getz_nthz by lia.
  - intros t0 i H. apply in_concat in H as (l & Hl & H). unfold thread_items in Hl.
    apply in_map_iff in Hl as ([t1 bs] & <- & Hn). apply in_map_iff in H as (i' & E & _). injection E as <- <-.
    apply number_spec in Hn. eapply getz_range; eauto.
Qed.

Section Mid.
Context {F : num} {K : cring}.
Add Ring Kring : (cth K).
Local Open Scope ring_K.
Variable h : h2rep F K.
Hypothesis R : rep_ok h.
Notation t := (h_t h).
Notation nth := (h_nthread h).

Lemma mid_schedule_perm l : mid_schedule h l ->
  Forall (fun ev => 0 <= fst ev < nth) l /\
  exists m, 0 <= m <= zlen (h_adm h) /\ Permutation (map snd l) (zrange 0 m) /\
    forall k, m <= k < zlen (h_adm h) -> (Bnrow h k * Bncol h k = 0)%Z.
Proof.
  intros (asg & Ha & Hi). destruct (ro_dims _ R) as (_ & _ & D3 & _).
  destruct (ro_Bblk _ R) as (b & Hb & B1 & B2 & B3 & B4 & B5). pose proof Hb as (_ & I2 & _).
  apply assignment_perm in Ha as [A1 A2]; try lia.
  destruct (thread_items_spec _ _ _ Hb B1 B2 B3 A2) as [T1 T2].
  apply inter_permutation in Hi. split.
  - rewrite Forall_forall. intros [t0 i] Hev. cbn [fst]. rewrite <- A1. apply (T2 t0 i). eapply Permutation_in; eauto.
  - exists (nthz b (zlen b - 1)). split.
    + split; auto. apply (zrange_tile b (zlen b)); auto. lia.
    + split; auto. rewrite Hi. auto.
Qed.

(** ** Totals *)
Definition y1val (y1 : list (dmat K)) (i k : Z) : K :=
  match getz y1 i with Some m => if dm_ld m =? 0 then c0 else val c0 (ld (dm_data m) k) | None => c0 end.
Definition tyval (ty : list (mem K)) (tid p : Z) : K :=
  match getz ty tid with Some m => val c0 (ld m p) | None => c0 end.

Definition tysum (ty : list (mem K)) (p : Z) : K := rsum 0 nth (fun tid => tyval ty tid p).

(** What row p of the output will receive from the accumulated buffers. *)
Definition tot (p : Z) (s : mvst K) : K :=
  match s_y1 s with
  | Some y1 => tysum (s_ty s) p + rsum 0 (h_nnode h) (fun i => rsum 0 (rank h i) (fun c =>
                 basis h i p c * rsum 0 nth (fun tid => y1val y1 i (tid * rank h i + c))))
  | None => c0
  end.

(** A y1 buffer with one row per thread. *)
Definition wide (y1 : list (dmat K)) (i : Z) : Prop := exists m, getz y1 i = Some m /\
  (dm_ld m = 0 \/ (dm_ncol m = rank h i /\ 1 <= rank h i /\ h_minlevel h <= level h i /\ nth * rank h i <= zlen (dm_data m) /\
     forall k, 0 <= k < nth * rank h i -> exists v, ld (dm_data m) k = Some v)).
Definition active (y1 : list (dmat K)) (i : Z) : Prop := exists m, getz y1 i = Some m /\ dm_ld m <> 0.

Definition ty_ok (ty : list (mem K)) : Prop := zlen ty = nth /\
  forall tid, 0 <= tid < nth -> exists m, getz ty tid = Some m /\ zlen m = h_kms h /\
    forall p, 0 <= p < h_kms h -> exists v, ld m p = Some v.

Section Events.
Variable y0 : list (dmat K).
Variable px : mem K.
Variable xv : Z -> K.
Hypothesis Hy0 : forall i, 0 <= i < h_nnode h -> h_minlevel h <= level h i -> y0_good h xv y0 i.
Hypothesis Hpx : forall p, 0 <= p < h_kms h -> ld px p = Some (xv p).
Variable s0 : mvst K.

Definition mid_ok (s : mvst K) : Prop :=
  s_y0 s = Some y0 /\ s_px s = px /\ s_m0 s = s_m0 s0 /\ s_py s = s_py s0 /\ s_yT s = s_yT s0 /\ ty_ok (s_ty s) /\
  exists y1, s_y1 s = Some y1 /\ zlen y1 = h_nnode h /\ Forall mok y1 /\
    (forall i, 0 <= i < h_nnode h -> wide y1 i) /\
    forall k n0 n1, getz (h_adm h) k = Some (n0, n1) -> forall i, (i = n0 \/ i = n1) -> h_minlevel h <= level h i -> active y1 i.

Lemma add_y1_spec node tid c v s : mid_ok s -> 0 <= node < h_nnode h -> 0 <= tid < nth -> 0 <= c < rank h node ->
  (forall y1, s_y1 s = Some y1 -> active y1 node) ->
  exists s', add_y1 node (tid * rank h node) c v s = Some s' /\ mid_ok s' /\
    (forall p, tot p s' = tot p s + basis h node p c * v) /\
    (forall y1 y1', s_y1 s = Some y1 -> s_y1 s' = Some y1' -> forall i, active y1 i -> active y1' i).
Proof.
  intros (A1 & A2 & A3 & A4 & A5 & A6 & y1 & E1 & Z1 & F1 & W1 & Act) Hn Ht Hc Ha.
  destruct (Ha y1 E1) as (m & Em & Hld). destruct (W1 node Hn) as (m' & Em' & [Hw|(W2 & W3 & W4 & W5 & W6)]).
  { congruence. }
  replace m' with m in * by congruence.
  assert (Rk : 0 <= tid * rank h node + c < nth * rank h node) by nia.
  destruct (W6 _ Rk) as (cv & Hcv).
  destruct (madd_spec (dm_data m) (tid * rank h node + c)%Z v cv Hcv) as (d & Ed & Zd & Gd).
  unfold add_y1. rewrite E1. cbn [bind]. rewrite Em. cbn [bind]. rewrite Ed. cbn [bind].
  destruct (setz_Some y1 node (dm_set_data m d)) as [y1' Es]; [lia|]. rewrite Es. cbn [bind].
  eexists. split; [reflexivity|].
  assert (Gv : forall i k, y1val y1' i k = if (i =? node) && (k =? tid * rank h node + c) then y1val y1 i k + v else y1val y1 i k).
  { intros i k. unfold y1val. rewrite (getz_setz _ _ _ _ _ Es). destruct (Z.eqb_spec node i).
    - subst i. rewrite Em, Z.eqb_refl. cbn [dm_set_data dm_ld dm_data andb]. destruct (Z.eqb_spec (dm_ld m) 0); [contradiction|].
      rewrite Gd. destruct (Z.eqb_spec (tid * rank h node + c) k); destruct (Z.eqb_spec k (tid * rank h node + c)); subst; try lia; auto.
      rewrite Hcv. reflexivity.
    - destruct (Z.eqb_spec i node); [congruence|]. cbn [andb]. auto. }
  assert (Hact : forall i, active y1 i -> active y1' i).
  { intros i (mi & Emi & Hmi). unfold active. rewrite (getz_setz _ _ _ _ _ Es). destruct (Z.eqb_spec node i).
    - subst i. eexists; split; [reflexivity|]. auto.
    - eauto. }
  split; [|split].
  - repeat (split; auto). exists y1'. split; auto. split; [rewrite (setz_zlen _ _ _ _ Es); auto|]. split.
    { eapply (Forall_setz _ _ _ _ _ F1); [|exact Es]. apply mok_set_data; auto. eapply Forall_getz; eauto. }
    split.
    + intros i Hi. unfold wide. rewrite (getz_setz _ _ _ _ _ Es). destruct (Z.eqb_spec node i).
      * subst i. eexists; split; [reflexivity|]. right. cbn. rewrite Zd. repeat (split; auto).
        intros k Hk. rewrite Gd. destruct (Z.eqb_spec (tid * rank h node + c) k); eauto.
      * apply W1; auto.
    + intros k n0 n1 Hk i Hi Hl. apply Hact. eapply Act; eauto.
  - intros p. unfold tot. cbn [s_y1 set_y1 s_ty]. rewrite E1.
    rewrite (rsum_upd 0 (h_nnode h) (fun i => rsum 0 (rank h i) (fun c => basis h i p c * rsum 0 nth (fun tid => y1val y1 i (tid * rank h i + c)))) _ node (basis h node p c * v)); [ring|auto| |].
    + rewrite (rsum_upd 0 (rank h node) (fun c => basis h node p c * rsum 0 nth (fun tid => y1val y1 node (tid * rank h node + c))) _ c (basis h node p c * v)); [ring|auto| |].
      * rewrite (rsum_upd 0 nth (fun tid => y1val y1 node (tid * rank h node + c)) _ tid v); [ring|auto| |].
        { rewrite Gv, !Z.eqb_refl. reflexivity. }
        { intros i Hi Hne. rewrite Gv, Z.eqb_refl. destruct (Z.eqb_spec (i * rank h node + c) (tid * rank h node + c)); [nia|]. reflexivity. }
      * intros i Hi Hne. f_equal. apply rsum_ext. intros j Hj. rewrite Gv, Z.eqb_refl.
        destruct (Z.eqb_spec (j * rank h node + i) (tid * rank h node + c)); [|reflexivity].
        exfalso. assert (j < tid \/ j = tid \/ j > tid) by lia. nia.
    + intros i Hi Hne. apply rsum_ext. intros c' Hc'. f_equal. apply rsum_ext. intros j Hj. rewrite Gv.
      destruct (Z.eqb_spec i node); [contradiction|]. reflexivity.
  - intros y1a y1b Ea Eb i Hi. cbn [s_y1 set_y1] in Eb. injection Eb as <-. apply Hact. congruence.
Qed.

Lemma ty_add ty tid q v : ty_ok ty -> 0 <= tid < nth -> 0 <= q < h_kms h ->
  exists m d ty', getz ty tid = Some m /\ madd m q v = Some d /\ setz ty tid d = Some ty' /\ ty_ok ty' /\
    forall p, tysum ty' p = tysum ty p + (if p =? q then c1 else c0) * v.
Proof.
  intros (Zt & Tt) Ht Hq. destruct (Tt tid Ht) as (m & Em & Zm & Vm). destruct (Vm q Hq) as (cv & Hcv).
  destruct (madd_spec m q v cv Hcv) as (d & Ed & Zd & Gd).
  destruct (setz_Some ty tid d) as [ty' Es]; [lia|]. exists m, d, ty'. repeat (split; auto).
  - rewrite (setz_zlen _ _ _ _ Es). auto.
  - intros t' Ht'. rewrite (getz_setz _ _ _ _ _ Es). destruct (Z.eqb_spec tid t'); [|apply Tt; auto].
    exists d. split; auto. split; [lia|]. intros p Hp. rewrite Gd. destruct (q =? p); eauto.
  - intros p. unfold tysum. rewrite (rsum_upd 0 nth (fun tid => tyval ty tid p) _ tid ((if p =? q then c1 else c0) * v)); [ring|auto| |].
    + unfold tyval. rewrite (getz_setz _ _ _ _ _ Es), Z.eqb_refl, Em, Gd.
      destruct (Z.eqb_spec q p); destruct (Z.eqb_spec p q); subst; try lia; [rewrite Hcv; cbn [val]|]; ring.
    + intros i Hi Hne. unfold tyval. rewrite (getz_setz _ _ _ _ _ Es). destruct (Z.eqb_spec tid i); [congruence|reflexivity].
Qed.

Lemma add_ty_spec tid off k v s : mid_ok s -> 0 <= tid < nth -> 0 <= off + k < h_kms h ->
  exists s', add_ty tid off k v s = Some s' /\ mid_ok s' /\ s_y1 s' = s_y1 s /\
    (forall p, tot p s' = tot p s + (if p =? off + k then c1 else c0) * v).
Proof.
  intros (A1 & A2 & A3 & A4 & A5 & A6 & y1 & E1 & Hy1) Ht Hk.
  destruct (ty_add (s_ty s) tid (off + k)%Z v A6 Ht Hk) as (m & d & ty' & Em & Ed & Es & Ok & Ts).
  unfold add_ty. rewrite Em. cbn [bind]. rewrite Ed. cbn [bind]. rewrite Es. cbn [bind].
  eexists. split; [reflexivity|]. split; [|split; auto].
  - repeat (split; auto). exists y1. auto.
  - intros p. unfold tot. cbn [set_ty s_y1 s_ty]. rewrite E1, Ts. ring.
Qed.

(** The vector seen by the block on n's side. *)
Definition sidex (n m k : Z) : K := rsum 0 (h_kms h) (fun q => side h n m k q * xv q).
Lemma sidex_comp n m k : level h m <= level h n -> sidex n m k = yhat h xv n k.
Proof.
  intros H. unfold sidex, yhat. apply rsum_ext. intros q Hq. unfold side.
  destruct (Z.leb_spec (level h m) (level h n)); [reflexivity|lia].
Qed.
Lemma sidex_own n m k : level h n < level h m -> 0 <= mfirst h n + k < h_kms h -> sidex n m k = xv (mfirst h n + k).
Proof.
  intros H Hk. unfold sidex. rewrite (rsum_only 0 (h_kms h) _ (mfirst h n + k)%Z); [|exact Hk|].
  - unfold side. destruct (Z.leb_spec (level h m) (level h n)); [lia|]. rewrite Z.eqb_refl. ring.
  - intros i Hi Hne. unfold side. destruct (Z.leb_spec (level h m) (level h n)); [lia|].
    destruct (Z.eqb_spec i (mfirst h n + k)); [contradiction|ring].
Qed.

(** What pair k contributes to row p. *)
Definition pairc (k p : Z) : K := rsum 0 (h_kms h) (fun q => (adm_block h k p q + adm_block h k q p) * xv q).

Lemma pairc_bi k n0 n1 p : getz (h_adm h) k = Some (n0, n1) ->
  rsum 0 (Bnrow h k) (bi_term (Bncol h k) (fun p r => side h n0 n1 r p) (fun p c => side h n1 n0 c p) (Bval h k)
    (sidex n1 n0) (sidex n0 n1) p) = pairc k p.
Proof.
  intros Hk. unfold pairc, bi_term.
  rewrite (rsum_ext 0 (h_kms h) _ (fun q => rsum 0 (Bnrow h k) (fun r => rsum 0 (Bncol h k) (fun c =>
     side h n0 n1 r p * (Bval h k r c * (side h n1 n0 c q * xv q)) +
     side h n1 n0 c p * (Bval h k r c * (side h n0 n1 r q * xv q)))))).
  2:{ intros q Hq. unfold adm_block. rewrite Hk. rewrite <- rsum_add, <- rsum_mul_r. apply rsum_ext. intros r Hr.
      rewrite <- rsum_add, <- rsum_mul_r. apply rsum_ext. intros c Hc. ring. }
  rewrite rsum_swap. apply rsum_ext. intros r Hr. rewrite rsum_swap, <- rsum_mul_l, <- rsum_add.
  apply rsum_ext. intros c Hc. rewrite rsum_add, !rsum_mul_l. reflexivity.
Qed.

Lemma y0_at_good s i c : mid_ok s -> 0 <= i < h_nnode h -> h_minlevel h <= level h i -> 0 <= c < rank h i ->
  y0_at s i c = Some (yhat h xv i c).
Proof.
  intros (A1 & _) Hi Hl Hc. unfold y0_at. rewrite A1. cbn [bind]. destruct (Hy0 i Hi Hl) as (m & -> & _ & V). cbn [bind]. auto.
Qed.

Lemma mid_pair_spec tid k s : mid_ok s -> 0 <= tid < nth -> 0 <= k < zlen (h_adm h) ->
  exists s', mid_pair h tid k s = Some s' /\ mid_ok s' /\ forall p, tot p s' = tot p s + pairc k p.
Proof.
  intros Hs Ht Hk. destruct (getz_in (h_adm h) k Hk) as [[n0 n1] En].
  destruct (ro_adm _ R _ _ _ En) as (N0 & N1 & Nd & Nl).
  destruct (ro_B _ R _ _ _ En) as (ptr & nrow & ncol & P1 & P2 & P3 & P4 & P5 & P6 & P7).
  unfold mid_pair. rewrite En. cbn [bind]. rewrite !(ld_level h R) by auto. cbn [bind]. rewrite P1, P2, P3. cbn [bind].
  assert (Er : Bnrow h k = nrow) by (unfold Bnrow; now rewrite P2).
  assert (Ec : Bncol h k = ncol) by (unfold Bncol; now rewrite P3).
  assert (EB : forall r c, 0 <= r < nrow -> 0 <= c < ncol -> ld (h_Bdata h) (ptr + r * ncol + c) = Some (Bval h k r c)).
  { intros r c Hr Hc. unfold Bval. rewrite P1, P3. cbn [val]. destruct (P7 (r * ncol + c)%Z) as [v Hv]; [nia|].
    replace (ptr + r * ncol + c)%Z with (ptr + (r * ncol + c))%Z by lia. rewrite Hv. auto. }
  pose proof (rank_nonneg h R n0 N0) as Rk0. pose proof (rank_nonneg h R n1 N1) as Rk1.
  destruct (cluster_range h R n0 N0) as (C01 & C02 & C03). destruct (cluster_range h R n1 N1) as (C11 & C12 & C13).
  assert (Hn0 : 0 <= nrow) by (subst nrow; destruct (_ <=? _); lia).
  assert (Hn1 : 0 <= ncol) by (subst ncol; destruct (_ <=? _); lia).
  destruct Hs as (A1 & A2 & A3 & A4 & A5 & A6 & y1 & E1 & Z1 & F1 & W1 & Act).
  assert (Hs : mid_ok s) by (unfold mid_ok; eauto 15).
  assert (MC : forall i, 0 <= i < h_nnode h -> active y1 i -> exists m, getz y1 i = Some m /\ dm_ncol m = rank h i).
  { intros i Hi (m & Em & Hm). destruct (W1 i Hi) as (m' & Em' & [Hw|Hw]); [congruence|]. exists m'. split; auto. apply Hw. }
  (* the common part *)
  pose (I := fun s => mid_ok s /\ (forall y, s_y1 s = Some y -> forall i, active y1 i -> active y i)).
  assert (Is : I s). { split; auto. intros y Hy i Hi. congruence. }
  assert (Ay1 : forall node v s c, 0 <= node < h_nnode h -> active y1 node -> 0 <= c < rank h node -> I s ->
    exists s', add_y1 node (tid * rank h node) c v s = Some s' /\ I s' /\ forall p, tot p s' = tot p s + basis h node p c * v).
  { intros node v s' c Hnode Hact Hc [M1 M2]. destruct (add_y1_spec node tid c v s' M1 Hnode Ht Hc) as (s'' & Ea & M' & T' & Act').
    { intros y Hy. eauto. }
    exists s''. split; auto. split; auto. split; auto. intros y Hy i Hi.
    destruct M1 as (_ & _ & _ & _ & _ & _ & ya & Ya & _). eapply Act'; eauto. }
  assert (Aty : forall off v s c, 0 <= off + c < h_kms h -> I s ->
    exists s', add_ty tid off c v s = Some s' /\ I s' /\ forall p, tot p s' = tot p s + (if p =? off + c then c1 else c0) * v).
  { intros off v s' c Hc [M1 M2]. destruct (add_ty_spec tid off c v s' M1 Ht Hc) as (s'' & Ea & M' & Y' & T').
    exists s''. split; auto. split; auto. split; auto. intros y Hy i Hi. rewrite Y' in Hy. eauto. }
  assert (Fin : forall r, (exists s', r = Some s' /\ I s' /\ forall p, tot p s' = tot p s +
      rsum 0 nrow (bi_term ncol (fun p r => side h n0 n1 r p) (fun p c => side h n1 n0 c p) (Bval h k) (sidex n1 n0) (sidex n0 n1) p)) ->
    exists s', r = Some s' /\ mid_ok s' /\ forall p, tot p s' = tot p s + pairc k p).
  { intros r (s' & E & [M _] & T'). exists s'. split; auto. split; auto. intros p. rewrite T'. f_equal. rewrite <- Er, <- Ec. now apply pairc_bi. }
  assert (Px : forall p, 0 <= p < h_kms h -> ld (s_px s) p = Some (xv p)) by (rewrite A2; auto).
  destruct (Z.eqb_spec (level h n0) (level h n1)) as [Hl|Hl]; [|destruct (Z.ltb_spec (level h n1) (level h n0)) as [Hl'|Hl']].
  - rewrite E1. cbn [bind].
    assert (Ac0 : active y1 n0) by (eapply Act; eauto; lia). assert (Ac1 : active y1 n1) by (eapply Act; eauto; lia).
    destruct (MC n0 N0 Ac0) as (m0 & Em0 & Em0c). destruct (MC n1 N1 Ac1) as (m1 & Em1 & Em1c).
    rewrite Em0, Em1. cbn [bind]. rewrite Em0c, Em1c. rewrite (proj2 (Z.leb_le _ _)) in P4 by lia. rewrite (proj2 (Z.leb_le _ _)) in P5 by lia. apply Fin.
    apply bi_gemv_spec with (I := I) (T := tot); auto.
    + intros j Hj. rewrite sidex_comp by lia. apply y0_at_good; auto; lia.
    + intros j Hj. rewrite sidex_comp by lia. apply y0_at_good; auto; lia.
    + intros i v s' Hi Hs'. unfold side. rewrite (proj2 (Z.leb_le _ _)) by lia. apply Ay1; auto. lia.
    + intros i v s' Hi Hs'. unfold side. rewrite (proj2 (Z.leb_le _ _)) by lia. apply Ay1; auto. lia.
  - rewrite (ld_mfirst h R) by auto. rewrite E1. cbn [bind].
    assert (Ac0 : active y1 n0) by (eapply Act; eauto; lia).
    destruct (MC n0 N0 Ac0) as (m0 & Em0 & Em0c). rewrite Em0. cbn [bind]. rewrite Em0c.
    rewrite (proj2 (Z.leb_le _ _)) in P4 by lia. rewrite (proj2 (Z.leb_gt _ _)) in P5 by lia. apply Fin.
    apply bi_gemv_spec with (I := I) (T := tot); auto.
    + intros j Hj. rewrite sidex_own by lia. apply Px. lia.
    + intros j Hj. rewrite sidex_comp by lia. apply y0_at_good; auto; lia.
    + intros i v s' Hi Hs'. unfold side. rewrite (proj2 (Z.leb_le _ _)) by lia. apply Ay1; auto. lia.
    + intros i v s' Hi Hs'. unfold side. rewrite (proj2 (Z.leb_gt _ _)) by lia. apply Aty; auto. lia.
  - rewrite (ld_mfirst h R) by auto. rewrite E1. cbn [bind].
    assert (Ac1 : active y1 n1) by (eapply Act; eauto; lia).
    destruct (MC n1 N1 Ac1) as (m1 & Em1 & Em1c). rewrite Em1. cbn [bind]. rewrite Em1c.
    rewrite (proj2 (Z.leb_gt _ _)) in P4 by lia. rewrite (proj2 (Z.leb_le _ _)) in P5 by lia. apply Fin.
    apply bi_gemv_spec with (I := I) (T := tot); auto.
    + intros j Hj. rewrite sidex_comp by lia. apply y0_at_good; auto; lia.
    + intros j Hj. rewrite sidex_own by lia. apply Px. lia.
    + intros i v s' Hi Hs'. unfold side. rewrite (proj2 (Z.leb_gt _ _)) by lia. apply Aty; auto. lia.
    + intros i v s' Hi Hs'. unfold side. rewrite (proj2 (Z.leb_le _ _)) by lia. apply Ay1; auto. lia.
Qed.

Lemma pairc_empty k p : (Bnrow h k * Bncol h k = 0)%Z -> pairc k p = c0.
Proof.
  intros H. unfold pairc. apply rsum_zero. intros q Hq. unfold adm_block. destruct (getz (h_adm h) k) as [[n0 n1]|]; [|ring].
  assert (Z0 : forall f : Z -> Z -> K, rsum 0 (Bnrow h k) (fun r => rsum 0 (Bncol h k) (fun c => f r c)) = c0).
  { intros f. destruct (Z.eq_dec (Bnrow h k) 0) as [->|]; [now apply rsum_empty|]. apply rsum_zero. intros; apply rsum_empty. nia. }
  rewrite !Z0. ring.
Qed.

Lemma mid_events_spec evs s : mid_schedule h evs -> mid_ok s ->
  exists s', run (map (fun ev => mid_pair h (fst ev) (snd ev)) evs) s = Some s' /\ mid_ok s' /\
    forall p, tot p s' = tot p s + rsum 0 (zlen (h_adm h)) (fun k => pairc k p).
Proof.
  intros Hsc Hs. destruct (mid_schedule_perm evs Hsc) as (Ht & m & Hm & Hp & He).
  rewrite Forall_forall in Ht.
  destruct (run_each snd (fun ev => mid_pair h (fst ev) (snd ev))
    (fun done s' => mid_ok s' /\ forall p, tot p s' = tot p s + lsum (fun k => pairc k p) done) evs [] s) as (s' & E & Ok & T'); auto.
  - eapply Permutation_NoDup; [symmetry; exact Hp|apply NoDup_zrange].
  - split; auto. intros p. rewrite lsum_nil. ring.
  - intros done ev s1 Hev Hd [O1 T1]. assert (Hk : 0 <= snd ev < m).
    { apply In_zrange. eapply Permutation_in; [exact Hp|]. now apply in_map. }
    destruct (mid_pair_spec (fst ev) (snd ev) s1 O1 (Ht ev Hev) ltac:(lia)) as (s2 & E2 & O2 & T2).
    exists s2. split; auto. split; auto. intros p. rewrite T2, T1, lsum_cons. ring.
  - exists s'. split; auto. split; auto. intros p. rewrite T', app_nil_r. f_equal.
    rewrite (lsum_perm _ _ (zrange 0 m)).
    + rewrite (rsum_split 0 m (zlen (h_adm h))) by lia. rewrite (rsum_zero m). { unfold rsum. ring. }
      intros k Hk. apply pairc_empty. auto.
    + rewrite <- Hp. symmetry. apply Permutation_rev.
Qed.
End Events.
End Mid.
