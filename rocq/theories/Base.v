(** Common vocabulary: checked arrays (lists indexed by [Z]), the option monad
    whose [None] stands for undefined behaviour (an access outside the
    allocated array), and C-style counted loops.  Nothing in this file models
    code; it is the target language of the models. *)
From Coq Require Import ZArith List Lia Bool FinFun.
Import ListNotations.
Open Scope Z_scope.

(* Keep [simpl] away from integer arithmetic. *)
Arguments Z.add : simpl never.
Arguments Z.sub : simpl never.
Arguments Z.mul : simpl never.
Arguments Z.opp : simpl never.
Arguments Z.of_nat : simpl never.
Arguments Z.to_nat : simpl never.
Arguments Z.div : simpl never.
Arguments Z.modulo : simpl never.
Arguments Z.leb : simpl never.
Arguments Z.ltb : simpl never.
Arguments Z.eqb : simpl never.
Arguments Z.max : simpl never.
Arguments Z.min : simpl never.
Arguments Z.pow : simpl never.

Definition bind {A B} (o : option A) (f : A -> option B) : option B :=
  match o with Some a => f a | None => None end.
Notation "x <- e ; f" := (bind e (fun x => f))
  (at level 100, e at level 90, f at level 200, right associativity).
Notation "' p <- e ; f" := (bind e (fun z => let p := z in f))
  (at level 100, p pattern, e at level 90, f at level 200, right associativity).

(** Length of an array. *)
Definition zlen {A} (l : list A) : Z := Z.of_nat (length l).

(** Checked read [l[i]]: [None] outside [0, zlen l). *)
Definition getz {A} (l : list A) (i : Z) : option A :=
  if 0 <=? i then nth_error l (Z.to_nat i) else None.

Fixpoint upd {A} (l : list A) (n : nat) (v : A) : list A :=
  match l, n with
  | [], _ => []
  | _ :: t, O => v :: t
  | x :: t, S n' => x :: upd t n' v
  end.

(** Checked write [l[i] = v]: [None] outside [0, zlen l). *)
Definition setz {A} (l : list A) (i : Z) (v : A) : option (list A) :=
  if (0 <=? i) && (i <? zlen l) then Some (upd l (Z.to_nat i) v) else None.

Fixpoint loop {St} (n : nat) (i : Z) (body : Z -> St -> option St) (s : St) : option St :=
  match n with
  | O => Some s
  | S n' => s' <- body i s; loop n' (i + 1) body s'
  end.

(** [for (i = lo; i < hi; i++) body]. *)
Definition zfor {St} (lo hi : Z) (body : Z -> St -> option St) (s : St) : option St :=
  loop (Z.to_nat (hi - lo)) lo body s.

(** A fresh array of [n] cells holding [v]. *)
Definition arr {A} (n : Z) (v : A) : list A := repeat v (Z.to_nat n).

Arguments zlen : simpl never.
Arguments getz : simpl never.
Arguments setz : simpl never.
Arguments zfor : simpl never.
Arguments arr : simpl never.

(** ** Lemmas *)

Lemma zlen_nonneg {A} (l : list A) : 0 <= zlen l.
Proof. unfold zlen; lia. Qed.

Lemma zlen_nil {A} : zlen (@nil A) = 0. Proof. reflexivity. Qed.
Lemma zlen_cons {A} (x : A) l : zlen (x :: l) = zlen l + 1.
Proof. unfold zlen; cbn [length]; lia. Qed.
Lemma zlen_app {A} (l m : list A) : zlen (l ++ m) = zlen l + zlen m.
Proof. unfold zlen; rewrite app_length; lia. Qed.
Lemma zlen_arr {A} n (v : A) : 0 <= n -> zlen (arr n v) = n.
Proof. intros; unfold zlen, arr; rewrite repeat_length; lia. Qed.
Lemma zlen_map {A B} (f : A -> B) l : zlen (map f l) = zlen l.
Proof. unfold zlen; now rewrite map_length. Qed.

Lemma upd_length {A} (l : list A) n v : length (upd l n v) = length l.
Proof. revert n; induction l; intros [|n]; simpl; auto. Qed.

Lemma nth_error_upd_same {A} (l : list A) n v :
  (n < length l)%nat -> nth_error (upd l n v) n = Some v.
Proof. revert n; induction l; intros [|n] H; simpl in *; try lia; auto. apply IHl; lia. Qed.

Lemma nth_error_upd_other {A} (l : list A) n m v :
  n <> m -> nth_error (upd l n v) m = nth_error l m.
Proof. revert n m; induction l; intros [|n] [|m] H; simpl; auto; try congruence. Qed.

Lemma getz_Some_iff {A} (l : list A) i :
  (exists v, getz l i = Some v) <-> 0 <= i < zlen l.
Proof.
  unfold getz, zlen. destruct (Z.leb_spec 0 i) as [H|H].
  - split.
    + intros [v Hv]. assert (nth_error l (Z.to_nat i) <> None) by congruence.
      apply nth_error_Some in H0. lia.
    + intros Hi. destruct (nth_error l (Z.to_nat i)) eqn:E; eauto.
      apply nth_error_None in E. lia.
  - split; [intros [v Hv]; discriminate | lia].
Qed.

Lemma getz_in {A} (l : list A) i : 0 <= i < zlen l -> exists v, getz l i = Some v.
Proof. intro; now apply getz_Some_iff. Qed.

Lemma getz_range {A} (l : list A) i v : getz l i = Some v -> 0 <= i < zlen l.
Proof. intro; apply getz_Some_iff; eauto. Qed.

Lemma getz_None {A} (l : list A) i : getz l i = None <-> ~ (0 <= i < zlen l).
Proof.
  rewrite <- getz_Some_iff. destruct (getz l i); split; intros; try congruence.
  - exfalso; apply H; eauto.
  - intros [v Hv]; discriminate.
Qed.

Lemma setz_Some {A} (l : list A) i v :
  0 <= i < zlen l -> exists l', setz l i v = Some l'.
Proof.
  intros [H1 H2]. unfold setz.
  destruct (Z.leb_spec 0 i); [|lia]. destruct (Z.ltb_spec i (zlen l)); [|lia]. simpl; eauto.
Qed.

Lemma setz_range {A} (l : list A) i v l' : setz l i v = Some l' -> 0 <= i < zlen l.
Proof.
  unfold setz. destruct (Z.leb_spec 0 i); destruct (Z.ltb_spec i (zlen l)); simpl; intros; try discriminate; lia.
Qed.

Lemma setz_eq {A} (l : list A) i v l' : setz l i v = Some l' -> l' = upd l (Z.to_nat i) v.
Proof. unfold setz. destruct (_ && _); congruence. Qed.

Lemma setz_zlen {A} (l : list A) i v l' : setz l i v = Some l' -> zlen l' = zlen l.
Proof. intro H; rewrite (setz_eq _ _ _ _ H). unfold zlen; now rewrite upd_length. Qed.

Lemma getz_setz {A} (l : list A) i v l' j :
  setz l i v = Some l' -> getz l' j = if Z.eqb i j then Some v else getz l j.
Proof.
  intro H. pose proof (setz_range _ _ _ _ H) as Hr. rewrite (setz_eq _ _ _ _ H).
  destruct (Z.eqb_spec i j) as [->|Hn].
  - unfold getz. destruct (Z.leb_spec 0 j); [|lia].
    apply nth_error_upd_same. unfold zlen in Hr; lia.
  - unfold getz. destruct (Z.leb_spec 0 j); [|reflexivity].
    apply nth_error_upd_other. lia.
Qed.

Lemma getz_setz_same {A} (l : list A) i v l' : setz l i v = Some l' -> getz l' i = Some v.
Proof. intro H; rewrite (getz_setz _ _ _ _ _ H), Z.eqb_refl; auto. Qed.

Lemma getz_setz_other {A} (l : list A) i v l' j :
  setz l i v = Some l' -> i <> j -> getz l' j = getz l j.
Proof. intros H Hn; rewrite (getz_setz _ _ _ _ _ H). now destruct (Z.eqb_spec i j). Qed.

Lemma getz_upd {A} (l : list A) i v j :
  0 <= i < zlen l -> getz (upd l (Z.to_nat i) v) j = if Z.eqb i j then Some v else getz l j.
Proof.
  intros H. apply getz_setz. unfold setz.
  destruct (Z.leb_spec 0 i), (Z.ltb_spec i (zlen l)); simpl; auto; lia.
Qed.

Lemma setz_upd {A} (l : list A) i v :
  0 <= i < zlen l -> setz l i v = Some (upd l (Z.to_nat i) v).
Proof. intros; unfold setz. destruct (Z.leb_spec 0 i), (Z.ltb_spec i (zlen l)); simpl; auto; lia. Qed.

Lemma zlen_upd {A} (l : list A) n v : zlen (upd l n v) = zlen l.
Proof. unfold zlen; now rewrite upd_length. Qed.

(** Arrays with the same length and the same cells are equal. *)
Lemma getz_ext {A} (l m : list A) :
  zlen l = zlen m -> (forall i, 0 <= i < zlen l -> getz l i = getz m i) -> l = m.
Proof.
  revert m; induction l; intros [|b m] Hl He; unfold zlen in *; simpl in *; try lia; auto.
  f_equal.
  - specialize (He 0 ltac:(lia)). unfold getz in He; simpl in He; congruence.
  - apply IHl; [lia|]. intros i Hi. specialize (He (i + 1) ltac:(lia)).
    unfold getz in *. destruct (Z.leb_spec 0 i); [|lia]. destruct (Z.leb_spec 0 (i + 1)); [|lia].
    replace (Z.to_nat (i + 1)) with (S (Z.to_nat i)) in He by lia. exact He.
Qed.

Lemma getz_arr {A} n (v : A) i : 0 <= i < n -> getz (arr n v) i = Some v.
Proof.
  intros. unfold getz, arr. destruct (Z.leb_spec 0 i); [|lia].
  apply nth_error_repeat. lia.
Qed.

Lemma getz_app1 {A} (l m : list A) i : i < zlen l -> getz (l ++ m) i = getz l i.
Proof.
  intros. unfold getz. destruct (Z.leb_spec 0 i); auto.
  apply nth_error_app1. unfold zlen in *; lia.
Qed.

Lemma getz_app2 {A} (l m : list A) i : zlen l <= i -> getz (l ++ m) i = getz m (i - zlen l).
Proof.
  intros. pose proof (zlen_nonneg l). unfold getz.
  destruct (Z.leb_spec 0 i); [|lia]. destruct (Z.leb_spec 0 (i - zlen l)); [|lia].
  rewrite nth_error_app2; [|unfold zlen in *; lia]. f_equal. unfold zlen in *; lia.
Qed.

Lemma getz_nat {A} (l : list A) (n : nat) : getz l (Z.of_nat n) = nth_error l n.
Proof. unfold getz. destruct (Z.leb_spec 0 (Z.of_nat n)); [|lia]. now rewrite Nat2Z.id. Qed.

Lemma getz_In {A} (l : list A) i v : getz l i = Some v -> In v l.
Proof. unfold getz. destruct (0 <=? i); [|discriminate]. apply nth_error_In. Qed.

Lemma In_getz {A} (l : list A) v : In v l -> exists i, getz l i = Some v.
Proof.
  intro H. apply In_nth_error in H. destruct H as [n H]. exists (Z.of_nat n). now rewrite getz_nat.
Qed.

Lemma getz_cons {A} (x : A) l i : 0 < i -> getz (x :: l) i = getz l (i - 1).
Proof.
  intros. unfold getz. destruct (Z.leb_spec 0 i); [|lia]. destruct (Z.leb_spec 0 (i - 1)); [|lia].
  replace (Z.to_nat i) with (S (Z.to_nat (i - 1))) by lia. reflexivity.
Qed.

Lemma getz_0 {A} (x : A) l : getz (x :: l) 0 = Some x. Proof. reflexivity. Qed.

Lemma getz_map {A B} (f : A -> B) l i : getz (map f l) i = option_map f (getz l i).
Proof. unfold getz. destruct (0 <=? i); auto. apply nth_error_map. Qed.

(** ** Loop rules *)

Lemma loop_inv {St} (P : Z -> St -> Prop) body : forall n i s,
  P i s ->
  (forall k t, i <= k < i + Z.of_nat n -> P k t -> exists t', body k t = Some t' /\ P (k + 1) t') ->
  exists s', loop n i body s = Some s' /\ P (i + Z.of_nat n) s'.
Proof.
  induction n; intros i s H0 Hb.
  - exists s; split; [reflexivity|]. simpl. now rewrite Z.add_0_r.
  - cbn [loop]. destruct (Hb i s ltac:(lia) H0) as [s1 [E1 P1]]. rewrite E1. cbn [bind].
    assert (Hb' : forall k t, i + 1 <= k < i + 1 + Z.of_nat n -> P k t -> exists t', body k t = Some t' /\ P (k + 1) t') by (intros k t Hk; apply Hb; lia).
    destruct (IHn (i + 1) s1 P1 Hb') as [s' [E' P']].
    exists s'. split; auto. replace (i + Z.of_nat (S n)) with (i + 1 + Z.of_nat n) by lia. auto.
Qed.

(** Invariant rule for [zfor]: total correctness (in particular no [None]). *)
Lemma zfor_inv {St} (P : Z -> St -> Prop) lo hi body s :
  lo <= hi -> P lo s ->
  (forall k t, lo <= k < hi -> P k t -> exists t', body k t = Some t' /\ P (k + 1) t') ->
  exists s', zfor lo hi body s = Some s' /\ P hi s'.
Proof.
  intros Hle H0 Hb. unfold zfor.
  destruct (loop_inv P body (Z.to_nat (hi - lo)) lo s H0) as [s' [E P']].
  - intros k t Hk. apply Hb. lia.
  - exists s'. split; auto. replace hi with (lo + Z.of_nat (Z.to_nat (hi - lo))) by lia. auto.
Qed.

(** Partial-correctness rule: whenever the loop returns, the invariant holds. *)
Lemma loop_inv_partial {St} (P : Z -> St -> Prop) body : forall n i s s',
  loop n i body s = Some s' -> P i s ->
  (forall k t t', i <= k < i + Z.of_nat n -> P k t -> body k t = Some t' -> P (k + 1) t') ->
  P (i + Z.of_nat n) s'.
Proof.
  induction n; intros i s s' E H0 Hb.
  - simpl in E. inversion E; subst. now rewrite Z.add_0_r.
  - cbn [loop] in E. destruct (body i s) as [s1|] eqn:E1; [|discriminate]. cbn [bind] in E.
    replace (i + Z.of_nat (S n)) with (i + 1 + Z.of_nat n) by lia.
    eapply IHn; eauto.
    + eapply Hb; eauto; lia.
    + intros; eapply Hb; eauto; lia.
Qed.

Lemma zfor_inv_partial {St} (P : Z -> St -> Prop) lo hi body s s' :
  zfor lo hi body s = Some s' -> lo <= hi -> P lo s ->
  (forall k t t', lo <= k < hi -> P k t -> body k t = Some t' -> P (k + 1) t') ->
  P hi s'.
Proof.
  intros E Hle H0 Hb. unfold zfor in E.
  replace hi with (lo + Z.of_nat (Z.to_nat (hi - lo))) by lia.
  eapply loop_inv_partial; eauto. intros; eapply Hb; eauto; lia.
Qed.

Lemma zfor_empty {St} lo hi (body : Z -> St -> option St) s : hi <= lo -> zfor lo hi body s = Some s.
Proof. intros. unfold zfor. replace (Z.to_nat (hi - lo)) with O by lia. reflexivity. Qed.

Lemma zfor_step {St} lo hi (body : Z -> St -> option St) s :
  lo < hi -> zfor lo hi body s = (s' <- body lo s; zfor (lo + 1) hi body s').
Proof.
  intros. unfold zfor. replace (Z.to_nat (hi - lo)) with (S (Z.to_nat (hi - (lo + 1)))) by lia.
  reflexivity.
Qed.

Lemma loop_app {St} (body : Z -> St -> option St) : forall n m i s,
  loop (n + m) i body s = (s' <- loop n i body s; loop m (i + Z.of_nat n) body s').
Proof.
  induction n; intros; cbn [loop plus].
  - simpl. now rewrite Z.add_0_r.
  - destruct (body i s); simpl; auto. rewrite IHn.
    destruct (loop n (i + 1) body s0); simpl; auto. f_equal. lia.
Qed.

Lemma zfor_split {St} lo mid hi (body : Z -> St -> option St) s :
  lo <= mid <= hi -> zfor lo hi body s = (s' <- zfor lo mid body s; zfor mid hi body s').
Proof.
  intros. unfold zfor.
  replace (Z.to_nat (hi - lo)) with (Z.to_nat (mid - lo) + Z.to_nat (hi - mid))%nat by lia.
  rewrite loop_app. destruct (loop _ lo body s); simpl; auto. f_equal. lia.
Qed.

Lemma zfor_last {St} lo hi (body : Z -> St -> option St) s :
  lo <= hi -> zfor lo (hi + 1) body s = (s' <- zfor lo hi body s; body hi s').
Proof.
  intros. rewrite (zfor_split lo hi (hi + 1)) by lia.
  destruct (zfor lo hi body s); simpl; auto.
  rewrite zfor_step by lia. destruct (body hi s0); simpl; auto. apply zfor_empty; lia.
Qed.

Lemma zfor_ext {St} lo hi (b1 b2 : Z -> St -> option St) s :
  (forall k t, lo <= k < hi -> b1 k t = b2 k t) -> zfor lo hi b1 s = zfor lo hi b2 s.
Proof.
  intros. unfold zfor.
  assert (forall n i s, (forall k t, i <= k < i + Z.of_nat n -> b1 k t = b2 k t) ->
            loop n i b1 s = loop n i b2 s).
  { induction n; intros; cbn [loop]; auto. rewrite H0 by lia. destruct (b2 i s0); simpl; auto.
    apply IHn. intros; apply H0; lia. }
  apply H0. intros; apply H; lia.
Qed.

(** ** Integer ranges *)

(** [lo, lo+1, ..., hi-1]. *)
Definition zrange (lo hi : Z) : list Z :=
  map (fun k => lo + Z.of_nat k) (seq 0 (Z.to_nat (hi - lo))).

Lemma In_zrange lo hi x : In x (zrange lo hi) <-> lo <= x < hi.
Proof.
  unfold zrange. rewrite in_map_iff. split.
  - intros [k [E H]]. apply in_seq in H. lia.
  - intros H. exists (Z.to_nat (x - lo)). split; [lia|]. apply in_seq. lia.
Qed.

Lemma NoDup_zrange lo hi : NoDup (zrange lo hi).
Proof.
  unfold zrange. apply FinFun.Injective_map_NoDup; [intros a b; lia|apply seq_NoDup].
Qed.

Lemma zrange_length lo hi : length (zrange lo hi) = Z.to_nat (hi - lo).
Proof. unfold zrange. now rewrite map_length, seq_length. Qed.

Lemma zlen_zrange lo hi : lo <= hi -> zlen (zrange lo hi) = hi - lo.
Proof. intros. unfold zlen. rewrite zrange_length. lia. Qed.

Lemma zrange_empty lo hi : hi <= lo -> zrange lo hi = [].
Proof. intros. unfold zrange. replace (Z.to_nat (hi - lo)) with O by lia. reflexivity. Qed.

Lemma zrange_app lo mid hi : lo <= mid <= hi -> zrange lo hi = zrange lo mid ++ zrange mid hi.
Proof.
  intros. unfold zrange.
  replace (Z.to_nat (hi - lo)) with (Z.to_nat (mid - lo) + Z.to_nat (hi - mid))%nat by lia.
  rewrite seq_app, map_app. f_equal.
  rewrite plus_O_n.
  assert (forall n a, map (fun k => lo + Z.of_nat k) (seq (Z.to_nat (mid - lo) + a) n)
                    = map (fun k => mid + Z.of_nat k) (seq a n)).
  { induction n; intros; simpl; auto. f_equal; [lia|].
    rewrite <- IHn. do 2 f_equal. lia. }
  specialize (H0 (Z.to_nat (hi - mid)) O). rewrite Nat.add_0_r in H0. exact H0.
Qed.

Lemma zrange_snoc lo hi : lo <= hi -> zrange lo (hi + 1) = zrange lo hi ++ [hi].
Proof.
  intros. rewrite (zrange_app lo hi (hi + 1)) by lia. f_equal.
  unfold zrange. replace (Z.to_nat (hi + 1 - hi)) with 1%nat by lia. simpl. f_equal. lia.
Qed.

Lemma zrange_cons lo hi : lo < hi -> zrange lo hi = lo :: zrange (lo + 1) hi.
Proof.
  intros. rewrite (zrange_app lo (lo + 1) hi) by lia.
  unfold zrange at 1. replace (Z.to_nat (lo + 1 - lo)) with 1%nat by lia. simpl. f_equal. lia.
Qed.

Lemma getz_zrange lo hi i : 0 <= i < hi - lo -> getz (zrange lo hi) i = Some (lo + i).
Proof.
  intros. unfold zrange. rewrite getz_map.
  replace i with (Z.of_nat (Z.to_nat i)) at 1 by lia. rewrite getz_nat.
  rewrite nth_error_nth' with (d := O) by (rewrite seq_length; lia).
  rewrite seq_nth by lia. simpl. f_equal. lia.
Qed.

(** Counting. *)
Definition zcount {A} (f : A -> bool) (l : list A) : Z := zlen (filter f l).

Lemma zcount_nonneg {A} (f : A -> bool) l : 0 <= zcount f l.
Proof. apply zlen_nonneg. Qed.

Lemma zcount_app {A} (f : A -> bool) l m : zcount f (l ++ m) = zcount f l + zcount f m.
Proof. unfold zcount. now rewrite filter_app, zlen_app. Qed.

Lemma zcount_cons {A} (f : A -> bool) x l :
  zcount f (x :: l) = (if f x then 1 else 0) + zcount f l.
Proof. unfold zcount; simpl. destruct (f x); [rewrite zlen_cons|]; lia. Qed.

Lemma zcount_nil {A} (f : A -> bool) : zcount f [] = 0. Proof. reflexivity. Qed.

Lemma zcount_ext {A} (f g : A -> bool) l :
  (forall x, In x l -> f x = g x) -> zcount f l = zcount g l.
Proof.
  induction l; intros H; [reflexivity|]. rewrite !zcount_cons, IHl, (H a); auto; [now left|].
  intros; apply H; now right.
Qed.

Lemma zcount_zero {A} (f : A -> bool) l :
  zcount f l = 0 <-> (forall x, In x l -> f x = false).
Proof.
  induction l; [split; [intros _ x []|reflexivity]|]. rewrite zcount_cons.
  pose proof (zcount_nonneg f l). split.
  - intros Hz x [<-|Hx]; destruct (f a) eqn:E; try lia; auto; apply IHl; auto; lia.
  - intros Ha. rewrite (Ha a) by now left. rewrite (proj2 IHl); [lia|]. intros; apply Ha; now right.
Qed.

(** Flipping a predicate from true to false at exactly one element. *)
Lemma zcount_flip {A} (f g : A -> bool) l x :
  NoDup l -> In x l -> f x = true -> g x = false ->
  (forall y, y <> x -> f y = g y) -> zcount g l = zcount f l - 1.
Proof.
  induction l; intros Hnd Hin Hf Hg Heq; [easy|]. inversion Hnd; subst. rewrite !zcount_cons.
  destruct Hin as [->|Hin].
  - rewrite Hf, Hg. rewrite (zcount_ext g f l); [lia|].
    intros y Hy. symmetry; apply Heq. intros ->; contradiction.
  - rewrite IHl; auto. rewrite (Heq a); [lia|]. intros ->; contradiction.
Qed.

(** Total read with default 0, for specifications. *)
Definition nthz (l : list Z) (i : Z) : Z := match getz l i with Some v => v | None => 0 end.

Lemma getz_nthz (l : list Z) i : 0 <= i < zlen l -> getz l i = Some (nthz l i).
Proof. intros H. unfold nthz. destruct (getz_in l i H) as [v ->]. reflexivity. Qed.

Lemma nthz_eq (l : list Z) i v : getz l i = Some v -> nthz l i = v.
Proof. unfold nthz. now intros ->. Qed.

Lemma zcount_unique {A} (f : A -> bool) l :
  NoDup l -> (forall x y, In x l -> In y l -> f x = true -> f y = true -> x = y) ->
  zcount f l = if existsb f l then 1 else 0.
Proof.
  induction l as [|a l IH]; intros Hnd Hu; [reflexivity|]. inversion Hnd; subst.
  rewrite zcount_cons. simpl. destruct (f a) eqn:Ea; simpl.
  - rewrite (proj2 (zcount_zero f l)); [lia|]. intros x Hx. destruct (f x) eqn:Ex; auto.
    assert (a = x) by (apply Hu; auto; [now left|now right]). subst; contradiction.
  - rewrite IH; auto. intros; apply Hu; auto; now right.
Qed.

(** [lia] after unfolding array lengths. *)
Ltac zlia := unfold zlen in *; repeat rewrite app_length in *; cbn [length] in *; lia.
