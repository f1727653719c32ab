(** Counting sort arithmetic and permutations of a range. *)
From Coq Require Import ZArith List Lia Bool Permutation.
From Verif Require Import Base Mem Spec_Utils Proof_Utils.
Import ListNotations.
Open Scope Z_scope.

(** Fill loops. *)
Lemma zfill_spec {A} (f : Z -> A) (body : Z -> mem A -> option (mem A)) lo hi (m : mem A) :
  (forall i x, lo <= i < hi -> body i x = st x i (f i)) ->
  lo <= hi -> 0 <= lo -> hi <= zlen m ->
  exists m', zfor lo hi body m = Some m' /\ zlen m' = zlen m /\
    forall k, ld m' k = if (lo <=? k) && (k <? hi) then Some (f k) else ld m k.
Proof.
  intros Hb H1 H2 H3.
  destruct (zfor_inv (fun i (x : mem A) => zlen x = zlen m /\
     forall k, ld x k = if (lo <=? k) && (k <? i) then Some (f k) else ld m k) lo hi body m) as (x & E & P1 & P2); auto.
  - split; auto. intros k. destruct (Z.leb_spec lo k), (Z.ltb_spec k lo); simpl; auto; lia.
  - intros i x Hi [P1 P2]. rewrite Hb by lia. destruct (st_Some x i (f i) ltac:(lia)) as [x' E]. exists x'. split; auto.
    split; [rewrite (st_zlen _ _ _ _ E); auto|]. intros k. rewrite (ld_st _ _ _ _ _ E), P2.
    destruct (Z.eqb_spec i k).
    + subst k. destruct (Z.leb_spec lo i), (Z.ltb_spec i (i + 1)); simpl; auto; lia.
    + destruct (Z.leb_spec lo k), (Z.ltb_spec k i), (Z.ltb_spec k (i + 1)); simpl; auto; lia.
  - exists x. auto.
Qed.

Section Bucket.
Context (n m : Z) (cl : Z -> Z).
Hypothesis Hn : 0 <= n.
Hypothesis Hm : 0 <= m.
Hypothesis Hcl : forall i, 0 <= i < n -> 0 <= cl i < m.

Definition bcnt (k c : Z) : Z := zcount (fun i => cl i =? c) (zrange 0 k).
Definition boff (c : Z) : Z := zsumf (bcnt n) 0 c.
Definition bdst (i : Z) : Z := boff (cl i) + bcnt i (cl i).

Lemma bcnt_snoc k c : 0 <= k -> bcnt (k + 1) c = bcnt k c + (if cl k =? c then 1 else 0).
Proof. intros. unfold bcnt. rewrite zrange_snoc, zcount_app, zcount_cons, zcount_nil by lia. lia. Qed.
Lemma bcnt_nonneg k c : 0 <= bcnt k c. Proof. apply zcount_nonneg. Qed.
Lemma bcnt_0 c : bcnt 0 c = 0. Proof. reflexivity. Qed.
Lemma bcnt_mono k l c : 0 <= k <= l -> bcnt k c <= bcnt l c.
Proof. intros. unfold bcnt. rewrite (zrange_app 0 k l), zcount_app by lia. pose proof (zcount_nonneg (fun i => cl i =? c) (zrange k l)). lia. Qed.
Lemma boff_snoc c : 0 <= c -> boff (c + 1) = boff c + bcnt n c.
Proof. intros. unfold boff. now rewrite zsumf_snoc. Qed.
Lemma boff_0 : boff 0 = 0. Proof. reflexivity. Qed.
Lemma boff_mono c c' : 0 <= c <= c' -> boff c <= boff c'.
Proof.
  intros. unfold boff. rewrite (zsumf_split _ 0 c c') by lia.
  pose proof (zsumf_nonneg (bcnt n) c c' ltac:(intros; apply bcnt_nonneg)). lia.
Qed.

Lemma bsum_cnt k : 0 <= k <= n -> zsumf (bcnt k) 0 m = k.
Proof.
  intros [H0 H]. revert H. pattern k. apply natlike_ind; auto.
  - intros _. unfold zsumf. induction (zrange 0 m); simpl; auto.
  - intros k' Hk IH Hle. unfold Z.succ in *.
    assert (E : zsumf (bcnt (k' + 1)) 0 m = zsumf (bcnt k') 0 m + zsumf (fun r => if cl k' =? r then 1 else 0) 0 m).
    { unfold zsumf. induction (zrange 0 m); simpl; auto. rewrite bcnt_snoc by lia. lia. }
    rewrite E, IH by lia. f_equal. pose proof (Hcl k' ltac:(lia)) as R.
    rewrite (zsumf_split _ 0 (cl k') m) by lia. rewrite (zsumf_split _ (cl k') (cl k' + 1) m) by lia.
    rewrite zsumf_snoc, Z.eqb_refl by lia. rewrite (zsumf_empty _ (cl k') (cl k')) by lia.
    assert (forall lo hi, (forall r, lo <= r < hi -> r <> cl k') -> zsumf (fun r => if cl k' =? r then 1 else 0) lo hi = 0) as Z0.
    { intros lo hi Hr. rewrite (zsumf_ext _ (fun _ => 0)).
      - unfold zsumf. induction (zrange lo hi); simpl; lia.
      - intros i Hi. specialize (Hr i Hi). destruct (Z.eqb_spec (cl k') i); congruence. }
    rewrite !Z0; lia.
Qed.

Lemma boff_m : boff m = n. Proof. apply bsum_cnt. lia. Qed.
Lemma boff_range c : 0 <= c <= m -> 0 <= boff c <= n.
Proof. intros. pose proof (boff_mono 0 c ltac:(lia)). pose proof (boff_mono c m ltac:(lia)). rewrite boff_m, boff_0 in *. lia. Qed.

Lemma bdst_range i : 0 <= i < n -> boff (cl i) <= bdst i < boff (cl i + 1).
Proof.
  intros Hi. pose proof (Hcl i Hi). unfold bdst. rewrite boff_snoc by lia. pose proof (bcnt_nonneg i (cl i)).
  pose proof (bcnt_mono (i + 1) n (cl i) ltac:(lia)) as M. rewrite bcnt_snoc, Z.eqb_refl in M by lia. lia.
Qed.

Lemma bdst_bound i : 0 <= i < n -> 0 <= bdst i < n.
Proof.
  intros Hi. pose proof (bdst_range i Hi). pose proof (Hcl i Hi).
  pose proof (boff_range (cl i) ltac:(lia)). pose proof (boff_range (cl i + 1) ltac:(lia)). lia.
Qed.

Lemma boff_disjoint c c' : 0 <= c -> 0 <= c' -> c <> c' -> boff (c + 1) <= boff c' \/ boff (c' + 1) <= boff c.
Proof. intros. destruct (Z_lt_le_dec c c'); [left|right]; apply boff_mono; lia. Qed.

Lemma bdst_class i c : 0 <= i < n -> 0 <= c -> boff c <= bdst i < boff (c + 1) -> cl i = c.
Proof.
  intros Hi Hc Hb. pose proof (bdst_range i Hi). pose proof (Hcl i Hi). destruct (Z.eq_dec (cl i) c); auto.
  destruct (boff_disjoint (cl i) c); lia.
Qed.

Lemma bdst_lt i i' : 0 <= i < i' -> i' < n -> bdst i <> bdst i'.
Proof.
  intros H1 H2 E. assert (cl i = cl i').
  { pose proof (bdst_range i' ltac:(lia)). pose proof (Hcl i' ltac:(lia)). apply bdst_class; lia. }
  unfold bdst in E. rewrite H in *. pose proof (bcnt_mono (i + 1) i' (cl i') ltac:(lia)) as M.
  rewrite bcnt_snoc, H, Z.eqb_refl in M by lia. lia.
Qed.

Lemma bdst_inj i i' : 0 <= i < n -> 0 <= i' < n -> bdst i = bdst i' -> i = i'.
Proof.
  intros H1 H2 E. destruct (Z.lt_trichotomy i i') as [L|[L|L]]; auto; exfalso.
  - apply (bdst_lt i i'); auto; lia. - apply (bdst_lt i' i); auto; lia.
Qed.

Lemma bcnt_pos i : 0 <= i < n -> 0 < bcnt n (cl i).
Proof.
  intros. pose proof (bdst_range i H). rewrite boff_snoc in H0 by (apply Hcl; lia). lia.
Qed.

End Bucket.

(** [tau] permutes the positions s .. e and fixes the others. *)
Definition permutes (s e : Z) (tau : Z -> Z) : Prop :=
  (forall i, s <= i <= e -> s <= tau i <= e) /\ (forall i, ~ (s <= i <= e) -> tau i = i) /\
  (forall i j, tau i = tau j -> i = j).

Lemma permutes_id s e : permutes s e (fun i => i).
Proof. repeat split; auto; lia. Qed.

Lemma permutes_comp s e t1 t2 : permutes s e t1 -> permutes s e t2 -> permutes s e (fun i => t2 (t1 i)).
Proof.
  intros (A1 & A2 & A3) (B1 & B2 & B3). split; [|split].
  - intros i Hi. apply B1. apply A1. auto.
  - intros i Hi. rewrite A2 by auto. auto.
  - intros i j E. apply A3. apply B3. auto.
Qed.

Lemma permutes_widen s e s' e' t : s' <= s -> e <= e' -> permutes s e t -> permutes s' e' t.
Proof.
  intros H1 H2 (A1 & A2 & A3). split; [|split]; auto.
  - intros i Hi. destruct (Z_le_dec s i), (Z_le_dec i e).
    + pose proof (A1 i ltac:(lia)). lia.
    + rewrite A2; lia. + rewrite A2; lia. + rewrite A2; lia.
  - intros i Hi. apply A2. lia.
Qed.

Lemma permutes_perm s e t : permutes s e t -> Permutation (map t (zrange s (e + 1))) (zrange s (e + 1)).
Proof.
  intros (A1 & A2 & A3). apply NoDup_Permutation_bis.
  - apply FinFun.Injective_map_NoDup; [intros a b; apply A3|apply NoDup_zrange].
  - now rewrite map_length.
  - intros x Hx. apply in_map_iff in Hx as (y & <- & Hy). apply In_zrange in Hy. apply In_zrange.
    pose proof (A1 y ltac:(lia)). lia.
Qed.

Lemma permutes_surj s e t : permutes s e t -> forall i, s <= i <= e -> exists k, s <= k <= e /\ t k = i.
Proof.
  intros H i Hi. pose proof (permutes_perm _ _ _ H) as P.
  assert (In i (map t (zrange s (e + 1)))) as Hin.
  { eapply Permutation_in; [symmetry; exact P|]. apply In_zrange. lia. }
  apply in_map_iff in Hin as (k & E & Hk). apply In_zrange in Hk. exists k. split; auto; lia.
Qed.
