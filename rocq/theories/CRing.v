(** Exact arithmetic: an arbitrary commutative ring, and finite sums over it.
    The matvec/matmul kernels only add and multiply, so theorems for every
    commutative ring cover exact real arithmetic.  Not a model of code. *)
From Coq Require Import ZArith List Lia Bool Permutation Ring Ring_theory.
From Verif Require Import Base.
Import ListNotations.
Open Scope Z_scope.

Record cring := CRing {
  ccar :> Type;
  c0 : ccar; c1 : ccar;
  cadd : ccar -> ccar -> ccar; cmul : ccar -> ccar -> ccar;
  csub : ccar -> ccar -> ccar; copp : ccar -> ccar;
  cth : ring_theory c0 c1 cadd cmul csub copp eq
}.
Arguments c0 {c}. Arguments c1 {c}. Arguments cadd {c}. Arguments cmul {c}.
Arguments csub {c}. Arguments copp {c}.

Declare Scope ring_K.
Delimit Scope ring_K with K.
Notation "a + b" := (cadd a b) : ring_K.
Notation "a * b" := (cmul a b) : ring_K.
Notation "a - b" := (csub a b) : ring_K.

(** The integers. *)
Definition Zring : cring := CRing Z 0 1 Z.add Z.mul Z.sub Z.opp InitialRing.Zth.

(** Sum of [f] over a list, and over lo <= i < hi. *)
Definition lsum {K : cring} {A} (f : A -> K) (l : list A) : K := fold_right cadd c0 (map f l).
Definition rsum {K : cring} (lo hi : Z) (f : Z -> K) : K := lsum f (zrange lo hi).

Section Sums.
Context {K : cring}.
Add Ring Kring : (cth K).
Local Open Scope ring_K.

Lemma lsum_nil {A} (f : A -> K) : lsum f [] = c0. Proof. reflexivity. Qed.
Lemma lsum_cons {A} (f : A -> K) x l : lsum f (x :: l) = f x + lsum f l. Proof. reflexivity. Qed.
Lemma lsum_app {A} (f : A -> K) l m : lsum f (l ++ m) = lsum f l + lsum f m.
Proof. induction l; cbn [app]; rewrite ?lsum_cons, ?lsum_nil; [ring|rewrite IHl; ring]. Qed.
Lemma lsum_ext {A} (f g : A -> K) l : (forall x, In x l -> f x = g x) -> lsum f l = lsum g l.
Proof.
  induction l; intros H; auto. rewrite !lsum_cons, IHl by (intros; apply H; now right).
  now rewrite (H a) by now left.
Qed.
Lemma lsum_add {A} (f g : A -> K) l : lsum (fun x => f x + g x) l = lsum f l + lsum g l.
Proof. induction l; rewrite ?lsum_cons, ?lsum_nil; [ring|rewrite IHl; ring]. Qed.
Lemma lsum_mul_l {A} (f : A -> K) c l : lsum (fun x => c * f x) l = c * lsum f l.
Proof. induction l; rewrite ?lsum_cons, ?lsum_nil; [ring|rewrite IHl; ring]. Qed.
Lemma lsum_mul_r {A} (f : A -> K) c l : lsum (fun x => f x * c) l = lsum f l * c.
Proof. induction l; rewrite ?lsum_cons, ?lsum_nil; [ring|rewrite IHl; ring]. Qed.
Lemma lsum_zero {A} (f : A -> K) l : (forall x, In x l -> f x = c0) -> lsum f l = c0.
Proof.
  induction l; intros H; auto. rewrite lsum_cons, IHl by (intros; apply H; now right).
  rewrite (H a) by now left. ring.
Qed.
Lemma lsum_swap {A B} (f : A -> B -> K) l m :
  lsum (fun x => lsum (fun y => f x y) m) l = lsum (fun y => lsum (fun x => f x y) l) m.
Proof.
  induction l.
  - rewrite lsum_nil. symmetry. apply lsum_zero. auto.
  - rewrite lsum_cons, IHl, <- lsum_add. apply lsum_ext. intros. now rewrite lsum_cons.
Qed.
Lemma lsum_perm {A} (f : A -> K) l m : Permutation l m -> lsum f l = lsum f m.
Proof. induction 1; rewrite ?lsum_cons; try congruence. ring. Qed.
Lemma lsum_map {A B} (f : B -> K) (g : A -> B) l : lsum f (map g l) = lsum (fun x => f (g x)) l.
Proof. induction l; auto. cbn [map]. now rewrite !lsum_cons, IHl. Qed.
Lemma lsum_concat {A} (f : A -> K) ls : lsum f (concat ls) = lsum (lsum f) ls.
Proof. induction ls; auto. cbn [concat]. now rewrite lsum_app, lsum_cons, IHls. Qed.
(** One term changes by [d]. *)
Lemma lsum_upd {A} (f g : A -> K) l x d : NoDup l -> In x l -> g x = f x + d ->
  (forall y, In y l -> y <> x -> g y = f y) -> lsum g l = lsum f l + d.
Proof.
  induction l as [|a l IH]; intros Hn Hi Hx Hy; [contradiction|]. rewrite !lsum_cons.
  inversion Hn; subst. destruct Hi as [->|Hi].
  - rewrite Hx. rewrite (lsum_ext g f l); [ring|]. intros y Iy. apply Hy; [now right|]. intros ->. auto.
  - rewrite IH; auto.
    + rewrite (Hy a); [ring|now left|]. intros ->; auto.
    + intros; apply Hy; auto. now right.
Qed.

Lemma rsum_empty lo hi (f : Z -> K) : hi <= lo -> rsum lo hi f = c0.
Proof. intros. unfold rsum. now rewrite zrange_empty. Qed.
Lemma rsum_split lo mid hi (f : Z -> K) : lo <= mid <= hi -> rsum lo hi f = rsum lo mid f + rsum mid hi f.
Proof. intros. unfold rsum. rewrite <- lsum_app. f_equal. now apply zrange_app. Qed.
Lemma rsum_snoc lo hi (f : Z -> K) : lo <= hi -> rsum lo (hi + 1)%Z f = rsum lo hi f + f hi.
Proof. intros. unfold rsum. rewrite zrange_snoc by lia. rewrite lsum_app, lsum_cons, lsum_nil. ring. Qed.
Lemma rsum_one lo (f : Z -> K) : rsum lo (lo + 1)%Z f = f lo.
Proof. rewrite rsum_snoc by lia. rewrite rsum_empty by lia. ring. Qed.
Lemma rsum_ext lo hi (f g : Z -> K) : (forall i, lo <= i < hi -> f i = g i) -> rsum lo hi f = rsum lo hi g.
Proof. intros H. apply lsum_ext. intros x Hx. apply In_zrange in Hx. auto. Qed.
Lemma rsum_add lo hi (f g : Z -> K) : rsum lo hi (fun i => f i + g i) = rsum lo hi f + rsum lo hi g.
Proof. apply lsum_add. Qed.
Lemma rsum_mul_l lo hi c (f : Z -> K) : rsum lo hi (fun i => c * f i) = c * rsum lo hi f.
Proof. apply lsum_mul_l. Qed.
Lemma rsum_mul_r lo hi c (f : Z -> K) : rsum lo hi (fun i => f i * c) = rsum lo hi f * c.
Proof. apply lsum_mul_r. Qed.
Lemma rsum_zero lo hi (f : Z -> K) : (forall i, lo <= i < hi -> f i = c0) -> rsum lo hi f = c0.
Proof. intros H. apply lsum_zero. intros x Hx. apply In_zrange in Hx. auto. Qed.
Lemma rsum_swap lo hi lo' hi' (f : Z -> Z -> K) :
  rsum lo hi (fun i => rsum lo' hi' (fun j => f i j)) = rsum lo' hi' (fun j => rsum lo hi (fun i => f i j)).
Proof. apply lsum_swap. Qed.
Lemma rsum_shift lo hi d (f : Z -> K) : rsum (lo + d)%Z (hi + d)%Z f = rsum lo hi (fun i => f (i + d)%Z).
Proof.
  unfold rsum. rewrite <- (lsum_map f (fun i => (i + d)%Z)). f_equal. unfold zrange. rewrite map_map.
  replace (hi + d - (lo + d))%Z with (hi - lo)%Z by lia. apply map_ext. intros; lia.
Qed.
Lemma rsum_upd lo hi (f g : Z -> K) k d : lo <= k < hi -> g k = f k + d ->
  (forall i, lo <= i < hi -> i <> k -> g i = f i) -> rsum lo hi g = rsum lo hi f + d.
Proof.
  intros Hk H1 H2. apply lsum_upd with (x := k); auto.
  - apply NoDup_zrange.
  - now apply In_zrange.
  - intros y Hy. apply In_zrange in Hy. auto.
Qed.
Lemma rsum_only lo hi (f : Z -> K) k : lo <= k < hi ->
  (forall i, lo <= i < hi -> i <> k -> f i = c0) -> rsum lo hi f = f k.
Proof.
  intros Hk H. rewrite (rsum_upd lo hi (fun _ => c0) f k (f k)); auto.
  - rewrite rsum_zero by auto. ring.
  - ring.
Qed.
Lemma rsum_delta lo hi k (f : Z -> K) : rsum lo hi (fun i => if i =? k then f i else c0)
  = if (lo <=? k) && (k <? hi) then f k else c0.
Proof.
  destruct (Z.leb_spec lo k); destruct (Z.ltb_spec k hi); cbn [andb].
  2-4: apply rsum_zero; intros i Hi; destruct (Z.eqb_spec i k); auto; lia.
  rewrite (rsum_only lo hi _ k).
  - now rewrite Z.eqb_refl.
  - lia.
  - intros i Hi Hn. destruct (Z.eqb_spec i k); auto; lia.
Qed.
(** A loop that adds. *)
Lemma zfor_sum {St} (I : Z -> St -> Prop) (T : St -> K) lo hi (body : Z -> St -> option St) (f : Z -> K) s :
  lo <= hi -> I lo s ->
  (forall i s, lo <= i < hi -> I i s -> exists s', body i s = Some s' /\ I (i + 1)%Z s' /\ T s' = T s + f i) ->
  exists s', zfor lo hi body s = Some s' /\ I hi s' /\ T s' = T s + rsum lo hi f.
Proof.
  intros Hl H0 Hs.
  destruct (zfor_inv (fun i s' => I i s' /\ T s' = T s + rsum lo i f) lo hi body s) as (s' & E & I' & T'); auto.
  - split; auto. rewrite rsum_empty by lia. ring.
  - intros i s' Hi [A B]. destruct (Hs i s' Hi A) as (s'' & E & A' & B'). exists s''. split; auto. split; auto.
    rewrite B', B, rsum_snoc by lia. ring.
  - eauto.
Qed.
End Sums.
