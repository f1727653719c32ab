(** The algebra of one node of a ULV factorisation: the assembled diagonal block
    Dh and basis Uh, the orthogonal factor Q, the factors of the eliminated part
    and what is passed to the parent (R, D). *)
From Coq Require Import ZArith List Lia Bool.
From Verif Require Import Base Mem Num CRing Spec_Lapack.
Import ListNotations.
Open Scope Z_scope.

Section Math.
Context {K : cring}.
Add Ring Kring : (cth K).
Local Open Scope ring_K.
Notation matrix := (Z -> Z -> K).
Notation vector := (Z -> K).

Lemma rsum_sub lo hi (f g : Z -> K) : rsum lo hi (fun i => f i - g i) = rsum lo hi f - rsum lo hi g.
Proof.
  rewrite (rsum_ext lo hi _ (fun i => f i + (c0 - c1) * g i)) by (intros; ring). rewrite rsum_add, rsum_mul_l. ring.
Qed.
(** A (B x) = (A B) x. *)
Lemma rsum_assoc m n (a : Z -> K) (B : matrix) (x : vector) :
  rsum 0 m (fun l => a l * rsum 0 n (fun j => B l j * x j)) = rsum 0 n (fun j => rsum 0 m (fun l => a l * B l j) * x j).
Proof.
  rewrite (rsum_ext 0 m _ (fun l => rsum 0 n (fun j => a l * (B l j * x j)))) by (intros; now rewrite rsum_mul_l).
  rewrite rsum_swap. apply rsum_ext. intros j Hj. rewrite <- rsum_mul_r. apply rsum_ext. intros; ring.
Qed.
Lemma rsum_split0 r n (f : Z -> K) : 0 <= r <= n -> rsum 0 n f = rsum 0 r f + rsum 0 (n - r) (fun i => f (r + i)%Z).
Proof.
  intros H. rewrite (rsum_split 0 r n) by lia. f_equal. replace r with (0 + r)%Z at 1 by lia. replace n with ((n - r) + r)%Z at 1 by lia.
  rewrite rsum_shift. apply rsum_ext. intros; f_equal; lia.
Qed.
Lemma rsum_delta_l n i (f : Z -> K) : 0 <= i < n -> rsum 0 n (fun l => delta i l * f l) = f i.
Proof.
  intros H. rewrite (rsum_only 0 n _ i); auto; unfold delta.
  - rewrite Z.eqb_refl. ring.
  - intros l _ Hl. destruct (Z.eqb_spec i l); [congruence|ring].
Qed.

Record nfac := NF {
  f_n : Z; f_r : Z; f_Dh : matrix; f_Uh : matrix; f_Q : matrix;
  f_T1 : matrix; f_T2 : matrix; f_C12 : matrix; f_C21 : matrix; f_pm : Z -> Z;
  f_R : matrix; f_D : matrix }.

(** Q^T Dh Q. *)
Definition f_Dq (f : nfac) (i j : Z) : K := rsum 0 (f_n f) (fun a => rsum 0 (f_n f) (fun b => f_Q f a i * f_Dh f a b * f_Q f b j)).

Record fac_ok (f : nfac) : Prop := {
  fo_r : 0 <= f_r f <= f_n f;
  fo_Q : orthogonal (f_n f) (f_Q f);
  fo_U : forall i c, 0 <= i < f_n f -> 0 <= c < f_r f -> rsum 0 (f_n f) (fun a => f_Q f a i * f_Uh f a c) = if (i <? f_r f)%Z then f_R f i c else c0;
  fo_pm : forall i, 0 <= i < f_n f - f_r f -> 0 <= f_pm f i < f_n f - f_r f;
  fo_pm_onto : forall i, 0 <= i < f_n f - f_r f -> exists i', 0 <= i' < f_n f - f_r f /\ f_pm f i' = i;
  fo_22 : forall i j, 0 <= i < f_n f - f_r f -> 0 <= j < f_n f - f_r f ->
    rsum 0 (f_n f - f_r f) (fun l => f_T1 f i l * f_T2 f l j) = f_Dq f (f_r f + f_pm f i) (f_r f + j);
  fo_21 : forall i j, 0 <= i < f_n f - f_r f -> 0 <= j < f_r f ->
    rsum 0 (f_n f - f_r f) (fun l => f_T1 f i l * f_C21 f l j) = f_Dq f (f_r f + f_pm f i) j;
  fo_12 : forall i j, 0 <= i < f_r f -> 0 <= j < f_n f - f_r f ->
    rsum 0 (f_n f - f_r f) (fun l => f_C12 f i l * f_T2 f l j) = f_Dq f i (f_r f + j);
  fo_11 : forall i j, 0 <= i < f_r f -> 0 <= j < f_r f ->
    f_D f i j = f_Dq f i j - rsum 0 (f_n f - f_r f) (fun l => f_C12 f i l * f_C21 f l j) }.

(** The two steps of a solve at a node. *)
Definition qt_vec (f : nfac) (x : vector) (i : Z) : K := rsum 0 (f_n f) (fun a => f_Q f a i * x a).
Definition up_rel (f : nfac) (inn out : vector) : Prop :=
  (forall i, 0 <= i < f_n f - f_r f -> rsum 0 (f_n f - f_r f) (fun l => f_T1 f i l * out (f_r f + l)%Z) = qt_vec f inn (f_r f + f_pm f i)) /\
  (forall i, 0 <= i < f_r f -> out i = qt_vec f inn i - rsum 0 (f_n f - f_r f) (fun l => f_C12 f i l * out (f_r f + l)%Z)).
Definition down_rel (f : nfac) (w z : vector) : Prop := exists x2 : vector,
  (forall i, 0 <= i < f_n f - f_r f -> rsum 0 (f_n f - f_r f) (fun l => f_T2 f i l * x2 l) = w (f_r f + i)%Z - rsum 0 (f_r f) (fun l => f_C21 f i l * w l)) /\
  forall i, 0 <= i < f_n f -> z i = rsum 0 (f_r f) (fun l => f_Q f i l * w l) + rsum 0 (f_n f - f_r f) (fun l => f_Q f i (f_r f + l)%Z * x2 l).

Section Node.
Variable f : nfac.
Hypothesis Hf : fac_ok f.
Variables inn out w z e : vector.
Hypothesis Hup : up_rel f inn out.
Hypothesis Hdown : down_rel f w z.
Notation n := (f_n f).
Notation r := (f_r f).
Hypothesis Hw : forall i, r <= i < n -> w i = out i.

Lemma down_Uh : forall c, 0 <= c < r -> rsum 0 n (fun a => f_Uh f a c * z a) = rsum 0 r (fun i => f_R f i c * w i).
Proof.
  intros c Hc. destruct Hdown as (x2 & _ & Hz). pose proof (fo_r f Hf) as Hr.
  rewrite (rsum_ext 0 n _ (fun a => f_Uh f a c * rsum 0 r (fun l => f_Q f a l * w l) + f_Uh f a c * rsum 0 (n - r) (fun l => f_Q f a (r + l)%Z * x2 l)))
    by (intros a Ha; rewrite Hz by auto; ring).
  rewrite rsum_add, !rsum_assoc.
  rewrite (rsum_zero 0 (n - r)).
  2:{ intros l Hl. rewrite (rsum_ext 0 n _ (fun a => f_Q f a (r + l)%Z * f_Uh f a c)) by (intros; ring). rewrite (fo_U f Hf) by lia.
      destruct (Z.ltb_spec (r + l) r); [lia|ring]. }
  rewrite (rsum_ext 0 r _ (fun i => f_R f i c * w i)); [ring|]. intros l Hl.
  rewrite (rsum_ext 0 n _ (fun a => f_Q f a l * f_Uh f a c)) by (intros; ring). rewrite (fo_U f Hf) by lia.
  destruct (Z.ltb_spec l r); [ring|lia].
Qed.

Hypothesis Hpar : forall i, 0 <= i < r -> rsum 0 r (fun j => f_D f i j * w j) + rsum 0 r (fun c => f_R f i c * e c) = out i.

Lemma node_solved : forall i, 0 <= i < n -> rsum 0 n (fun j => f_Dh f i j * z j) + rsum 0 r (fun c => f_Uh f i c * e c) = inn i.
Proof.
  destruct Hdown as (x2 & H2 & Hz). destruct Hup as (U2 & U1). pose proof (fo_r f Hf) as Hr. destruct (fo_Q f Hf) as [_ HQ].
  (* Q^T Dh z = Q^T in - Q^T Uh e *)
  assert (P : forall i, 0 <= i < n -> rsum 0 r (fun j => f_Dq f i j * w j) + rsum 0 (n - r) (fun j => f_Dq f i (r + j) * x2 j)
     = qt_vec f inn i - (if (i <? r)%Z then rsum 0 r (fun c => f_R f i c * e c) else c0)).
  { intros i Hi. destruct (Z.ltb_spec i r) as [Hlt|Hge].
    - rewrite (rsum_ext 0 (n - r) _ (fun j => rsum 0 (n - r) (fun l => f_C12 f i l * f_T2 f l j) * x2 j)) by (intros; now rewrite (fo_12 f Hf) by lia).
      rewrite <- rsum_assoc. rewrite (rsum_ext 0 (n - r) _ (fun l => f_C12 f i l * out (r + l)%Z - f_C12 f i l * rsum 0 r (fun j => f_C21 f l j * w j))).
      2:{ intros l Hl. rewrite H2, Hw by lia. ring. }
      rewrite rsum_sub, rsum_assoc.
      rewrite (rsum_ext 0 r (fun j => f_Dq f i j * w j) (fun j => f_D f i j * w j + rsum 0 (n - r) (fun l => f_C12 f i l * f_C21 f l j) * w j)).
      2:{ intros j Hj. rewrite (fo_11 f Hf) by lia. ring. }
      rewrite rsum_add. pose proof (Hpar i ltac:(lia)) as E. rewrite U1 in E by lia.
      replace (rsum 0 r (fun j => f_D f i j * w j)) with (qt_vec f inn i - rsum 0 (n - r) (fun l => f_C12 f i l * out (r + l)%Z) - rsum 0 r (fun c => f_R f i c * e c))
        by (rewrite <- E; ring). ring.
    - destruct (fo_pm_onto f Hf (i - r)) as (i' & Hi' & Ei); [lia|]. replace i with (r + f_pm f i')%Z by lia.
      rewrite <- (U2 i') by lia.
      rewrite (rsum_ext 0 r _ (fun j => rsum 0 (n - r) (fun l => f_T1 f i' l * f_C21 f l j) * w j)) by (intros; now rewrite (fo_21 f Hf) by lia).
      rewrite (rsum_ext 0 (n - r) (fun j => f_Dq f _ _ * x2 j) (fun j => rsum 0 (n - r) (fun l => f_T1 f i' l * f_T2 f l j) * x2 j)) by (intros; now rewrite (fo_22 f Hf) by lia).
      rewrite <- !rsum_assoc, <- rsum_add.
      transitivity (rsum 0 (n - r) (fun l => f_T1 f i' l * out (r + l)%Z)); [|ring].
      apply rsum_ext. intros l Hl. rewrite H2, Hw by lia. ring. }
  (* in terms of z *)
  pose (g := fun a => inn a - rsum 0 n (fun b => f_Dh f a b * z b) - rsum 0 r (fun c => f_Uh f a c * e c)).
  assert (G : forall i, 0 <= i < n -> rsum 0 n (fun a => f_Q f a i * g a) = c0).
  { intros i Hi. unfold g.
    rewrite (rsum_ext 0 n _ (fun a => f_Q f a i * inn a - f_Q f a i * rsum 0 n (fun b => f_Dh f a b * z b) - f_Q f a i * rsum 0 r (fun c => f_Uh f a c * e c))) by (intros; ring).
    rewrite !rsum_sub. fold (qt_vec f inn i). rewrite (rsum_assoc n r).
    rewrite (rsum_ext 0 r _ (fun c => (if (i <? r)%Z then f_R f i c else c0) * e c)) by (intros c Hc; now rewrite (fo_U f Hf) by lia).
    assert (E1 : rsum 0 r (fun c => (if (i <? r)%Z then f_R f i c else c0) * e c) = if (i <? r)%Z then rsum 0 r (fun c => f_R f i c * e c) else c0).
    { destruct (i <? r)%Z; [reflexivity|]. apply rsum_zero. intros; ring. }
    rewrite E1.
    assert (E2 : rsum 0 n (fun a => f_Q f a i * rsum 0 n (fun b => f_Dh f a b * z b))
       = rsum 0 r (fun j => f_Dq f i j * w j) + rsum 0 (n - r) (fun j => f_Dq f i (r + j) * x2 j)).
    { rewrite rsum_assoc.
      rewrite (rsum_ext 0 n _ (fun b => rsum 0 n (fun a => f_Q f a i * f_Dh f a b) * rsum 0 r (fun l => f_Q f b l * w l)
         + rsum 0 n (fun a => f_Q f a i * f_Dh f a b) * rsum 0 (n - r) (fun l => f_Q f b (r + l)%Z * x2 l))) by (intros b Hb; rewrite Hz by auto; ring).
      rewrite rsum_add, (rsum_assoc n r), (rsum_assoc n (n - r) _ (fun b l => f_Q f b (r + l)%Z)).
      f_equal; apply rsum_ext; intros l Hl; f_equal; unfold f_Dq; rewrite rsum_swap; apply rsum_ext; intros b Hb; now rewrite <- rsum_mul_r. }
    rewrite E2, P by auto. ring. }
  intros i Hi.
  assert (Gi : g i = c0).
  { rewrite <- (rsum_delta_l n i g Hi). rewrite (rsum_ext 0 n _ (fun l => rsum 0 n (fun j => f_Q f i j * f_Q f l j) * g l)) by (intros; now rewrite HQ by auto).
    rewrite <- (rsum_assoc n n (fun j => f_Q f i j) (fun j l => f_Q f l j) g). apply rsum_zero. intros j Hj. rewrite G by auto. ring. }
  unfold g in Gi. replace (inn i) with (rsum 0 n (fun j => f_Dh f i j * z j) + rsum 0 r (fun c => f_Uh f i c * e c) + c0) by (rewrite <- Gi; ring). ring.
Qed.
End Node.
End Math.
