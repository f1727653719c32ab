(** The quadratic form of the system, through the tree and through one node of a
    ULV factorisation. *)
From Coq Require Import ZArith List Lia Bool Permutation.
From Verif Require Import Base Mem Num CRing Conc Model_Matvec Spec_Matvec Proof_MvTree Proof_MvFwd Proof_MvCor Proof_MvRace Proof_BuildUse Spec_Lapack Spec_ULV Proof_ULVMath Proof_ULVTree.
Import ListNotations.
Open Scope Z_scope.

Section En.
Context {F : num} {K : cring}.
Add Ring Kring : (cth K).
Local Open Scope ring_K.

(** ** One node *)
Definition qf (n : Z) (A : Z -> Z -> K) (y : Z -> K) : K := rsum 0 n (fun i => rsum 0 n (fun j => y i * A i j * y j)).

Lemma rsum_sep m n (a b : Z -> K) : rsum 0 m (fun i => rsum 0 n (fun j => a i * b j)) = rsum 0 m a * rsum 0 n b.
Proof. rewrite <- rsum_mul_r. apply rsum_ext. intros i Hi. apply rsum_mul_l. Qed.

Section Node.
Variable f : @nfac K.
Hypothesis Hf : fac_ok f.
Notation n := (f_n f).
Notation r := (f_r f).
Notation m := (f_n f - f_r f)%Z.
Variable z : Z -> K.
Let y := qt_vec f z.
Definition gg (l : Z) : K := rsum 0 r (fun j => f_C21 f l j * qt_vec f z j) + rsum 0 m (fun j => f_T2 f l j * qt_vec f z (r + j)%Z).
Definition hh (l : Z) : K := rsum 0 r (fun i => qt_vec f z i * f_C12 f i l) + rsum 0 m (fun i => qt_vec f z (r + f_pm f i)%Z * f_T1 f i l).

Lemma z_Qy a : 0 <= a < n -> z a = rsum 0 n (fun i => f_Q f a i * y i).
Proof.
  intros Ha. unfold y, qt_vec. rewrite (rsum_assoc n n (fun i => f_Q f a i) (fun i b => f_Q f b i) z).
  destruct (fo_Q f Hf) as [_ HQ]. rewrite (rsum_ext 0 n _ (fun b => delta a b * z b)) by (intros; now rewrite HQ by auto). now rewrite rsum_delta_l.
Qed.

Lemma qf_Q : qf n (f_Dh f) z = qf n (f_Dq f) y.
Proof.
  unfold qf.
  rewrite (rsum_ext 0 n _ (fun a => rsum 0 n (fun b => rsum 0 n (fun i => rsum 0 n (fun j => y i * (f_Q f a i * f_Dh f a b * f_Q f b j) * y j))))).
  2:{ intros a Ha. apply rsum_ext. intros b Hb. rewrite (z_Qy a Ha) at 1. rewrite (z_Qy b Hb) at 1.
      transitivity (f_Dh f a b * (rsum 0 n (fun i => f_Q f a i * y i) * rsum 0 n (fun j => f_Q f b j * y j))); [ring|].
      rewrite <- rsum_sep, <- rsum_mul_l. apply rsum_ext. intros i Hi. rewrite <- rsum_mul_l. apply rsum_ext. intros j Hj. ring. }
  (* move i, j outside *)
  rewrite (rsum_ext 0 n _ (fun a => rsum 0 n (fun i => rsum 0 n (fun b => rsum 0 n (fun j => y i * (f_Q f a i * f_Dh f a b * f_Q f b j) * y j))))).
  2:{ intros a Ha. apply rsum_swap. }
  rewrite rsum_swap. apply rsum_ext. intros i Hi.
  rewrite (rsum_ext 0 n _ (fun a => rsum 0 n (fun j => rsum 0 n (fun b => y i * (f_Q f a i * f_Dh f a b * f_Q f b j) * y j)))).
  2:{ intros a Ha. apply rsum_swap. }
  rewrite rsum_swap. apply rsum_ext. intros j Hj. unfold f_Dq.
  rewrite <- rsum_mul_l, <- rsum_mul_r. apply rsum_ext. intros a Ha. rewrite <- rsum_mul_l, <- rsum_mul_r. reflexivity.
Qed.

(** A sum over the eliminated rows, in the order of the pivots. *)
Lemma rsum_pm (g : Z -> K) : rsum 0 m g = rsum 0 m (fun i => g (f_pm f i)).
Proof.
  pose proof (fo_r f Hf).
  assert (Nd : NoDup (map (f_pm f) (zrange 0 m))).
  { eapply NoDup_incl_NoDup; [apply (NoDup_zrange 0 m)| |].
    - rewrite map_length. lia.
    - intros i Hi. apply In_zrange in Hi. destruct (fo_pm_onto f Hf i Hi) as (i' & Hi' & <-). apply in_map. now apply In_zrange. }
  unfold rsum. rewrite <- (lsum_map g (f_pm f)). apply lsum_perm. apply NoDup_Permutation; auto; [apply NoDup_zrange|]. intros i. rewrite In_zrange, in_map_iff. split.
  - intros Hi. destruct (fo_pm_onto f Hf i Hi) as (i' & Hi' & <-). exists i'. split; auto. now apply In_zrange.
  - intros (i' & <- & Hi'). apply In_zrange in Hi'. now apply (fo_pm f Hf).
Qed.

Lemma qf_node : qf n (f_Dh f) z = qf r (f_D f) y + rsum 0 m (fun l => hh l * gg l).
Proof.
  rewrite qf_Q. pose proof (fo_r f Hf) as Hr.
  (* rows *)
  pose (row := fun i => rsum 0 r (fun j => f_Dq f i j * y j) + rsum 0 m (fun j => f_Dq f i (r + j)%Z * y (r + j)%Z)).
  assert (E0 : qf n (f_Dq f) y = rsum 0 n (fun i => y i * row i)).
  { unfold qf. apply rsum_ext. intros i Hi. rewrite (rsum_ext 0 n _ (fun j => y i * (f_Dq f i j * y j))) by (intros; ring). rewrite rsum_mul_l. f_equal. unfold row. now rewrite (rsum_split0 r n). }
  rewrite E0, (rsum_split0 r n) by lia.
  assert (E1 : forall i, 0 <= i < r -> row i = rsum 0 r (fun j => f_D f i j * y j) + rsum 0 m (fun l => f_C12 f i l * gg l)).
  { intros i Hi. unfold row.
    rewrite (rsum_ext 0 r _ (fun j => f_D f i j * y j + rsum 0 m (fun l => f_C12 f i l * f_C21 f l j) * y j)) by (intros j Hj; rewrite (fo_11 f Hf) by lia; ring).
    rewrite (rsum_ext 0 m (fun j => f_Dq f i (r + j) * y (r + j)%Z) (fun j => rsum 0 m (fun l => f_C12 f i l * f_T2 f l j) * y (r + j)%Z)) by (intros; now rewrite (fo_12 f Hf) by lia).
    rewrite rsum_add, <- (rsum_assoc m r). rewrite <- (rsum_assoc m m (fun l => f_C12 f i l) (f_T2 f) (fun j => y (r + j)%Z)).
    rewrite (rsum_ext 0 m (fun l => f_C12 f i l * gg l) (fun l => f_C12 f i l * rsum 0 r (fun j => f_C21 f l j * y j) + f_C12 f i l * rsum 0 m (fun j => f_T2 f l j * y (r + j)%Z))) by (intros; unfold gg, y; ring).
    rewrite rsum_add. ring. }
  assert (E2 : forall i, 0 <= i < m -> row (r + f_pm f i)%Z = rsum 0 m (fun l => f_T1 f i l * gg l)).
  { intros i Hi. unfold row.
    rewrite (rsum_ext 0 r _ (fun j => rsum 0 m (fun l => f_T1 f i l * f_C21 f l j) * y j)) by (intros; now rewrite (fo_21 f Hf) by lia).
    rewrite (rsum_ext 0 m (fun j => f_Dq f (r + f_pm f i) (r + j) * y (r + j)%Z) (fun j => rsum 0 m (fun l => f_T1 f i l * f_T2 f l j) * y (r + j)%Z)) by (intros; now rewrite (fo_22 f Hf) by lia).
    rewrite <- (rsum_assoc m r). rewrite <- (rsum_assoc m m (fun l => f_T1 f i l) (f_T2 f) (fun j => y (r + j)%Z)). rewrite <- rsum_add. apply rsum_ext. intros l Hl. unfold gg, y. ring. }
  rewrite (rsum_ext 0 r _ (fun i => rsum 0 r (fun j => y i * f_D f i j * y j) + rsum 0 m (fun l => y i * f_C12 f i l * gg l))).
  2:{ intros i Hi. rewrite E1 by auto. transitivity (y i * rsum 0 r (fun j => f_D f i j * y j) + y i * rsum 0 m (fun l => f_C12 f i l * gg l)); [ring|].
      f_equal; rewrite <- rsum_mul_l; apply rsum_ext; intros; ring. }
  rewrite (rsum_pm (fun i => y (r + i)%Z * row (r + i)%Z)).
  rewrite (rsum_ext 0 m (fun i => y (r + f_pm f i)%Z * row (r + f_pm f i)%Z) (fun i => rsum 0 m (fun l => y (r + f_pm f i)%Z * f_T1 f i l * gg l))).
  2:{ intros i Hi. rewrite E2 by auto. rewrite <- rsum_mul_l. apply rsum_ext. intros; ring. }
  rewrite rsum_add, (rsum_swap 0 r 0 m), (rsum_swap 0 m 0 m).
  rewrite (rsum_ext 0 m (fun l => hh l * gg l) (fun l => rsum 0 r (fun i => y i * f_C12 f i l * gg l) + rsum 0 m (fun i => y (r + f_pm f i)%Z * f_T1 f i l * gg l))).
  2:{ intros l Hl. unfold hh, y. transitivity (rsum 0 r (fun i => qt_vec f z i * f_C12 f i l) * gg l + rsum 0 m (fun i => qt_vec f z (r + f_pm f i)%Z * f_T1 f i l) * gg l); [ring|].
      rewrite <- !rsum_mul_r. reflexivity. }
  rewrite rsum_add. unfold qf. ring.
Qed.

Lemma Uh_R a : 0 <= a < r -> rsum 0 n (fun i => f_Uh f i a * z i) = rsum 0 r (fun i => f_R f i a * y i).
Proof.
  intros Ha. pose proof (fo_r f Hf) as Hr.
  rewrite (rsum_ext 0 n _ (fun i => f_Uh f i a * rsum 0 n (fun j => f_Q f i j * y j))) by (intros i Hi; now rewrite (z_Qy i Hi) at 1).
  rewrite rsum_assoc, (rsum_split0 r n) by lia. rewrite (rsum_zero 0 (n - r)).
  2:{ intros l Hl. rewrite (rsum_ext 0 n _ (fun i => f_Q f i (r + l)%Z * f_Uh f i a)) by (intros; ring). rewrite (fo_U f Hf) by lia. destruct (Z.ltb_spec (r + l) r); [lia|ring]. }
  rewrite (rsum_ext 0 r _ (fun i => f_R f i a * y i)); [ring|]. intros l Hl.
  rewrite (rsum_ext 0 n _ (fun i => f_Q f i l * f_Uh f i a)) by (intros; ring). rewrite (fo_U f Hf) by lia. destruct (Z.ltb_spec l r); [ring|lia].
Qed.
End Node.

(** The vector with given components in the basis of Q. *)
Lemma qt_of_Q n (Q : Z -> Z -> K) (y : Z -> K) i : orthogonal n Q -> 0 <= i < n -> rsum 0 n (fun a => Q a i * rsum 0 n (fun j => Q a j * y j)) = y i.
Proof.
  intros [HQ _] Hi. rewrite rsum_assoc. rewrite (rsum_ext 0 n _ (fun j => delta i j * y j)) by (intros; now rewrite HQ by auto). now rewrite rsum_delta_l.
Qed.

(** The form of Q y through Q^T A Q. *)
Lemma qf_conj n (Q A : Z -> Z -> K) (y : Z -> K) :
  qf n A (fun a => rsum 0 n (fun j => Q a j * y j)) = qf n (fun i j => rsum 0 n (fun a => rsum 0 n (fun b => Q a i * A a b * Q b j))) y.
Proof.
  unfold qf.
  rewrite (rsum_ext 0 n _ (fun a => rsum 0 n (fun b => rsum 0 n (fun i => rsum 0 n (fun j => y i * (Q a i * A a b * Q b j) * y j))))).
  2:{ intros a Ha. apply rsum_ext. intros b Hb.
      transitivity (A a b * (rsum 0 n (fun i => Q a i * y i) * rsum 0 n (fun j => Q b j * y j))); [ring|].
      rewrite <- rsum_sep, <- rsum_mul_l. apply rsum_ext. intros i Hi. rewrite <- rsum_mul_l. apply rsum_ext. intros j Hj. ring. }
  rewrite (rsum_ext 0 n _ (fun a => rsum 0 n (fun i => rsum 0 n (fun b => rsum 0 n (fun j => y i * (Q a i * A a b * Q b j) * y j))))) by (intros; apply rsum_swap).
  rewrite rsum_swap. apply rsum_ext. intros i Hi.
  rewrite (rsum_ext 0 n _ (fun a => rsum 0 n (fun j => rsum 0 n (fun b => y i * (Q a i * A a b * Q b j) * y j)))) by (intros; apply rsum_swap).
  rewrite rsum_swap. apply rsum_ext. intros j Hj.
  rewrite <- rsum_mul_l, <- rsum_mul_r. apply rsum_ext. intros a Ha. rewrite <- rsum_mul_l, <- rsum_mul_r. reflexivity.
Qed.
(** Only the trailing part. *)
Lemma qf_tail n r (A : Z -> Z -> K) (y : Z -> K) : 0 <= r <= n -> (forall i, 0 <= i < r -> y i = c0) -> qf n A y = qf (n - r) (fun i j => A (r + i) (r + j))%Z (fun i => y (r + i)%Z).
Proof.
  intros Hr Hy. unfold qf. rewrite (rsum_split0 r n) by lia. rewrite (rsum_zero 0 r).
  2:{ intros i Hi. apply rsum_zero. intros j Hj. rewrite Hy by auto. ring. }
  rewrite (rsum_ext 0 (n - r) _ (fun i => rsum 0 (n - r) (fun j => y (r + i)%Z * A (r + i)%Z (r + j)%Z * y (r + j)%Z))); [ring|].
  intros i Hi. rewrite (rsum_split0 r n) by lia. rewrite (rsum_zero 0 r); [ring|]. intros j Hj. rewrite (Hy j) by auto. ring.
Qed.
Lemma qf_ext n (A B : Z -> Z -> K) (x y : Z -> K) : (forall i j, 0 <= i < n -> 0 <= j < n -> A i j = B i j) -> (forall i, 0 <= i < n -> x i = y i) -> qf n A x = qf n B y.
Proof. intros H1 H2. apply rsum_ext. intros i Hi. apply rsum_ext. intros j Hj. now rewrite H1, !H2. Qed.
End En.
