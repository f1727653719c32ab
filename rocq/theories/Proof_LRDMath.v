(** The algebra of the low-rank plus diagonal preconditioner: with T = W W^T + s I =
    L L^T and L U = W, the inverse of W^T W + s I is (I - U^T U) / s. *)
From Coq Require Import ZArith Reals List Lia Lra Bool.
From Verif Require Import Base Mem Num CRing FNum Proof_ULVMath Spec_Lapack Proof_Lapack Spec_SPD Proof_AFNMath Proof_NysMath.
Open Scope R_scope.

Definition mm (n : Z) (A B : Z -> Z -> R) (i j : Z) : R := S 0 n (fun l => A i l * B l j).
Definition tr (A : Z -> Z -> R) (i j : Z) : R := A j i.
Lemma mm_assoc n m A B C i j : mm n A (mm m B C) i j = mm m (mm n A B) C i j.
Proof. exact (S_assoc n m (fun l => A i l) B (fun l => C l j)). Qed.
Lemma mm_l n A A' B i j : (forall l, (0 <= l < n)%Z -> A i l = A' i l) -> mm n A B i j = mm n A' B i j.
Proof. intros H. apply S_ext. intros l Hl. now rewrite H. Qed.
Lemma mm_r n A B B' i j : (forall l, (0 <= l < n)%Z -> B l j = B' l j) -> mm n A B i j = mm n A B' i j.
Proof. intros H. apply S_ext. intros l Hl. now rewrite H. Qed.
Lemma mm_tr n A B i j : mm n A B i j = mm n (tr B) (tr A) j i.
Proof. apply S_ext. intros l Hl. unfold tr. ring. Qed.
Lemma mm_dl_r n A i j : (0 <= j < n)%Z -> mm n A dl i j = A i j.
Proof. intros H. exact (S_dl_r n j (fun l => A i l) H). Qed.
Lemma mm_dl_l n A i j : (0 <= i < n)%Z -> mm n dl A i j = A i j.
Proof. intros H. exact (S_dl_l n i (fun l => A l j) H). Qed.
Lemma mm_sub_r n A B C i j : mm n A (fun a b => B a b - C a b) i j = mm n A B i j - mm n A C i j.
Proof. unfold mm. rewrite <- S_sub. apply S_ext. intros; ring. Qed.
Lemma mm_sub_l n A B C i j : mm n (fun a b => A a b - B a b) C i j = mm n A C i j - mm n B C i j.
Proof. unfold mm. rewrite <- S_sub. apply S_ext. intros; ring. Qed.
Lemma mm_scale_r n A B s i j : mm n A (fun a b => s * B a b) i j = s * mm n A B i j.
Proof. unfold mm. rewrite <- S_mul_l. apply S_ext. intros; ring. Qed.
Lemma mm_scale_l n A B s i j : mm n (fun a b => s * A a b) B i j = s * mm n A B i j.
Proof. unfold mm. rewrite <- S_mul_l. apply S_ext. intros; ring. Qed.
Lemma dl_symm i j : dl i j = dl j i.
Proof. unfold delta. now rewrite Z.eqb_sym. Qed.

Section W.
Variables (n r : Z) (W L U : Z -> Z -> R) (s : R).
Hypothesis Hs : s <> 0.
Hypothesis HT : forall i j, (0 <= i < r)%Z -> (0 <= j < r)%Z -> mm r L (tr L) i j = mm n W (tr W) i j + s * dl i j.
Hypothesis HL : forall i j, (0 <= i < r)%Z -> (0 <= j < r)%Z -> (i < j)%Z -> L i j = 0.
Hypothesis Hd : forall i, (0 <= i < r)%Z -> L i i <> 0.
Hypothesis HU : forall i j, (0 <= i < r)%Z -> (0 <= j < n)%Z -> mm r L U i j = W i j.

Let G := mm n U (tr U).
Let M i j := dl i j - G i j.
Lemma G_sym i j : G i j = G j i. Proof. unfold G, mm, tr. apply S_ext. intros; ring. Qed.
Lemma M_sym i j : M i j = M j i. Proof. unfold M. now rewrite dl_symm, G_sym. Qed.

Lemma LML i j : (0 <= i < r)%Z -> (0 <= j < r)%Z -> mm r L (mm r M (tr L)) i j = s * dl i j.
Proof.
  intros Hi Hj. rewrite (mm_r r L _ (fun a b => tr L a b - mm r G (tr L) a b)).
  2:{ intros l Hl. unfold M. rewrite mm_sub_l. now rewrite mm_dl_l. }
  rewrite mm_sub_r, HT by auto. enough (mm r L (mm r G (tr L)) i j = mm n W (tr W) i j) by lra.
  rewrite (mm_r r L _ (mm n U (tr (mm r L U)))).
  2:{ intros l Hl. unfold G. rewrite <- mm_assoc. apply mm_r. intros c Hc. unfold tr at 3. rewrite mm_tr. reflexivity. }
  rewrite mm_assoc. transitivity (mm n W (tr (mm r L U)) i j); [apply mm_l; intros; auto|]. apply mm_r. intros l Hl. apply HU; auto.
Qed.
Lemma MLL i j : (0 <= i < r)%Z -> (0 <= j < r)%Z -> mm r M (mm r (tr L) L) i j = s * dl i j.
Proof.
  intros Hi Hj. rewrite mm_assoc.
  assert (H : S 0 r (fun l => (/ s * mm r M (tr L) i l) * L l j) = dl i j).
  { apply (tri_two_sided (K := Rring) r L (fun a b => / s * mm r M (tr L) a b)); auto.
    - intros a Ha. exists (/ L a a). cbn. apply Rinv_l. auto.
    - intros a b Ha Hb. change (mm r L (fun a b => / s * mm r M (tr L) a b) a b = dl a b). rewrite mm_scale_r, LML by auto. field. auto. }
  assert (H' : / s * mm r (mm r M (tr L)) L i j = dl i j) by (rewrite <- H, <- mm_scale_l; reflexivity).
  apply (f_equal (Rmult s)) in H'. rewrite <- H'. field. auto.
Qed.
Lemma LLM i j : (0 <= i < r)%Z -> (0 <= j < r)%Z -> mm r (mm r (tr L) L) M i j = s * dl i j.
Proof.
  intros Hi Hj. rewrite mm_tr. rewrite dl_symm, <- (MLL j i) by auto. unfold mm. apply S_ext. intros l Hl. unfold tr. rewrite M_sym. f_equal. apply S_ext. intros; ring.
Qed.

Definition lrd_inv (i j : Z) : R := (dl i j - mm r (tr U) U i j) / s.
Lemma lrd_inv_sym i j : lrd_inv i j = lrd_inv j i.
Proof. unfold lrd_inv. rewrite dl_symm. do 2 f_equal. unfold mm, tr. apply S_ext. intros; ring. Qed.
Theorem woodbury i j : (0 <= i < n)%Z -> (0 <= j < n)%Z -> mm n (fun a b => mm r (tr W) W a b + s * dl a b) lrd_inv i j = dl i j.
Proof.
  intros Hi Hj. set (Q := mm r (tr U) U).
  transitivity (/ s * (mm n (mm r (tr W) W) (fun a b => dl a b - Q a b) i j + s * (dl i j - Q i j))).
  { transitivity (mm n (mm r (tr W) W) lrd_inv i j + s * mm n dl lrd_inv i j).
    - change (S 0 n (fun l => (mm r (tr W) W i l + s * dl i l) * lrd_inv l j) = S 0 n (fun l => mm r (tr W) W i l * lrd_inv l j) + s * S 0 n (fun l => dl i l * lrd_inv l j)). rewrite <- S_mul_l, <- S_add. apply S_ext. intros l Hl. ring.
    - rewrite mm_dl_l by auto. rewrite (mm_r n _ lrd_inv (fun a b => / s * (dl a b - Q a b))) by (intros; unfold lrd_inv; fold Q; field; auto).
      rewrite mm_scale_r. unfold lrd_inv. fold Q. field. auto. }
  enough (mm n (mm r (tr W) W) (fun a b => dl a b - Q a b) i j = s * Q i j) as -> by (field; auto).
  rewrite <- mm_assoc. rewrite (mm_r r (tr W) _ (mm r L (mm r M U))).
  - rewrite (mm_l r (tr W) (tr (mm r L U))) by (intros l Hl; symmetry; apply HU; auto).
    rewrite (mm_l r (tr (mm r L U)) (mm r (tr U) (tr L))) by (intros l Hl; unfold tr at 1; apply mm_tr).
    rewrite <- mm_assoc. unfold Q. rewrite <- mm_scale_r. apply mm_r. intros l Hl. rewrite mm_assoc, mm_assoc.
    rewrite (mm_l r _ (fun a b => s * dl a b)) by (intros; apply LLM; auto). rewrite mm_scale_l, mm_dl_l by auto. reflexivity.
  - intros l Hl. rewrite mm_sub_r, mm_dl_r by auto. rewrite <- HU by auto. rewrite (mm_l n W (mm r L U)) by (intros; symmetry; apply HU; auto).
    unfold Q. rewrite (mm_assoc n r (mm r L U) (tr U) U). rewrite (mm_l r (mm n (mm r L U) (tr U)) (mm r L G)) by (intros; unfold G; symmetry; apply mm_assoc).
    rewrite <- (mm_assoc r r L G U), <- mm_sub_r. apply mm_r. intros q Hq. unfold M. rewrite mm_sub_l, mm_dl_l by auto. reflexivity.
Qed.
End W.
