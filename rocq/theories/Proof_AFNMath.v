(** The algebra of the AFN preconditioner: with A11 inv = I, inv = iL^T iL and the
    Schur complement S = A22 - A12^T inv A12, the sequence of operations of
    AFN_precond_apply is x -> W^T W x; it is the inverse of A when G^T G is the
    inverse of S. *)
From Coq Require Import ZArith List Lia Bool.
From Verif Require Import Base Mem Num CRing Spec_Lapack Proof_ULVMath Proof_FSAIReal.
Import ListNotations.
Open Scope Z_scope.

Section Math.
Context {K : cring}.
Add Ring Kring : (cth K).
Local Open Scope ring_K.

(** A one-sided inverse of a triangular matrix is two-sided. *)
Lemma tri_two_sided n (L iL : Z -> Z -> K) : (forall i j, 0 <= i < n -> 0 <= j < n -> i < j -> L i j = c0) -> (forall i, 0 <= i < n -> exists s, s * L i i = c1) ->
  (forall i j, 0 <= i < n -> 0 <= j < n -> rsum 0 n (fun l => L i l * iL l j) = delta i j) ->
  forall i j, 0 <= i < n -> 0 <= j < n -> rsum 0 n (fun l => iL i l * L l j) = delta i j.
Proof.
  intros HT Hd H i j Hi Hj.
  assert (Z0 : rsum 0 n (fun l => iL i l * L l j) - delta i j = c0).
  { apply (tri_inj n L (fun i => rsum 0 n (fun l => iL i l * L l j) - delta i j)); auto. clear i Hi. intros i Hi.
    rewrite (rsum_ext 0 n _ (fun k => L i k * rsum 0 n (fun l => iL k l * L l j) - L i k * delta k j)) by (intros; ring).
    rewrite rsum_sub, rsum_assoc. rewrite (rsum_ext 0 n _ (fun l => delta i l * L l j)) by (intros; rewrite H by auto; ring).
    rewrite rsum_delta_l by auto. rewrite (rsum_only 0 n (fun k => L i k * delta k j) j); auto; unfold delta.
    - rewrite Z.eqb_refl. ring.
    - intros k Hk Hn. destruct (Z.eqb_spec k j); [lia|ring]. }
  transitivity (rsum 0 n (fun l => iL i l * L l j) - delta i j + delta i j); [ring|]. rewrite Z0. ring.
Qed.

Variables n1 n2 : Z.
Hypothesis Hn1 : 0 <= n1. Hypothesis Hn2 : 0 <= n2.
Let n := (n1 + n2)%Z.
Variables A iL inv G : Z -> Z -> K.
Hypothesis Asym : forall i j, 0 <= i < n -> 0 <= j < n -> A i j = A j i.
Hypothesis Hinv : forall i j, 0 <= i < n1 -> 0 <= j < n1 -> inv i j = rsum 0 n1 (fun k => iL k i * iL k j).
Hypothesis HA : forall i j, 0 <= i < n1 -> 0 <= j < n1 -> rsum 0 n1 (fun l => A i l * inv l j) = delta i j.

Definition afn_K12 (k r : Z) : K := A k (n1 + r)%Z.
(** The Schur complement. *)
Definition afn_S (r c : Z) : K := A (n1 + r)%Z (n1 + c)%Z - rsum 0 n1 (fun l => afn_K12 l r * rsum 0 n1 (fun k => inv l k * afn_K12 k c)).

(** The quantities AFN_precond_apply computes from x. *)
Definition afn_u (x : Z -> K) (r : Z) : K := x (n1 + r)%Z - rsum 0 n1 (fun l => afn_K12 l r * rsum 0 n1 (fun j => inv l j * x j)).
Definition afn_y2 (x : Z -> K) (c : Z) : K := rsum 0 n2 (fun i => G i c * rsum 0 n2 (fun j => G i j * afn_u x j)).
Definition afn_y1 (x : Z -> K) (i : Z) : K := rsum 0 n1 (fun l => inv i l * (x l - rsum 0 n2 (fun r => afn_K12 l r * afn_y2 x r))).
Definition afn_y (x : Z -> K) (i : Z) : K := if i <? n1 then afn_y1 x i else afn_y2 x (i - n1).

Definition afn_W (k j : Z) : K :=
  if k <? n1 then (if j <? n1 then iL k j else c0)
  else if j <? n1 then c0 - rsum 0 n2 (fun r => G (k - n1)%Z r * rsum 0 n1 (fun l => afn_K12 l r * inv l j)) else G (k - n1)%Z (j - n1)%Z.

Lemma inv_sym i j : 0 <= i < n1 -> 0 <= j < n1 -> inv i j = inv j i.
Proof. intros Hi Hj. rewrite !Hinv by auto. apply rsum_ext. intros; ring. Qed.

Lemma afn_W_lo x k : 0 <= k < n1 -> rsum 0 n (fun j => afn_W k j * x j) = rsum 0 n1 (fun j => iL k j * x j).
Proof.
  intros Hk. rewrite (rsum_split 0 n1 n) by (unfold n; lia). rewrite (rsum_zero n1 n).
  - rewrite (rsum_ext 0 n1 _ (fun j => iL k j * x j)); [ring|]. intros j Hj. unfold afn_W. destruct (Z.ltb_spec k n1), (Z.ltb_spec j n1); try lia. auto.
  - intros j Hj. unfold afn_W. destruct (Z.ltb_spec k n1), (Z.ltb_spec j n1); try lia. ring.
Qed.
Lemma afn_W_hi x k : 0 <= k < n2 -> rsum 0 n (fun j => afn_W (n1 + k)%Z j * x j) = rsum 0 n2 (fun r => G k r * afn_u x r).
Proof.
  intros Hk. rewrite (rsum_split0 n1 n) by (unfold n; lia). replace (n - n1)%Z with n2 by (unfold n; lia).
  rewrite (rsum_ext 0 n2 _ (fun j => G k j * x (n1 + j)%Z)).
  2:{ intros j Hj. unfold afn_W. destruct (Z.ltb_spec (n1 + k) n1), (Z.ltb_spec (n1 + j) n1); try lia. replace (n1 + k - n1)%Z with k by lia. now replace (n1 + j - n1)%Z with j by lia. }
  rewrite (rsum_ext 0 n1 _ (fun j => c0 - rsum 0 n2 (fun r => G k r * rsum 0 n1 (fun l => afn_K12 l r * inv l j)) * x j)).
  2:{ intros j Hj. unfold afn_W. destruct (Z.ltb_spec (n1 + k) n1), (Z.ltb_spec j n1); try lia. replace (n1 + k - n1)%Z with k by lia. ring. }
  rewrite rsum_sub, (rsum_zero 0 n1 (fun _ => c0)) by auto.
  rewrite <- (rsum_assoc n2 n1 (fun r => G k r) (fun r j => rsum 0 n1 (fun l => afn_K12 l r * inv l j)) x).
  unfold afn_u. rewrite (rsum_ext 0 n2 (fun r => G k r * (x (n1 + r)%Z - _)) (fun r => G k r * x (n1 + r)%Z - G k r * rsum 0 n1 (fun j => rsum 0 n1 (fun l => afn_K12 l r * inv l j) * x j))).
  - rewrite rsum_sub. ring.
  - intros r Hr. rewrite <- rsum_assoc. ring.
Qed.

(** y = W^T (W x). *)
Theorem afn_y_W x i : 0 <= i < n -> afn_y x i = rsum 0 n (fun k => afn_W k i * rsum 0 n (fun j => afn_W k j * x j)).
Proof.
  intros Hi. rewrite (rsum_split0 n1 n) by (unfold n; lia). replace (n - n1)%Z with n2 by (unfold n; lia).
  rewrite (rsum_ext 0 n1 _ (fun k => afn_W k i * rsum 0 n1 (fun j => iL k j * x j))) by (intros; now rewrite afn_W_lo).
  rewrite (rsum_ext 0 n2 _ (fun k => afn_W (n1 + k)%Z i * rsum 0 n2 (fun r => G k r * afn_u x r))) by (intros; now rewrite afn_W_hi).
  unfold afn_y. destruct (Z.ltb_spec i n1) as [Hl|Hl].
  - rewrite (rsum_ext 0 n1 _ (fun k => iL k i * rsum 0 n1 (fun j => iL k j * x j))).
    2:{ intros k Hk. unfold afn_W. destruct (Z.ltb_spec k n1), (Z.ltb_spec i n1); try lia. auto. }
    rewrite (rsum_ext 0 n2 _ (fun k => c0 - rsum 0 n2 (fun r => rsum 0 n1 (fun l => afn_K12 l r * inv l i) * (G k r * rsum 0 n2 (fun r => G k r * afn_u x r))))).
    2:{ intros k Hk. unfold afn_W. destruct (Z.ltb_spec (n1 + k) n1), (Z.ltb_spec i n1); try lia. replace (n1 + k - n1)%Z with k by lia.
        rewrite (rsum_ext 0 n2 (fun r => rsum 0 n1 (fun l => afn_K12 l r * inv l i) * (G k r * rsum 0 n2 (fun r => G k r * afn_u x r))) (fun r => G k r * rsum 0 n1 (fun l => afn_K12 l r * inv l i) * rsum 0 n2 (fun r => G k r * afn_u x r))) by (intros; ring).
        rewrite rsum_mul_r. ring. }
    rewrite rsum_sub, (rsum_zero 0 n2 (fun _ => c0)), rsum_assoc by auto.
    unfold afn_y1. rewrite (rsum_ext 0 n1 _ (fun l => inv i l * x l - inv l i * rsum 0 n2 (fun r => afn_K12 l r * afn_y2 x r))) by (intros l Hll; rewrite (inv_sym l i) by lia; ring).
    rewrite rsum_sub, rsum_assoc, (rsum_swap 0 n2 0 n2).
    rewrite (rsum_ext 0 n1 (fun j => rsum 0 n1 (fun l => iL l i * iL l j) * x j) (fun l => inv i l * x l)) by (intros; rewrite Hinv by lia; auto).
    match goal with |- _ - ?a = _ + (_ - ?b) => replace b with a; [ring|] end. apply rsum_ext.
    intros r Hr. rewrite rsum_mul_l. unfold afn_y2. rewrite (rsum_ext 0 n1 (fun l => afn_K12 l r * inv l i) (fun l => inv l i * afn_K12 l r)) by (intros; ring). auto.
  - rewrite (rsum_zero 0 n1). 2:{ intros k Hk. unfold afn_W. destruct (Z.ltb_spec k n1), (Z.ltb_spec i n1); try lia. ring. }
    unfold afn_y2. rewrite (rsum_ext 0 n2 (fun k => afn_W (n1 + k)%Z i * _) (fun k => G k (i - n1)%Z * rsum 0 n2 (fun r => G k r * afn_u x r))); [ring|].
    intros k Hk. unfold afn_W. destruct (Z.ltb_spec (n1 + k) n1), (Z.ltb_spec i n1); try lia. now replace (n1 + k - n1)%Z with k by lia.
Qed.

Lemma A_inv i (x : Z -> K) : 0 <= i < n1 -> rsum 0 n1 (fun l => A i l * rsum 0 n1 (fun j => inv l j * x j)) = x i.
Proof. intros Hi. rewrite rsum_assoc. rewrite (rsum_ext 0 n1 _ (fun j => delta i j * x j)) by (intros; rewrite HA by auto; auto). now rewrite rsum_delta_l. Qed.

(** With G^T G the inverse of S, y solves A y = x. *)
Theorem afn_exact x : (forall r c, 0 <= r < n2 -> 0 <= c < n2 -> rsum 0 n2 (fun j => afn_S r j * rsum 0 n2 (fun i => G i j * G i c)) = delta r c) ->
  forall i, 0 <= i < n -> rsum 0 n (fun j => A i j * afn_y x j) = x i.
Proof.
  intros HS.
  assert (Hy2 : forall r, 0 <= r < n2 -> rsum 0 n2 (fun j => afn_S r j * afn_y2 x j) = afn_u x r).
  { intros r Hr. unfold afn_y2. rewrite (rsum_ext 0 n2 _ (fun j => afn_S r j * rsum 0 n2 (fun c => rsum 0 n2 (fun i => G i j * G i c) * afn_u x c))) by (intros; now rewrite rsum_assoc).
    rewrite rsum_assoc. rewrite (rsum_ext 0 n2 _ (fun c => delta r c * afn_u x c)) by (intros; rewrite HS by auto; auto). now rewrite rsum_delta_l. }
  intros i Hi. rewrite (rsum_split0 n1 n) by (unfold n; lia). replace (n - n1)%Z with n2 by (unfold n; lia).
  rewrite (rsum_ext 0 n1 _ (fun j => A i j * afn_y1 x j)) by (intros j Hj; unfold afn_y; destruct (Z.ltb_spec j n1); [auto|lia]).
  rewrite (rsum_ext 0 n2 _ (fun j => A i (n1 + j)%Z * afn_y2 x j)) by (intros j Hj; unfold afn_y; destruct (Z.ltb_spec (n1 + j) n1); [lia|]; now replace (n1 + j - n1)%Z with j by lia).
  destruct (Z.lt_ge_cases i n1) as [Hl|Hl].
  - unfold afn_y1. rewrite (A_inv i (fun l => x l - rsum 0 n2 (fun r => afn_K12 l r * afn_y2 x r))) by lia. unfold afn_K12. ring.
  - set (r := (i - n1)%Z). assert (Hr : 0 <= r < n2) by (unfold r, n in *; lia). replace i with (n1 + r)%Z by (unfold r; lia). specialize (Hy2 r Hr).
    rewrite (rsum_ext 0 n1 _ (fun l => afn_K12 l r * rsum 0 n1 (fun j => inv l j * x j) - afn_K12 l r * rsum 0 n1 (fun k => inv l k * rsum 0 n2 (fun c => afn_K12 k c * afn_y2 x c)))).
    2:{ intros l Hll. unfold afn_y1. rewrite (Asym (n1 + r) l) by (unfold n; lia). fold (afn_K12 l r).
        rewrite (rsum_ext 0 n1 (fun l0 => inv l l0 * (x l0 - _)) (fun k => inv l k * x k - inv l k * rsum 0 n2 (fun c => afn_K12 k c * afn_y2 x c))) by (intros; ring). rewrite rsum_sub. ring. }
    rewrite rsum_sub. unfold afn_u in Hy2.
    assert (E : rsum 0 n2 (fun j => afn_S r j * afn_y2 x j) = rsum 0 n2 (fun j => A (n1 + r)%Z (n1 + j)%Z * afn_y2 x j) - rsum 0 n1 (fun l => afn_K12 l r * rsum 0 n1 (fun k => inv l k * rsum 0 n2 (fun c => afn_K12 k c * afn_y2 x c)))).
    { unfold afn_S. rewrite (rsum_ext 0 n2 _ (fun c => A (n1 + r)%Z (n1 + c)%Z * afn_y2 x c - rsum 0 n1 (fun l => afn_K12 l r * rsum 0 n1 (fun k => inv l k * afn_K12 k c)) * afn_y2 x c)) by (intros; ring).
      rewrite rsum_sub. f_equal. rewrite <- (rsum_assoc n1 n2 (fun l => afn_K12 l r) (fun l c => rsum 0 n1 (fun k => inv l k * afn_K12 k c))). apply rsum_ext. intros l Hll. f_equal. now rewrite <- rsum_assoc. }
    rewrite E in Hy2. transitivity (rsum 0 n1 (fun l => afn_K12 l r * rsum 0 n1 (fun j => inv l j * x j)) + (rsum 0 n2 (fun j => A (n1 + r)%Z (n1 + j)%Z * afn_y2 x j) - rsum 0 n1 (fun l => afn_K12 l r * rsum 0 n1 (fun k => inv l k * rsum 0 n2 (fun c => afn_K12 k c * afn_y2 x c))))); [ring|].
    rewrite Hy2. ring.
Qed.

Lemma afn_S_sym r c : 0 <= r < n2 -> 0 <= c < n2 -> afn_S r c = afn_S c r.
Proof.
  intros Hr Hc. unfold afn_S. rewrite (Asym (n1 + r) (n1 + c)) by (unfold n; lia). f_equal. rewrite rsum_assoc. apply rsum_ext. intros k Hk.
  rewrite (rsum_ext 0 n1 (fun l => inv k l * afn_K12 l r) (fun l => afn_K12 l r * inv l k)) by (intros; rewrite (inv_sym k i) by lia; ring). ring.
Qed.

(** The quadratic form of S is that of A on (-inv A12 y, y). *)
Definition afn_ext (y : Z -> K) (i : Z) : K := if i <? n1 then c0 - rsum 0 n1 (fun j => inv i j * rsum 0 n2 (fun r => afn_K12 j r * y r)) else y (i - n1)%Z.
Theorem afn_schur_quad y : rsum 0 n (fun i => afn_ext y i * rsum 0 n (fun j => A i j * afn_ext y j)) = rsum 0 n2 (fun r => y r * rsum 0 n2 (fun c => afn_S r c * y c)).
Proof.
  assert (E : forall i, 0 <= i < n -> rsum 0 n (fun j => A i j * afn_ext y j) = rsum 0 n2 (fun c => A i (n1 + c)%Z * y c) - rsum 0 n1 (fun l => A i l * rsum 0 n1 (fun j => inv l j * rsum 0 n2 (fun r => afn_K12 j r * y r)))).
  { intros i Hi. rewrite (rsum_split0 n1 n) by (unfold n; lia). replace (n - n1)%Z with n2 by (unfold n; lia).
    rewrite (rsum_ext 0 n1 _ (fun l => c0 - A i l * rsum 0 n1 (fun j => inv l j * rsum 0 n2 (fun r => afn_K12 j r * y r)))) by (intros j Hj; unfold afn_ext; destruct (Z.ltb_spec j n1); [ring|lia]).
    rewrite rsum_sub, (rsum_zero 0 n1 (fun _ => c0)) by auto.
    rewrite (rsum_ext 0 n2 (fun j => A i (n1 + j)%Z * afn_ext y (n1 + j)) (fun c => A i (n1 + c)%Z * y c)) by (intros j Hj; unfold afn_ext; destruct (Z.ltb_spec (n1 + j) n1); [lia|]; now replace (n1 + j - n1)%Z with j by lia). ring. }
  rewrite (rsum_split0 n1 n) by (unfold n; lia). replace (n - n1)%Z with n2 by (unfold n; lia). rewrite (rsum_zero 0 n1).
  - rewrite (rsum_ext 0 n2 _ (fun r => y r * rsum 0 n2 (fun c => afn_S r c * y c))); [ring|]. intros r Hr. rewrite E by (unfold n; lia). unfold afn_ext at 1. destruct (Z.ltb_spec (n1 + r) n1); [lia|]. replace (n1 + r - n1)%Z with r by lia. f_equal.
    unfold afn_S. rewrite (rsum_ext 0 n2 (fun c => (A (n1 + r)%Z (n1 + c)%Z - _) * y c) (fun c => A (n1 + r)%Z (n1 + c)%Z * y c - rsum 0 n1 (fun l => afn_K12 l r * rsum 0 n1 (fun k => inv l k * afn_K12 k c)) * y c)) by (intros; ring).
    rewrite rsum_sub. f_equal. rewrite <- (rsum_assoc n1 n2 (fun l => afn_K12 l r) (fun l c => rsum 0 n1 (fun k => inv l k * afn_K12 k c))). apply rsum_ext. intros l Hll. rewrite (Asym (n1 + r) l) by (unfold n; lia). unfold afn_K12 at 2. f_equal. now rewrite <- rsum_assoc.
  - intros i Hi. rewrite E, A_inv by (unfold n; lia). unfold afn_K12. ring.
Qed.
End Math.
