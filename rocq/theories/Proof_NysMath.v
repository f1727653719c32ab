(** The algebra of the Nystrom preconditioner. *)
From Coq Require Import ZArith Reals List Lia Lra Bool.
From Verif Require Import Base Mem Num CRing FNum Spec_Lapack Proof_Lapack Spec_SPD Spec_Nys.
Open Scope Z_scope.
Open Scope R_scope.
Notation dl := (@delta Rring).

Lemma dl_same i : dl i i = 1. Proof. unfold delta. now rewrite Z.eqb_refl. Qed.
Lemma dl_diff i j : i <> j -> dl i j = 0. Proof. intros H. unfold delta. destruct (Z.eqb_spec i j); [contradiction|reflexivity]. Qed.
Lemma S_dl_r m j g : (0 <= j < m)%Z -> S 0 m (fun l => g l * dl l j) = g j.
Proof. intros Hj. rewrite <- (S_delta m j g Hj). apply S_ext. intros; ring. Qed.
Lemma S_dl_l m i g : (0 <= i < m)%Z -> S 0 m (fun l => dl i l * g l) = g i.
Proof. intros Hj. rewrite <- (S_delta m i g Hj). apply S_ext. intros; rewrite delta_comm; ring. Qed.
Lemma S_le lo hi f g : (forall i, (lo <= i < hi)%Z -> f i <= g i) -> S lo hi f <= S lo hi g.
Proof.
  intros H. assert (0 <= S lo hi (fun i => g i - f i)) by (apply S_nonneg; intros i Hi; specialize (H i Hi); lra). rewrite S_sub in H0. lra.
Qed.
Lemma S_const m c : (0 <= m)%Z -> S 0 m (fun _ => c) = IZR m * c.
Proof.
  intros Hm. pattern m. apply natlike_ind; auto.
  - rewrite S_empty by lia. ring.
  - intros x Hx IH. unfold Z.succ. rewrite S_snoc, IH, plus_IZR by lia. ring.
Qed.
Lemma S_term lo hi f k : (forall i, (lo <= i < hi)%Z -> 0 <= f i) -> (lo <= k < hi)%Z -> f k <= S lo hi f.
Proof.
  intros H Hk. rewrite (S_split lo k hi) by lia. rewrite (S_split k (k + 1) hi) by lia. rewrite S_snoc, (S_empty k k) by lia.
  assert (0 <= S lo k f) by (apply S_nonneg; intros; apply H; lia). assert (0 <= S (k + 1) hi f) by (apply S_nonneg; intros; apply H; lia). lra.
Qed.
Lemma quad_S n A y : quad n A y = S 0 n (fun i => y i * S 0 n (fun j => A i j * y j)).
Proof. change (S 0 n (fun i => S 0 n (fun j => y i * A i j * y j)) = S 0 n (fun i => y i * S 0 n (fun j => A i j * y j))). apply S_ext. intros i Hi. rewrite <- S_mul_l. apply S_ext. intros; ring. Qed.
Lemma quad_outer n m (B : Z -> Z -> R) d y : quad n (fun i j => S 0 m (fun k => B i k * d k * B j k)) y = S 0 m (fun k => d k * (S 0 n (fun i => B i k * y i) * S 0 n (fun i => B i k * y i))).
Proof.
  rewrite quad_S. transitivity (S 0 n (fun i => S 0 m (fun k => y i * B i k * d k * S 0 n (fun j => B j k * y j)))).
  - apply S_ext. intros i Hi. transitivity (y i * S 0 m (fun k => B i k * d k * S 0 n (fun j => B j k * y j))).
    + f_equal. symmetry. apply (S_assoc m n (fun k => B i k * d k) (fun k j => B j k) y).
    + rewrite <- S_mul_l. apply S_ext. intros; ring.
  - rewrite S_swap. apply S_ext. intros k Hk. rewrite S_mul_r. rewrite (S_ext 0 n (fun i => y i * B i k * d k) (fun i => d k * (B i k * y i))) by (intros; ring). rewrite S_mul_l. ring.
Qed.

Section Nys.
Variables n n1 : Z.
Hypothesis Hn : (0 <= n)%Z. Hypothesis Hn1 : (0 <= n1)%Z.
Variables (M V : Z -> Z -> R) (lam w : Z -> R).
Let G (p q : Z) : R := S 0 n (fun r => M r p * M r q).
Hypothesis HE : eig_ok n1 G V lam.

(** The columns M v. *)
Definition nysC (r k : Z) : R := S 0 n1 (fun p => M r p * V p k).

Lemma nysC_gram k l : (0 <= k < n1)%Z -> (0 <= l < n1)%Z -> S 0 n (fun r => nysC r k * nysC r l) = dl k l * lam l.
Proof.
  intros Hk Hl. destruct HE as ((OV & _) & EV & _).
  transitivity (S 0 n1 (fun q => S 0 n1 (fun p => V p k * G p q) * V q l)).
  - change (S 0 n (fun r => nysC r k * S 0 n1 (fun q => M r q * V q l)) = S 0 n1 (fun q => S 0 n1 (fun p => V p k * G p q) * V q l)). rewrite (S_assoc n n1 (fun r => nysC r k) M (fun q => V q l)). apply S_ext. intros q Hq. f_equal.
    unfold nysC. rewrite (S_ext 0 n _ (fun r => M r q * S 0 n1 (fun p => M r p * V p k))) by (intros; ring).
    rewrite (S_assoc n n1 (fun r => M r q) M (fun p => V p k)). apply S_ext. intros p Hp. unfold G. rewrite Rmult_comm. f_equal. apply S_ext. intros; ring.
  - rewrite <- (S_assoc n1 n1 (fun p => V p k) G (fun q => V q l)).
    rewrite (S_ext 0 n1 _ (fun p => V p k * V p l * lam l)). 2:{ intros p Hp. specialize (EV p l Hp Hl). change (S 0 n1 (fun j => G p j * V j l) = V p l * lam l) in EV. rewrite EV. ring. }
    rewrite S_mul_r. f_equal. apply (OV k l Hk Hl).
Qed.
Lemma lam_nonneg k : (0 <= k < n1)%Z -> 0 <= lam k.
Proof.
  intros Hk. pose proof (nysC_gram k k Hk Hk) as E. rewrite dl_same, Rmult_1_l in E. rewrite <- E. apply S_nonneg. intros; nra.
Qed.

(** w k is 1 / sqrt (lam k) or zero. *)
Hypothesis Hw : forall k, (0 <= k < n1)%Z -> w k = 0 \/ w k * w k * lam k = 1.
Definition nysU (r k : Z) : R := S 0 n1 (fun p => M r p * (V p k * w k)).
Lemma nysU_C r k : nysU r k = nysC r k * w k.
Proof. unfold nysU, nysC. rewrite <- S_mul_r. apply S_ext. intros; ring. Qed.
Definition nysE (k : Z) : R := w k * w k * lam k.
Lemma nysU_gram k l : (0 <= k < n1)%Z -> (0 <= l < n1)%Z -> S 0 n (fun r => nysU r k * nysU r l) = dl k l * nysE l.
Proof.
  intros Hk Hl. rewrite (S_ext 0 n _ (fun r => w k * w l * (nysC r k * nysC r l))) by (intros; rewrite !nysU_C; ring).
  rewrite S_mul_l, nysC_gram by auto. unfold nysE. destruct (Z.eq_dec k l) as [->|Ne]; [ring|rewrite dl_diff by auto; ring].
Qed.
Lemma nysE_U r k : (0 <= k < n1)%Z -> nysE k * nysU r k = nysU r k.
Proof. intros Hk. rewrite nysU_C. unfold nysE. destruct (Hw k Hk) as [->| ->]; ring. Qed.

(** The operator y = x - U t + U (m t), t = U^T x. *)
Variable m : Z -> R.
Definition nysP (r c : Z) : R := dl r c - S 0 n1 (fun k => nysU r k * (1 - m k) * nysU c k).
Definition nysT (x : Z -> R) (k : Z) : R := S 0 n (fun r => nysU r k * x r).

Lemma nysP_sym r c : nysP r c = nysP c r.
Proof. unfold nysP. rewrite delta_comm. f_equal. apply S_ext. intros; ring. Qed.
Lemma nysP_apply x r : (0 <= r < n)%Z -> S 0 n (fun c => nysP r c * x c) = x r - S 0 n1 (fun k => nysU r k * nysT x k) + S 0 n1 (fun k => nysU r k * (nysT x k * m k)).
Proof.
  intros Hr. unfold nysP. rewrite (S_ext 0 n _ (fun c => dl r c * x c - S 0 n1 (fun k => nysU r k * (1 - m k) * nysU c k) * x c)) by (intros; ring).
  rewrite S_sub, S_dl_l by auto. rewrite <- (S_assoc n1 n (fun k => nysU r k * (1 - m k)) (fun k c => nysU c k) x). fold (nysT x).
  rewrite (S_ext 0 n1 _ (fun k => nysU r k * nysT x k - nysU r k * (nysT x k * m k))) by (intros k Hk; fold (nysT x k); ring). rewrite S_sub. ring.
Qed.

(** |y|^2 - |U^T y|^2 is a square. *)
Lemma nys_bessel y : S 0 n (fun r => y r * y r) - S 0 n1 (fun k => nysT y k * nysT y k) =
  S 0 n (fun r => (y r - S 0 n1 (fun k => nysU r k * nysT y k)) * (y r - S 0 n1 (fun k => nysU r k * nysT y k))).
Proof.
  set (u := fun r => S 0 n1 (fun k => nysU r k * nysT y k)).
  rewrite (S_ext 0 n (fun r => (y r - _) * _) (fun r => y r * y r - 2 * (y r * u r) + u r * u r)) by (intros; unfold u; ring).
  rewrite S_add, S_sub, S_mul_l.
  assert (E1 : S 0 n (fun r => y r * u r) = S 0 n1 (fun k => nysT y k * nysT y k)).
  { unfold u. rewrite (S_assoc n n1 y nysU (nysT y)). apply S_ext. intros k Hk. f_equal. unfold nysT. apply S_ext. intros; ring. }
  assert (E2 : S 0 n (fun r => u r * u r) = S 0 n1 (fun k => nysT y k * nysT y k)).
  { unfold u at 2. rewrite (S_assoc n n1 u nysU (nysT y)). apply S_ext. intros k Hk. f_equal.
    unfold u. rewrite (S_ext 0 n _ (fun r => nysU r k * S 0 n1 (fun l => nysU r l * nysT y l))) by (intros; ring).
    rewrite (S_assoc n n1 (fun r => nysU r k) nysU (nysT y)). rewrite (S_ext 0 n1 _ (fun l => dl k l * (nysE l * nysT y l))) by (intros l Hl; rewrite nysU_gram by auto; ring).
    rewrite S_dl_l by auto. unfold nysT. rewrite <- S_mul_l. apply S_ext. intros r Hr. rewrite <- Rmult_assoc, nysE_U by auto. reflexivity. }
  rewrite E1, E2. ring.
Qed.
Lemma nys_bessel_le y : S 0 n1 (fun k => nysT y k * nysT y k) <= S 0 n (fun r => y r * y r).
Proof. pose proof (nys_bessel y) as E. assert (0 <= S 0 n (fun r => (y r - S 0 n1 (fun k => nysU r k * nysT y k)) * (y r - S 0 n1 (fun k => nysU r k * nysT y k)))) by (apply S_nonneg; intros; apply Rle_0_sqr). lra. Qed.

Theorem nysP_pd : (forall k, (0 <= k < n1)%Z -> 0 < m k) -> pos_def n nysP.
Proof.
  intros Hm y (i & Hi & Hy). rewrite quad_S.
  rewrite (S_ext 0 n _ (fun r => y r * y r - y r * S 0 n1 (fun k => nysU r k * ((1 - m k) * nysT y k)))).
  2:{ intros r Hr. rewrite nysP_apply by auto. rewrite (S_ext 0 n1 (fun k => nysU r k * ((1 - m k) * nysT y k)) (fun k => nysU r k * nysT y k - nysU r k * (nysT y k * m k))) by (intros; ring). rewrite S_sub. ring. }
  rewrite S_sub, (S_assoc n n1 y nysU). rewrite (S_ext 0 n1 _ (fun k => nysT y k * nysT y k - m k * (nysT y k * nysT y k))).
  2:{ intros k Hk. rewrite (S_ext 0 n (fun l => y l * nysU l k) (fun r => nysU r k * y r)) by (intros; ring). fold (nysT y k). ring. }
  rewrite S_sub. pose proof (nys_bessel y) as B.
  set (sq := S 0 n (fun r => (y r - S 0 n1 (fun k => nysU r k * nysT y k)) * (y r - S 0 n1 (fun k => nysU r k * nysT y k)))) in *.
  set (mt := S 0 n1 (fun k => m k * (nysT y k * nysT y k))).
  assert (P1 : 0 <= sq) by (apply S_nonneg; intros; apply Rle_0_sqr).
  assert (P2 : 0 <= mt). { apply S_nonneg. intros k Hk. specialize (Hm k Hk). nra. }
  match goal with |- 0 < ?e => replace e with (sq + mt) by (unfold mt; lra) end.
  destruct (Rle_lt_or_eq_dec _ _ P1) as [|Z1]; [lra|]. destruct (Rle_lt_or_eq_dec _ _ P2) as [|Z2]; [lra|]. exfalso. apply Hy.
  assert (T0 : forall k, (0 <= k < n1)%Z -> nysT y k = 0).
  { intros k Hk. pose proof (S_pos0 0 n1 (fun k => m k * (nysT y k * nysT y k))) as Q. cbv beta in Q. specialize (Q ltac:(intros j Hj; specialize (Hm j Hj); nra) (eq_sym Z2) k Hk). specialize (Hm k Hk). destruct (Rmult_integral _ _ Q) as [|Q2]; [lra|]. destruct (Rmult_integral _ _ Q2); auto. }
  pose proof (S_pos0 0 n (fun r => (y r - S 0 n1 (fun k => nysU r k * nysT y k)) * (y r - S 0 n1 (fun k => nysU r k * nysT y k)))) as Q. cbv beta in Q.
  specialize (Q ltac:(intros j Hj; apply Rle_0_sqr) (eq_sym Z1) i Hi). rewrite (S_zero 0 n1) in Q by (intros k Hk; rewrite T0 by auto; ring). rewrite Rminus_0_r in Q. destruct (Rmult_integral _ _ Q); auto.
Qed.

(** P is eta times the inverse of U diag(d) U^T + eta (I - U U^T), m d = eta. *)
Theorem nysP_inverse eta d : (forall k, (0 <= k < n1)%Z -> m k * d k = eta) -> forall i j, (0 <= i < n)%Z -> (0 <= j < n)%Z ->
  S 0 n (fun l => nysP i l * (S 0 n1 (fun k => nysU l k * d k * nysU j k) + eta * (dl l j - S 0 n1 (fun k => nysU l k * nysU j k)))) = eta * dl i j.
Proof.
  intros Hm i j Hi Hj. set (q := fun l => S 0 n1 (fun k => nysU l k * d k * nysU j k) + eta * (dl l j - S 0 n1 (fun k => nysU l k * nysU j k))).
  change (S 0 n (fun l => nysP i l * q l) = eta * dl i j). rewrite nysP_apply by auto.
  assert (T : forall k, (0 <= k < n1)%Z -> nysT q k = d k * nysU j k).
  { intros k Hk. unfold nysT, q. rewrite (S_ext 0 n _ (fun r => nysU r k * S 0 n1 (fun l => nysU r l * (d l * nysU j l)) + eta * (nysU r k * dl r j) - eta * (nysU r k * S 0 n1 (fun l => nysU r l * nysU j l)))).
    2:{ intros r Hr. rewrite (S_ext 0 n1 (fun l => nysU r l * (d l * nysU j l)) (fun l => nysU r l * d l * nysU j l)) by (intros; ring). ring. }
    rewrite S_sub, S_add, !S_mul_l, S_dl_r by auto. rewrite (S_assoc n n1 (fun r => nysU r k) nysU (fun l => d l * nysU j l)), (S_assoc n n1 (fun r => nysU r k) nysU (fun l => nysU j l)).
    rewrite (S_ext 0 n1 (fun l => _ * (d l * nysU j l)) (fun l => dl k l * (d l * (nysE l * nysU j l)))) by (intros l Hl; rewrite nysU_gram by auto; ring).
    rewrite (S_ext 0 n1 (fun l => _ * nysU j l) (fun l => dl k l * (nysE l * nysU j l))) by (intros l Hl; rewrite nysU_gram by auto; ring).
    rewrite !S_dl_l, nysE_U by auto. ring. }
  rewrite (S_ext 0 n1 (fun k => nysU i k * nysT q k) (fun k => nysU i k * d k * nysU j k)) by (intros k Hk; rewrite T by auto; ring).
  rewrite (S_ext 0 n1 (fun k => nysU i k * (nysT q k * m k)) (fun k => eta * (nysU i k * nysU j k))) by (intros k Hk; rewrite T, <- (Hm k Hk) by auto; ring).
  rewrite S_mul_l. unfold q. ring.
Qed.

(** M M^T = C C^T, which U diag(lam) U^T approximates. *)
Lemma nysC_MMT r c : S 0 n1 (fun k => nysC r k * nysC c k) = S 0 n1 (fun p => M r p * M c p).
Proof.
  destruct HE as ((_ & OV2) & _). unfold nysC at 2.
  transitivity (S 0 n1 (fun q => S 0 n1 (fun k => nysC r k * V q k) * M c q)).
  - rewrite <- (S_assoc n1 n1 (fun k => nysC r k) (fun k q => V q k) (fun q => M c q)). apply S_ext. intros k Hk. f_equal. apply S_ext. intros; ring.
  - apply S_ext. intros q Hq. f_equal. unfold nysC. rewrite (S_ext 0 n1 _ (fun k => V q k * S 0 n1 (fun p => V p k * M r p))).
    2:{ intros k Hk. rewrite (S_ext 0 n1 (fun p => M r p * V p k) (fun p => V p k * M r p)) by (intros; ring). ring. }
    rewrite (S_assoc n1 n1 (fun k => V q k) (fun k p => V p k) (M r)). rewrite (S_ext 0 n1 _ (fun p => dl q p * M r p)).
    + now rewrite S_dl_l.
    + intros p Hp. f_equal. apply (OV2 q p Hq Hp).
Qed.
Theorem nys_error tol2 y : (forall k, (0 <= k < n1)%Z -> w k = 0 -> lam k <= tol2) -> 0 <= tol2 ->
  0 <= quad n (fun i j => S 0 n1 (fun p => M i p * M j p) - S 0 n1 (fun k => nysU i k * lam k * nysU j k)) y <= IZR n1 * tol2 * S 0 n (fun i => y i * y i).
Proof.
  intros Ht Ht0. set (ct := fun k => S 0 n (fun i => nysC i k * y i)).
  assert (E : quad n (fun i j => S 0 n1 (fun p => M i p * M j p) - S 0 n1 (fun k => nysU i k * lam k * nysU j k)) y = S 0 n1 (fun k => (1 - nysE k) * (ct k * ct k))).
  { etransitivity; [|apply (quad_outer n n1 nysC (fun k => 1 - nysE k) y)]. unfold quad. apply S_ext. intros i Hi. apply S_ext. intros j Hj. f_equal. f_equal.
    rewrite <- nysC_MMT, <- S_sub. apply S_ext. intros k Hk. rewrite !nysU_C. unfold nysE. ring. }
  rewrite E. assert (E01 : forall k, (0 <= k < n1)%Z -> nysE k = 1 \/ (nysE k = 0 /\ w k = 0)). { intros k Hk. unfold nysE. destruct (Hw k Hk) as [W|W]; [right; rewrite W; split; ring|left; auto]. }
  split.
  - apply S_nonneg. intros k Hk. destruct (E01 k Hk) as [->|(-> & _)]; nra.
  - rewrite Rmult_assoc, <- (S_const n1 (tol2 * S 0 n (fun i => y i * y i)) Hn1). apply S_le. intros k Hk.
    assert (Y0 : 0 <= S 0 n (fun i => y i * y i)) by (apply S_nonneg; intros; nra).
    destruct (E01 k Hk) as [->|(-> & W)]; [nra|]. rewrite Rminus_0_r, Rmult_1_l.
    (* Cauchy-Schwarz *)
    assert (CS : ct k * ct k <= lam k * S 0 n (fun i => y i * y i)).
    { pose proof (nysC_gram k k Hk Hk) as L. rewrite dl_same, Rmult_1_l in L. pose proof (lam_nonneg k Hk) as L0.
      assert (P : forall a b, 0 <= a * a * lam k - 2 * a * b * ct k + b * b * S 0 n (fun i => y i * y i)).
      { intros a b. rewrite <- L. unfold ct. rewrite <- !S_mul_l, <- S_sub, <- S_add. apply S_nonneg. intros i Hi. match goal with |- 0 <= ?e => replace e with ((a * nysC i k - b * y i) * (a * nysC i k - b * y i)) by ring end. apply Rle_0_sqr. }
      destruct (Rle_lt_or_eq_dec _ _ L0) as [Lp|Lz].
      - pose proof (P (ct k) (lam k)) as Q. apply Rmult_le_reg_l with (lam k); auto. lra.
      - rewrite <- Lz in *. assert (C0 : forall i, (0 <= i < n)%Z -> nysC i k = 0). { intros i Hi. pose proof (S_pos0 0 n (fun r => nysC r k * nysC r k)) as Q. cbv beta in Q. specialize (Q ltac:(intros; nra) L i Hi). nra. }
        unfold ct. rewrite (S_zero 0 n) by (intros i Hi; rewrite C0 by auto; ring). nra. }
    pose proof (Ht k Hk W). nra.
Qed.
End Nys.
