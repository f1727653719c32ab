(** Every real symmetric matrix has an orthogonal eigendecomposition: the contract
    of ?syevd is met by some routine for every size. *)
From Coq Require Import ZArith Reals List Lia Lra Bool.
From Verif Require Import Base Mem Num CRing FNum Spec_Lapack Proof_Lapack Spec_SPD Proof_AFNMath Proof_AFNTop Spec_Nys Proof_NysMath.
Open Scope Z_scope.
Open Scope R_scope.

Lemma S_first n f : (0 <= n)%Z -> S 0 (n + 1) f = f 0%Z + S 0 n (fun i => f (i + 1)%Z).
Proof.
  intros Hn. rewrite (S_split 0 1 (n + 1)) by lia. f_equal.
  - replace 1%Z with (0 + 1)%Z by lia. rewrite S_snoc, S_empty by lia. ring.
  - etransitivity; [|exact (S_shift 0 n 1 f)]. reflexivity.
Qed.
Definition nrm (n : Z) (y : Z -> R) : R := S 0 n (fun i => y i * y i).
Lemma nrm_nonneg n y : 0 <= nrm n y. Proof. apply S_nonneg. intros; apply Rle_0_sqr. Qed.
Lemma nrm_pos n y : notzero n y -> 0 < nrm n y.
Proof.
  intros (i & Hi & Hy). pose proof (S_term 0 n (fun i => y i * y i) i ltac:(intros; apply Rle_0_sqr) Hi) as Q. cbv beta in Q. assert (0 < y i * y i) by (destruct (Rtotal_order (y i) 0) as [|[|]]; nra). unfold nrm. lra.
Qed.
(** Cauchy-Schwarz. *)
Lemma cauchy n x y : S 0 n (fun i => x i * y i) * S 0 n (fun i => x i * y i) <= nrm n x * nrm n y.
Proof.
  set (c := S 0 n (fun i => x i * y i)). pose proof (nrm_nonneg n x) as X0. pose proof (nrm_nonneg n y) as Y0.
  assert (P : forall a b, 0 <= a * a * nrm n x - 2 * a * b * c + b * b * nrm n y).
  { intros a b. unfold c, nrm. rewrite <- !S_mul_l, <- S_sub, <- S_add. apply S_nonneg. intros i Hi. match goal with |- 0 <= ?e => replace e with ((a * x i - b * y i) * (a * x i - b * y i)) by ring end. apply Rle_0_sqr. }
  destruct (Rle_lt_or_eq_dec _ _ X0) as [Lp|Lz].
  - pose proof (P c (nrm n x)) as Q. apply Rmult_le_reg_l with (nrm n x); auto. lra.
  - assert (E : c = 0). { unfold c. apply S_zero. intros i Hi. assert (x i = 0). { pose proof (S_pos0 0 n (fun i => x i * x i)) as Q. cbv beta in Q. specialize (Q ltac:(intros; apply Rle_0_sqr) (eq_sym Lz) i Hi). destruct (Rmult_integral _ _ Q); auto. } rewrite H. ring. }
    rewrite E. nra.
Qed.
Lemma quad_scale n A c y : quad n A (fun i => c * y i) = c * c * quad n A y.
Proof. rewrite !quad_S, <- S_mul_l. apply S_ext. intros i Hi. rewrite (S_ext 0 n (fun j => A i j * (c * y j)) (fun j => c * (A i j * y j))) by (intros; ring). rewrite S_mul_l. ring. Qed.
Lemma nrm_scale n c y : nrm n (fun i => c * y i) = c * c * nrm n y.
Proof. unfold nrm. rewrite <- S_mul_l. apply S_ext. intros; ring. Qed.
Lemma quad_shift n A c y : quad n (fun i j => A i j + c * dl i j) y = quad n A y + c * nrm n y.
Proof.
  rewrite !quad_S. unfold nrm. rewrite <- S_mul_l, <- S_add. apply S_ext. intros i Hi.
  rewrite (S_ext 0 n (fun j => (A i j + c * dl i j) * y j) (fun j => A i j * y j + c * (dl i j * y j))) by (intros; ring). rewrite S_add, S_mul_l, S_dl_l by auto. ring.
Qed.
Lemma quad_ext n A B y : (forall i j, (0 <= i < n)%Z -> (0 <= j < n)%Z -> A i j = B i j) -> quad n A y = quad n B y.
Proof. intros H. unfold quad. apply S_ext. intros i Hi. apply S_ext. intros j Hj. now rewrite H. Qed.
Lemma quad_bound n A y : Rabs (quad n A y) <= S 0 n (fun i => S 0 n (fun j => Rabs (A i j))) * nrm n y.
Proof.
  assert (Ab : forall lo hi f, Rabs (S lo hi f) <= S lo hi (fun i => Rabs (f i))).
  { intros lo hi f. apply Rabs_le. split.
    - replace (- S lo hi (fun i => Rabs (f i))) with (S lo hi (fun i => (-1) * Rabs (f i))) by (rewrite S_mul_l; ring). apply S_le. intros i Hi. pose proof (Rle_abs (- f i)). rewrite Rabs_Ropp in H. lra.
    - apply S_le. intros i Hi. apply Rle_abs. }
  unfold quad. fold (S 0 n (fun i => S 0 n (fun j => y i * A i j * y j))). eapply Rle_trans; [apply Ab|]. rewrite <- S_mul_r. apply S_le. intros i Hi. eapply Rle_trans; [apply Ab|]. rewrite <- S_mul_r. apply S_le. intros j Hj.
  rewrite !Rabs_mult. pose proof (Rabs_pos (A i j)). pose proof (Rabs_pos (y i)). pose proof (Rabs_pos (y j)).
  pose proof (S_term 0 n (fun i => y i * y i) i ltac:(intros; apply Rle_0_sqr) Hi) as Q1. pose proof (S_term 0 n (fun i => y i * y i) j ltac:(intros; apply Rle_0_sqr) Hj) as Q2. cbv beta in Q1, Q2. fold (nrm n y) in Q1, Q2.
  assert (Rabs (y i) * Rabs (y i) = y i * y i) by (rewrite <- Rabs_mult; apply Rabs_pos_eq, Rle_0_sqr). assert (Rabs (y j) * Rabs (y j) = y j * y j) by (rewrite <- Rabs_mult; apply Rabs_pos_eq, Rle_0_sqr).
  assert (Rabs (y i) * Rabs (y j) <= nrm n y). { pose proof (Rle_0_sqr (Rabs (y i) - Rabs (y j))) as Sq. unfold Rsqr in Sq. lra. }
  replace (Rabs (y i) * Rabs (A i j) * Rabs (y j)) with (Rabs (A i j) * (Rabs (y i) * Rabs (y j))) by ring. apply Rmult_le_compat_l; auto.
Qed.

(** A positive definite matrix is bounded below. *)
Lemma pd_below n B : (0 <= n)%Z -> symmetric n B -> fst (Rpotrf n B) = 0%Z -> exists c, 0 < c /\ forall y, c * nrm n y <= quad n B y.
Proof.
  intros Hn Sym H0. pose proof (la_chol _ Rlapack_ok n B Hn) as HC. change (l_potrf Rlapack n B) with (Rpotrf n B) in HC. destruct (Rpotrf n B) as [info L]. cbn [fst] in H0. destruct (HC H0) as (Hd & HL). clear HC.
  set (LT := tri (K := Rring) true false L) in *.
  assert (HLL : forall i j, (0 <= i < n)%Z -> (0 <= j < n)%Z -> S 0 n (fun l => LT i l * LT j l) = B i j).
  { intros i j Hi Hj. destruct (Z.le_gt_cases j i); [apply HL; lia|]. rewrite Sym by auto. rewrite <- (HL j i) by lia. apply S_ext. intros; apply Rmult_comm. }
  assert (HLT : forall i j, (0 <= i < n)%Z -> (0 <= j < n)%Z -> (i < j)%Z -> LT i j = 0). { intros i j Hi Hj Hij. unfold LT, tri. destruct (Z.eqb_spec i j), (Z.ltb_spec j i); auto; lia. }
  assert (HLd : forall i, (0 <= i < n)%Z -> exists s : Rring, cmul s (LT i i) = c1). { intros i Hi. apply Rring_field. unfold LT, tri. rewrite Z.eqb_refl. auto. }
  set (iL := l_trsm Rlapack true true false false n n L dl).
  pose proof (la_trsm_left _ Rlapack_ok true false false n n L dl Hn (fun _ => Hd)) as Q5. fold iL in Q5. cbn [top] in Q5.
  pose proof (tri_two_sided (K := Rring) n LT iL HLT HLd Q5) as Q6.
  set (fr := S 0 n (fun i => S 0 n (fun k => iL k i * iL k i))). assert (F0 : 0 <= fr) by (apply S_nonneg; intros; apply S_nonneg; intros; apply Rle_0_sqr).
  exists (/ (fr + 1)). split; [apply Rinv_0_lt_compat; lra|]. intros y.
  set (z := fun k => S 0 n (fun i => LT i k * y i)).
  assert (E : quad n B y = nrm n z).
  { rewrite (quad_ext n B (fun i j => S 0 n (fun k => LT i k * 1 * LT j k))) by (intros i j Hi Hj; rewrite <- HLL by auto; apply S_ext; intros; rewrite Rmult_1_r; reflexivity).
    rewrite quad_outer. apply S_ext. intros k Hk. unfold z. rewrite Rmult_1_l. reflexivity. }
  assert (Y : forall i, (0 <= i < n)%Z -> y i = S 0 n (fun k => iL k i * z k)).
  { intros i Hi. unfold z. rewrite (S_assoc n n (fun k => iL k i) (fun k i => LT i k) y). rewrite (S_ext 0 n _ (fun j => dl i j * y j)); [now rewrite S_dl_l|].
    intros j Hj. f_equal. rewrite delta_comm. rewrite <- (Q5 j i Hj Hi). apply S_ext. intros; apply Rmult_comm. }
  assert (N : nrm n y <= fr * nrm n z).
  { unfold nrm at 1, fr. rewrite <- S_mul_r. apply S_le. intros i Hi. rewrite (Y i Hi). apply (cauchy n (fun k => iL k i) z). }
  rewrite E. pose proof (nrm_nonneg n z). apply Rmult_le_reg_l with (fr + 1); [lra|]. rewrite <- Rmult_assoc, Rinv_r by lra. lra.
Qed.

(** The smallest eigenvalue. *)
Lemma eig_min n A : (0 < n)%Z -> symmetric n A -> exists lam u, nrm n u = 1 /\ (forall i, (0 <= i < n)%Z -> S 0 n (fun j => A i j * u j) = lam * u i) /\ forall y, lam * nrm n y <= quad n A y.
Proof.
  intros Hn Sym. set (E := fun r => exists x, nrm n x = 1 /\ r = - quad n A x).
  destruct (completeness E) as (m & Hub & Hlub).
  - exists (S 0 n (fun i => S 0 n (fun j => Rabs (A i j)))). intros r (x & Hx & ->). pose proof (quad_bound n A x) as Q. rewrite Hx in Q. pose proof (Rle_abs (- quad n A x)) as P. rewrite Rabs_Ropp in P. lra.
  - exists (- quad n A (fun i => dl i 0)). exists (fun i => dl i 0%Z). split; auto. unfold nrm. rewrite S_dl_r, dl_same by lia. reflexivity.
  - set (lam := - m).
    assert (Low : forall y, lam * nrm n y <= quad n A y).
    { intros y. pose proof (nrm_nonneg n y) as N0. destruct (Rle_lt_or_eq_dec _ _ N0) as [Np|Nz].
      - set (c := / sqrt (nrm n y)). assert (Cc : c * c * nrm n y = 1). { unfold c. pose proof (sqrt_lt_R0 _ Np). rewrite <- (sqrt_sqrt (nrm n y)) at 3 by lra. field. lra. }
        assert (Q : - quad n A (fun i => c * y i) <= m). { apply Hub. exists (fun i => c * y i). split; auto. rewrite nrm_scale. auto. }
        rewrite quad_scale in Q. unfold lam. assert (0 < c * c) by (destruct (Rle_lt_or_eq_dec _ _ (Rle_0_sqr c)); unfold Rsqr in *; nra).
        apply Rmult_le_reg_l with (c * c); auto. replace (c * c * (- m * nrm n y)) with (- m * (c * c * nrm n y)) by ring. rewrite Cc. lra.
      - rewrite <- Nz, Rmult_0_r. assert (Y0 : forall i, (0 <= i < n)%Z -> y i = 0). { intros i Hi. pose proof (S_pos0 0 n (fun i => y i * y i)) as Q. cbv beta in Q. specialize (Q ltac:(intros; apply Rle_0_sqr) (eq_sym Nz) i Hi). destruct (Rmult_integral _ _ Q); auto. }
        rewrite quad_S. rewrite S_zero; [lra|]. intros i Hi. rewrite Y0 by auto. ring. }
    set (B := fun i j => A i j + - lam * dl i j).
    assert (QB : forall y, quad n B y = quad n A y - lam * nrm n y) by (intros y; unfold B; rewrite quad_shift; ring).
    assert (SymB : symmetric n B) by (intros i j Hi Hj; unfold B; rewrite (Sym i j Hi Hj), delta_comm; reflexivity).
    destruct (Z.eq_dec (fst (Rpotrf n B)) 0) as [H0|Ne].
    + exfalso. destruct (pd_below n B ltac:(lia) SymB H0) as (c & Hc & Hq).
      assert (Q : m <= m - c). { apply Hlub. intros r (x & Hx & ->). specialize (Hq x). rewrite QB, Hx in Hq. unfold lam in Hq. lra. } lra.
    + destruct (le_chol _ Rlapack_exact n B ltac:(lia) SymB Ne) as (y & Hy & Hq). rewrite QB in Hq. pose proof (Low y) as Ly. pose proof (nrm_pos n y Hy) as Ny.
      set (b := fun i => S 0 n (fun j => B i j * y j)).
      assert (Q0 : quad n B y = 0) by (rewrite QB; lra).
      assert (Bz : nrm n b = 0).
      { destruct (Rle_lt_or_eq_dec _ _ (nrm_nonneg n b)) as [Bp|]; auto. exfalso. pose proof (Low b) as Qb0. set (Qb := quad n B b). assert (Qb1 : 0 <= Qb) by (unfold Qb; rewrite QB; lra).
        assert (Ex : forall t, 0 <= 2 * t * nrm n b + t * t * Qb).
        { intros t. pose proof (Low (fun i => y i + t * b i)) as L. assert (L' : 0 <= quad n B (fun i => y i + t * b i)) by (rewrite QB; lra). replace (2 * t * nrm n b + t * t * Qb) with (quad n B (fun i => y i + t * b i)); auto.
          transitivity (quad n B y + 2 * t * nrm n b + t * t * Qb); [|rewrite Q0; ring].
          assert (Xb : S 0 n (fun i => y i * S 0 n (fun j => B i j * b j)) = nrm n b).
          { rewrite (S_assoc n n y B b). unfold nrm. apply S_ext. intros j Hj. f_equal. unfold b. apply S_ext. intros i Hi. rewrite (SymB i j Hi Hj). ring. }
          unfold Qb. rewrite !quad_S. rewrite (S_ext 0 n (fun i => (y i + t * b i) * _) (fun i => y i * S 0 n (fun j => B i j * y j) + (t * (y i * S 0 n (fun j => B i j * b j)) + (t * (b i * b i) + t * t * (b i * S 0 n (fun j => B i j * b j)))))).
          2:{ intros i Hi. rewrite (S_ext 0 n (fun j => B i j * (y j + t * b j)) (fun j => B i j * y j + t * (B i j * b j))) by (intros; ring). rewrite S_add, S_mul_l. fold (b i). ring. }
          rewrite !S_add, !S_mul_l, Xb. fold (nrm n b). ring. }
        pose proof (Ex (- (nrm n b / (Qb + 1)))) as Q. assert (Qn : nrm n b * nrm n b * (2 * (Qb + 1) - Qb) <= 0).
        { assert (P2 : 0 < (Qb + 1) * (Qb + 1)) by nra. apply Rmult_le_reg_l with (/ ((Qb + 1) * (Qb + 1))); [apply Rinv_0_lt_compat; auto|]. rewrite Rmult_0_r.
          replace (/ ((Qb + 1) * (Qb + 1)) * (nrm n b * nrm n b * (2 * (Qb + 1) - Qb))) with (- (2 * - (nrm n b / (Qb + 1)) * nrm n b + - (nrm n b / (Qb + 1)) * - (nrm n b / (Qb + 1)) * Qb)) by (field; lra). lra. }
        nra. }
      assert (B0 : forall i, (0 <= i < n)%Z -> b i = 0). { intros i Hi. pose proof (S_pos0 0 n (fun i => b i * b i)) as Q. cbv beta in Q. specialize (Q ltac:(intros; apply Rle_0_sqr) Bz i Hi). destruct (Rmult_integral _ _ Q); auto. }
      exists lam, (fun i => / sqrt (nrm n y) * y i). pose proof (sqrt_lt_R0 _ Ny) as Sq. split; [|split; [|exact Low]].
      * rewrite nrm_scale. rewrite <- (sqrt_sqrt (nrm n y)) at 3 by lra. field. lra.
      * intros i Hi. rewrite (S_ext 0 n _ (fun j => / sqrt (nrm n y) * (A i j * y j))) by (intros; ring). rewrite S_mul_l.
        specialize (B0 i Hi). unfold b, B in B0. rewrite (S_ext 0 n _ (fun j => A i j * y j + - lam * (dl i j * y j))) in B0 by (intros; ring). rewrite S_add, S_mul_l, S_dl_l in B0 by auto.
        replace (S 0 n (fun j => A i j * y j)) with (lam * y i) by lra. ring.
Qed.

(** An orthogonal matrix whose first column is the unit vector u, up to sign. *)
Lemma orth_first n u : (0 < n)%Z -> nrm n u = 1 -> exists Q be, orthogonal (K := Rring) n Q /\ be * be = 1 /\ forall i, (0 <= i < n)%Z -> Q i 0%Z = be * u i.
Proof.
  intros Hn Hu. destruct (house n 0 u ltac:(lia)) as (H1 & H2). set (v := hfull n 0 u) in *. set (t := htau n 0 u) in *.
  pose proof (hrefl_orth n t v H1) as O. set (be := S 0 n (fun l => hrefl t v 0 l * u l)).
  assert (Hs : forall i l, hrefl t v i l = hrefl t v l i) by (intros i l; unfold hrefl; rewrite delta_comm; ring).
  assert (Hi0 : forall i, (0 < i < n)%Z -> S 0 n (fun l => hrefl t v i l * u l) = 0).
  { intros i Hi. rewrite <- (H2 i Hi). unfold hrefl. rewrite (S_ext 0 n _ (fun l => dl i l * u l - t * v i * (v l * u l))) by (intros; ring). rewrite S_sub, S_mul_l, S_dl_l by lia. reflexivity. }
  assert (Qu : forall i, (0 <= i < n)%Z -> S 0 n (fun l => hrefl t v i l * u l) = be * dl i 0).
  { intros i Hi. destruct (Z.eq_dec i 0) as [->|Ne]; [rewrite dl_same; unfold be; ring|]. rewrite Hi0, dl_diff by lia. ring. }
  assert (U : forall i, (0 <= i < n)%Z -> u i = be * hrefl t v i 0).
  { intros i Hi. transitivity (S 0 n (fun k => hrefl t v i k * S 0 n (fun l => hrefl t v k l * u l))).
    - rewrite (S_assoc n n (fun k => hrefl t v i k) (hrefl t v) u). rewrite (S_ext 0 n _ (fun l => dl i l * u l)); [now rewrite S_dl_l|]. intros l Hl. f_equal. destruct O as (_ & O2). rewrite <- (O2 i l Hi Hl). apply S_ext. intros k Hk. cbn. now rewrite (Hs k l).
    - rewrite (S_ext 0 n _ (fun k => be * (hrefl t v i k * dl k 0))) by (intros k Hk; rewrite Qu by auto; ring). rewrite S_mul_l, S_dl_r by lia. reflexivity. }
  exists (hrefl t v), be. split; auto.
  assert (B1 : be * be = 1).
  { transitivity (nrm n u); auto. unfold nrm. rewrite (S_ext 0 n _ (fun i => be * be * (hrefl t v i 0 * hrefl t v i 0))) by (intros i Hi; rewrite (U i Hi); ring). rewrite S_mul_l. destruct O as (O1 & _). pose proof (O1 0%Z 0%Z ltac:(lia) ltac:(lia)) as Q. change (S 0 n (fun i => hrefl t v i 0 * hrefl t v i 0) = dl 0 0) in Q. rewrite Q, dl_same. ring. }
  split; auto. intros i Hi. symmetry. rewrite (U i Hi). rewrite <- Rmult_assoc, B1. apply Rmult_1_l.
Qed.

Definition bdiag (V : Z -> Z -> R) (r c : Z) : R := if (r =? 0)%Z then (if (c =? 0)%Z then 1 else 0) else if (c =? 0)%Z then 0 else V (r - 1)%Z (c - 1)%Z.
Lemma bdiag_00 V : bdiag V 0 0 = 1. Proof. reflexivity. Qed.
Lemma bdiag_0c V c : (0 <= c)%Z -> bdiag V 0 (c + 1) = 0. Proof. intros H. unfold bdiag. cbn [Z.eqb]. destruct (Z.eqb_spec (c + 1) 0); auto; lia. Qed.
Lemma bdiag_r0 V r : (0 <= r)%Z -> bdiag V (r + 1) 0 = 0. Proof. intros H. unfold bdiag. destruct (Z.eqb_spec (r + 1) 0); auto; lia. Qed.
Lemma bdiag_rc V r c : (0 <= r)%Z -> (0 <= c)%Z -> bdiag V (r + 1) (c + 1) = V r c.
Proof. intros H H'. unfold bdiag. destruct (Z.eqb_spec (r + 1) 0), (Z.eqb_spec (c + 1) 0); try lia. f_equal; lia. Qed.
Lemma idx_cases n i : (0 <= i < n + 1)%Z -> i = 0%Z \/ exists k, (0 <= k < n)%Z /\ i = (k + 1)%Z.
Proof. intros H. destruct (Z.eq_dec i 0); auto. right. exists (i - 1)%Z. lia. Qed.
Lemma dl_succ i j : dl (i + 1) (j + 1) = dl i j.
Proof. unfold delta. destruct (Z.eqb_spec (i + 1) (j + 1)), (Z.eqb_spec i j); auto; lia. Qed.
Lemma bdiag_orth n V : (0 <= n)%Z -> orthogonal (K := Rring) n V -> orthogonal (K := Rring) (n + 1) (bdiag V).
Proof.
  intros Hn (O1 & O2). split; intros i j Hi Hj.
  - change (S 0 (n + 1) (fun l => bdiag V l i * bdiag V l j) = dl i j). rewrite S_first by auto.
    destruct (idx_cases n i Hi) as [->|(a & Ha & ->)], (idx_cases n j Hj) as [->|(b & Hb & ->)].
    + rewrite bdiag_00, S_zero, dl_same by (intros; rewrite bdiag_r0 by lia; ring). ring.
    + rewrite bdiag_0c, S_zero, dl_diff by (try lia; intros; rewrite bdiag_r0 by lia; ring). ring.
    + rewrite bdiag_0c, S_zero, dl_diff by (try lia; intros; rewrite (bdiag_r0 V i) by lia; ring). ring.
    + rewrite bdiag_0c, dl_succ, <- (O1 a b) by lia. rewrite Rmult_0_l, Rplus_0_l. apply S_ext. intros l Hl. now rewrite !bdiag_rc by lia.
  - change (S 0 (n + 1) (fun l => bdiag V i l * bdiag V j l) = dl i j). rewrite S_first by auto.
    destruct (idx_cases n i Hi) as [->|(a & Ha & ->)], (idx_cases n j Hj) as [->|(b & Hb & ->)].
    + rewrite bdiag_00, S_zero, dl_same by (intros; rewrite bdiag_0c by lia; ring). ring.
    + rewrite bdiag_r0, S_zero, dl_diff by (try lia; intros; rewrite bdiag_0c by lia; ring). ring.
    + rewrite bdiag_r0, S_zero, dl_diff by (try lia; intros; rewrite (bdiag_0c V i) by lia; ring). ring.
    + rewrite bdiag_r0, dl_succ, <- (O2 a b) by lia. rewrite Rmult_0_l, Rplus_0_l. apply S_ext. intros l Hl. now rewrite !bdiag_rc by lia.
Qed.

Theorem spectral n : (0 <= n)%Z -> forall A, symmetric n A -> exists V s, eig_ok n A V s.
Proof.
  intros Hn. pattern n. apply natlike_ind; auto.
  - intros A _. exists (fun _ _ => 0), (fun _ => 0). split; [split; intros; lia|]. split; intros; lia.
  - clear n Hn. intros n Hn IH A Sym. unfold Z.succ in *.
    destruct (eig_min (n + 1) A ltac:(lia) Sym) as (lam & u & Hu & Au & Low).
    destruct (orth_first (n + 1) u ltac:(lia) Hu) as (Q & be & OQ & Hbe & Q0).
    set (N := (n + 1)%Z) in *.
    assert (AQ0 : forall i, (0 <= i < N)%Z -> S 0 N (fun j => A i j * Q j 0%Z) = lam * Q i 0%Z).
    { intros i Hi. rewrite (S_ext 0 N _ (fun j => be * (A i j * u j))) by (intros j Hj; rewrite Q0 by auto; ring). rewrite S_mul_l, Au, Q0 by auto. ring. }
    set (AQ := fun l j => S 0 N (fun k => A l k * Q k j)). set (C := fun i j => S 0 N (fun l => Q l i * AQ l j)).
    assert (Csym : forall i j, C i j = C j i).
    { intros i j. unfold C, AQ. rewrite (S_assoc N N (fun l => Q l i) A (fun k => Q k j)). apply S_ext. intros k Hk. rewrite Rmult_comm. f_equal. apply S_ext. intros l Hl. rewrite (Sym k l Hk Hl). apply Rmult_comm. }
    assert (Ci0 : forall i, (0 <= i < N)%Z -> C i 0%Z = lam * dl i 0).
    { intros i Hi. unfold C, AQ. rewrite (S_ext 0 N _ (fun l => lam * (Q l i * Q l 0%Z))) by (intros l Hl; rewrite AQ0 by auto; ring). rewrite S_mul_l. f_equal. destruct OQ as (O1 & _). apply (O1 i 0%Z Hi). unfold N; lia. }
    destruct (IH (fun i j => C (i + 1) (j + 1))%Z) as (V & s & (OV & EV & As)). { intros i j _ _. apply Csym. }
    set (D := bdiag V). pose proof (bdiag_orth n V Hn OV) as OD. fold N in OD. fold D in OD.
    set (VV := fun r c => S 0 N (fun l => Q r l * D l c)). pose proof (orth_mul N Q D OQ OD) as OVV. fold VV in OVV.
    set (ss := fun k => if (k =? 0)%Z then lam else s (k - 1)%Z).
    assert (CD : forall i k, (0 <= i < N)%Z -> (0 <= k < N)%Z -> S 0 N (fun l => C i l * D l k) = D i k * ss k).
    { intros i k Hi Hk. unfold N. rewrite S_first by auto. destruct (idx_cases n i Hi) as [->|(a & Ha & ->)], (idx_cases n k Hk) as [->|(b & Hb & ->)].
      - unfold D. rewrite bdiag_00, S_zero by (intros; rewrite bdiag_r0 by lia; ring). rewrite Ci0, dl_same by (unfold N; lia). change (ss 0%Z) with lam. ring.
      - unfold D. rewrite bdiag_0c by lia. rewrite S_zero; [ring|]. intros l Hl. rewrite Csym, Ci0, dl_diff by (unfold N; lia). ring.
      - unfold D. rewrite bdiag_00, bdiag_r0, Ci0, dl_diff, S_zero by (unfold N; try lia; intros; rewrite bdiag_r0 by lia; ring). ring.
      - unfold D. rewrite bdiag_0c by lia. rewrite Rmult_0_r, Rplus_0_l. unfold ss. destruct (Z.eqb_spec (b + 1) 0); [lia|]. replace (b + 1 - 1)%Z with b by lia. rewrite bdiag_rc by lia. rewrite <- (EV a b Ha Hb). apply S_ext. intros l Hl. now rewrite bdiag_rc by lia. }
    assert (EVV : forall i k, (0 <= i < N)%Z -> (0 <= k < N)%Z -> S 0 N (fun j => A i j * VV j k) = VV i k * ss k).
    { intros i k Hi Hk. transitivity (S 0 N (fun l => AQ i l * D l k)); [unfold VV, AQ; exact (S_assoc N N (A i) Q (fun l => D l k))|].
      assert (E1 : forall l, AQ i l = S 0 N (fun p => Q i p * C p l)).
      { intros l. unfold C. rewrite (S_assoc N N (fun p => Q i p) (fun p q => Q q p) (fun q => AQ q l)). rewrite (S_ext 0 N _ (fun q => dl i q * AQ q l)); [now rewrite S_dl_l|]. intros q Hq. f_equal. destruct OQ as (_ & O2). apply (O2 i q Hi Hq). }
      rewrite (S_ext 0 N _ (fun l => S 0 N (fun p => Q i p * C p l) * D l k)) by (intros l Hl; rewrite E1; reflexivity).
      transitivity (S 0 N (fun p => Q i p * S 0 N (fun l => C p l * D l k))); [symmetry; exact (S_assoc N N (fun p => Q i p) C (fun l => D l k))|].
      unfold VV. rewrite <- S_mul_r. apply S_ext. intros p Hp. rewrite CD by auto. ring. }
    exists VV, ss. split; [exact OVV|]. split; [exact EVV|].
    intros k l Hkl Hl. unfold ss. destruct (Z.eqb_spec k 0) as [->|Nk], (Z.eqb_spec l 0) as [->|Nl]; try lia; [lra| |].
    + pose proof (Low (fun r => VV r l)) as Ll. destruct OVV as (O1 & _). pose proof (O1 l l ltac:(unfold N; lia) ltac:(unfold N; lia)) as U1. change (nrm N (fun r => VV r l) = dl l l) in U1. rewrite dl_same in U1.
      rewrite quad_S in Ll. rewrite (S_ext 0 N _ (fun r => ss l * (VV r l * VV r l))) in Ll by (intros r Hr; rewrite EVV by (unfold N in *; lia); ring). rewrite S_mul_l in Ll. fold (nrm N (fun r => VV r l)) in Ll. rewrite U1 in Ll. unfold ss in Ll. destruct (Z.eqb_spec l 0); [lia|]. lra.
    + apply As; unfold N in *; lia.
Qed.
