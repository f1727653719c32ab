(** Conjugate gradients in exact arithmetic: orthogonality, no breakdown, and
    termination after at most n steps. *)
From Coq Require Import ZArith QArith List Lia Bool Permutation Reals Qreals Lra.
From Verif Require Import Base CRing FNum Spec_ID Spec_PCG Proof_IDMath.
Import ListNotations.
Open Scope R_scope.

(** ** More than n vectors of length n are linearly dependent *)
Notation lsumR f l := (@lsum Rring _ f l).
Ltac toR := match goal with |- @eq _ ?a ?b => change (@eq R a b) end.
Lemma lsumR_cons {A} (f : A -> R) x l : lsumR f (x :: l) = f x + lsumR f l. Proof. reflexivity. Qed.
Lemma lsumR_ext {A} (f g : A -> R) l : (forall x, In x l -> f x = g x) -> lsumR f l = lsumR g l.
Proof. apply (@lsum_ext Rring). Qed.
Lemma lsumR_add {A} (f g : A -> R) l : lsumR (fun x => f x + g x) l = lsumR f l + lsumR g l.
Proof. apply (@lsum_add Rring). Qed.
Lemma lsumR_mul_l {A} c (f : A -> R) l : lsumR (fun x => c * f x) l = c * lsumR f l.
Proof. apply (@lsum_mul_l Rring). Qed.
Lemma lsumR_mul_r {A} c (f : A -> R) l : lsumR (fun x => f x * c) l = lsumR f l * c.
Proof. apply (@lsum_mul_r Rring). Qed.
Lemma lsumR_zero {A} (f : A -> R) l : (forall x, In x l -> f x = 0) -> lsumR f l = 0.
Proof. apply (@lsum_zero Rring). Qed.

Lemma dependent (n : nat) : forall (v : nat -> Z -> R) (L : list nat), NoDup L -> (n < length L)%nat ->
  exists c : nat -> R, (exists i, In i L /\ c i <> 0) /\ forall t, (0 <= t < Z.of_nat n)%Z -> lsumR (fun i => c i * v i t) L = 0.
Proof.
  induction n as [|n IH]; intros v L ND HL.
  - destruct L as [|i L]; [cbn in HL; lia|]. exists (fun _ => 1). split; [exists i; split; [now left|lra]|]. intros t Ht. lia.
  - assert (D : (exists q, In q L /\ v q (Z.of_nat n) <> 0) \/ forall q, In q L -> v q (Z.of_nat n) = 0).
    { clear -L. induction L as [|a L IH]; [right; intros q []|]. destruct IH as [(q & Hq & E)|H]; [left; exists q; split; [now right|auto]|].
      destruct (Req_EM_T (v a (Z.of_nat n)) 0) as [E|E]; [right|left; exists a; split; [now left|auto]]. intros q [->|Hq]; auto. }
    destruct D as [(q & Hq & Eq)|H0].
    + destruct (in_split q L Hq) as (l1 & l2 & ->). assert (P : Permutation (l1 ++ q :: l2) (q :: l1 ++ l2)) by (symmetry; apply Permutation_middle).
      assert (ND' := Permutation_NoDup P ND). inversion ND' as [|? ? Nq ND2]; subst.
      pose (w := fun i t => v i t - v i (Z.of_nat n) / v q (Z.of_nat n) * v q t).
      destruct (IH w (l1 ++ l2) ND2) as (d & (i & Hi & Di) & Hd). { rewrite app_length in *. cbn in HL. lia. }
      set (S0 := lsumR (fun i => d i * v i (Z.of_nat n)) (l1 ++ l2)).
      exists (fun i => if Nat.eqb i q then - S0 / v q (Z.of_nat n) else d i). split.
      * exists i. split; [apply (Permutation_in _ (Permutation_sym P)); now right|]. destruct (Nat.eqb_spec i q); [subst; contradiction|auto].
      * intros t Ht. rewrite (@lsum_perm Rring _ _ _ _ P), lsumR_cons, Nat.eqb_refl.
        rewrite (lsumR_ext _ (fun i => d i * v i t)). 2:{ intros j Hj. destruct (Nat.eqb_spec j q); [subst; contradiction|auto]. }
        destruct (Z.eq_dec t (Z.of_nat n)) as [->|Nt].
        -- fold S0. toR. field. auto.
        -- assert (E := Hd t ltac:(lia)). unfold w in E.
           rewrite (lsumR_ext _ (fun i => d i * v i t + (- v q t / v q (Z.of_nat n)) * (d i * v i (Z.of_nat n)))) in E by (intros; field; auto).
           rewrite lsumR_add, lsumR_mul_l in E. fold S0 in E. transitivity (lsumR (fun x => d x * v x t) (l1 ++ l2) + - v q t / v q (Z.of_nat n) * S0); [toR; field; auto|exact E].
    + destruct (IH v L ND ltac:(lia)) as (c & Hc & Hs). exists c. split; auto. intros t Ht. destruct (Z.eq_dec t (Z.of_nat n)) as [->|Nt]; [|apply Hs; lia].
      apply lsumR_zero. intros i Hi. rewrite H0 by auto. lra.
Qed.

Section CG.
Variable n : Z.
Hypothesis Hn : (0 <= n)%Z.
Variables Af Wf : (Z -> R) -> Z -> R.
Hypothesis Asym : forall u v, ip n u (Af v) = ip n v (Af u).
Hypothesis Apos : forall v, nonzero n v -> 0 < ip n v (Af v).
Hypothesis Wsym : forall u v, ip n u (Wf v) = ip n v (Wf u).
Hypothesis Wpos : forall v, nonzero n v -> 0 < ip n v (Wf v).

Lemma ip_zero_l u v : (forall k, (0 <= k < n)%Z -> u k = 0) -> ip n u v = 0.
Proof. intros H. apply sumR_zero. intros k Hk. rewrite H by auto. lra. Qed.
Lemma ip_pos_nonzero u v : ip n u v <> 0 -> nonzero n u.
Proof.
  intros H. assert (D : (exists k, (0 <= k < n)%Z /\ u k <> 0) \/ forall k, (0 <= k < n)%Z -> u k = 0).
  { clear H v. replace n with (Z.of_nat (Z.to_nat n)) by lia. induction (Z.to_nat n) as [|m IH]; [right; intros; lia|].
    destruct IH as [(k & Hk & E)|H]; [left; exists k; split; [lia|auto]|].
    destruct (Req_EM_T (u (Z.of_nat m)) 0) as [E|E]; [right|left; exists (Z.of_nat m); split; [lia|auto]]. intros k Hk.
    destruct (Z.eq_dec k (Z.of_nat m)); [subst; auto|apply H; lia]. }
  destruct D as [D|D]; auto. exfalso. apply H. now apply ip_zero_l.
Qed.
Lemma ip_add_l x y z a : ip n (fun k => x k + a * y k) z = ip n x z + a * ip n y z.
Proof. unfold ip. rewrite <- sumR_mul_l, <- sumR_add. apply sumR_ext. intros. lra. Qed.
Lemma ip_add_r x y z a : ip n z (fun k => x k + a * y k) = ip n z x + a * ip n z y.
Proof. rewrite ip_sym, ip_add_l. now rewrite (ip_sym n x), (ip_sym n y). Qed.

Variables x0 r0 : Z -> R.
Record cgst := CG { c_x : Z -> R; c_r : Z -> R; c_p : Z -> R; c_rho : R }.
Definition dir (k : nat) (s : cgst) : Z -> R :=
  let z := Wf (c_r s) in
  match k with O => z | Datatypes.S _ => fun i => z i + ip n (c_r s) z / c_rho s * c_p s i end.
Fixpoint cg (k : nat) : cgst :=
  match k with
  | O => CG x0 r0 x0 1
  | Datatypes.S k =>
      let s := cg k in
      let p := dir k s in
      let rho := ip n (c_r s) (Wf (c_r s)) in
      let al := rho / ip n p (Af p) in
      CG (fun i => c_x s i + al * p i) (fun i => c_r s i - al * Af p i) p rho
  end.
Definition X k := c_x (cg k).
Definition Rv k := c_r (cg k).
Definition P k := dir k (cg k).
Definition rho k := ip n (Rv k) (Wf (Rv k)).
Definition al k := rho k / ip n (P k) (Af (P k)).
Lemma Rv_S k : Rv (S k) = fun i => Rv k i - al k * Af (P k) i. Proof. reflexivity. Qed.
Lemma X_S k : X (S k) = fun i => X k i + al k * P k i. Proof. reflexivity. Qed.
Lemma P_0 : P 0 = Wf (Rv 0). Proof. reflexivity. Qed.
Lemma P_S k : P (S k) = fun i => Wf (Rv (S k)) i + rho (S k) / rho k * P k i. Proof. reflexivity. Qed.

Record orth (k : nat) : Prop := Orth {
  o_rw : forall i j, (i < j <= k)%nat -> ip n (Rv j) (Wf (Rv i)) = 0;
  o_pa : forall i j, (i < j < k)%nat -> ip n (P j) (Af (P i)) = 0;
  o_rp : forall j, (j < k)%nat -> ip n (Rv k) (P j) = 0
}.

Lemma rho_pos k : nonzero n (Rv k) -> 0 < rho k. Proof. apply Wpos. Qed.
(** p_k . r_k = rho_k. *)
Lemma p_dot_r k : orth k -> ip n (P k) (Rv k) = rho k.
Proof.
  intros [O1 O2 O3]. destruct k as [|k].
  - rewrite P_0, ip_sym. reflexivity.
  - rewrite P_S, ip_add_l, (ip_sym n (P k)), (O3 k) by lia. rewrite (ip_sym n (Wf _)). unfold rho. lra.
Qed.
Lemma pap_pos k : orth k -> nonzero n (Rv k) -> 0 < ip n (P k) (Af (P k)).
Proof. intros O H. apply Apos. apply (ip_pos_nonzero _ (Rv k)). rewrite p_dot_r by auto. apply rho_pos in H. lra. Qed.
(** alpha_j A p_j = r_j - r_{j+1}. *)
Lemma ap_eq j i : al j * Af (P j) i = Rv j i - Rv (S j) i.
Proof. rewrite Rv_S. lra. Qed.

Lemma orth_all k : (forall j, (j < k)%nat -> nonzero n (Rv j)) -> orth k /\ forall j, (j < k)%nat -> 0 < ip n (P j) (Af (P j)).
Proof.
  induction k as [|k IH]; intros NZ.
  - split; [constructor; intros; lia|intros; lia].
  - destruct IH as [O Hpap]; [intros; apply NZ; lia|]. assert (NZk := NZ k ltac:(lia)). assert (Hp := pap_pos k O NZk).
    assert (Hpr := p_dot_r k O). assert (Hrho := rho_pos k NZk).
    assert (Hal : forall j, (j <= k)%nat -> 0 < al j).
    { intros j Hj. unfold al. apply Rdiv_lt_0_compat; [apply rho_pos, NZ; lia|]. destruct (Nat.eq_dec j k); [subst; auto|apply Hpap; lia]. }
    destruct O as [O1 O2 O3].
    assert (Hpa : forall j, (j < k)%nat -> ip n (P k) (Af (P j)) = 0).
    { intros j Hj. destruct k as [|k']; [lia|]. rewrite P_S, ip_add_l.
      assert (E : al j * ip n (Wf (Rv (S k'))) (Af (P j)) = ip n (Rv j) (Wf (Rv (S k'))) - ip n (Rv (S j)) (Wf (Rv (S k')))).
      { unfold ip. rewrite <- sumR_mul_l, <- sumR_sub. apply sumR_ext. intros i _. transitivity (Wf (Rv (S k')) i * (al j * Af (P j) i)); [cbn; lra|]. rewrite ap_eq. cbn. lra. }
      assert (Ej : ip n (Rv j) (Wf (Rv (S k'))) = 0) by (rewrite Wsym; apply O1; lia). rewrite Ej in E.
      assert (A := Hal j ltac:(lia)).
      destruct (Nat.eq_dec j k') as [->|Nj].
      - fold (rho (S k')) in E. apply (Rmult_eq_reg_l (al k')); [|lra]. rewrite Rmult_plus_distr_l, E. unfold al. field.
        assert (H1 := Hpap k' ltac:(lia)). assert (H2 := rho_pos k' (NZ k' ltac:(lia))). split; lra.
      - rewrite (O2 j k') by lia. assert (E2 : ip n (Rv (S j)) (Wf (Rv (S k'))) = 0) by (rewrite Wsym; apply O1; lia). rewrite E2 in E.
        apply (Rmult_eq_reg_l (al j)); [|lra]. rewrite Rmult_plus_distr_l, E. lra. }
    assert (N3 : forall j, (j < S k)%nat -> ip n (Rv (S k)) (P j) = 0).
    { intros j Hj. rewrite Rv_S, ip_sub_l, (ip_sym n (Af _)). destruct (Nat.eq_dec j k) as [->|Nj].
      - rewrite (ip_sym n (Rv k)), Hpr. unfold al. field. lra.
      - rewrite O3 by lia. rewrite Asym, Hpa by lia. lra. }
    split.
    + constructor; auto.
      * intros i j Hij. destruct (Nat.eq_dec j (S k)) as [->|Nj]; [|apply O1; lia].
        destruct i as [|i]; [rewrite <- P_0; apply N3; lia|].
        assert (E : ip n (Rv (S k)) (P (S i)) = 0) by (apply N3; lia). rewrite P_S, ip_add_r, (N3 i) in E by lia. lra.
      * intros i j Hij. destruct (Nat.eq_dec j k) as [->|Nj]; [apply Hpa; lia|apply O2; lia].
    + intros j Hj. destruct (Nat.eq_dec j k); [subst; auto|apply Hpap; lia].
Qed.

(** The residual cannot stay nonzero for n + 1 turns. *)
Lemma cg_terminates : ~ (forall j, (j <= Z.to_nat n)%nat -> nonzero n (Rv j)).
Proof.
  intros NZ. destruct (orth_all (Z.to_nat n)) as [[O1 _ _] _]; [intros; apply NZ; lia|].
  destruct (dependent (Z.to_nat n) Rv (seq 0 (S (Z.to_nat n))) (seq_NoDup _ _)) as (c & (i & Hi & Ci) & Hc); [rewrite seq_length; lia|].
  apply in_seq in Hi.
  assert (E : lsumR (fun j => c j * ip n (Rv j) (Wf (Rv i))) (seq 0 (S (Z.to_nat n))) = 0).
  { transitivity (sumR 0%Z n (fun t => lsumR (fun j => c j * Rv j t) (seq 0 (S (Z.to_nat n))) * Wf (Rv i) t)).
    - transitivity (lsumR (fun j => lsumR (fun t => c j * Rv j t * Wf (Rv i) t) (zrange 0 n)) (seq 0 (S (Z.to_nat n)))).
      + apply lsumR_ext. intros j _. unfold ip, rsum. rewrite <- lsumR_mul_l. apply lsumR_ext. intros t _. cbn. lra.
      + rewrite (@lsum_swap Rring). apply lsumR_ext. intros t _. cbn beta. rewrite <- lsumR_mul_r. reflexivity.
    - apply sumR_zero. intros t Ht. rewrite Hc by lia. lra. }
  assert (E2 : lsumR (fun j => c j * ip n (Rv j) (Wf (Rv i))) (seq 0 (S (Z.to_nat n))) = c i * rho i).
  { assert (In_i : In i (seq 0 (S (Z.to_nat n)))) by (apply in_seq; lia). destruct (in_split _ _ In_i) as (l1 & l2 & El).
    assert (ND := seq_NoDup (S (Z.to_nat n)) 0). rewrite El in *. rewrite (@lsum_perm Rring _ _ _ (i :: l1 ++ l2)) by (symmetry; apply Permutation_middle).
    apply (Permutation_NoDup (Permutation_sym (Permutation_middle l1 l2 i))) in ND. inversion ND as [|? ? Ni _]; subst.
    rewrite lsumR_cons. rewrite lsumR_zero; [cbn; fold (rho i); lra|]. intros j Hj.
    assert (Hji : j <> i) by congruence. assert (Hjn : (j <= Z.to_nat n)%nat). { assert (In j (seq 0 (S (Z.to_nat n)))) by (rewrite El; apply in_app_iff; apply in_app_iff in Hj as [H|H]; [now left|right; now right]). apply in_seq in H. lia. }
    assert (Z0 : ip n (Rv j) (Wf (Rv i)) = 0). { destruct (Nat.lt_ge_cases i j); [apply O1; lia|]. rewrite Wsym. apply O1. lia. }
    rewrite Z0. lra. }
  rewrite E2 in E. assert (H := rho_pos i (NZ i ltac:(lia))). apply Rmult_integral in E. lra.
Qed.

(** Differences of iterates are orthogonal to the newest residual. *)
Lemma x_diff_orth k : orth k -> forall j, (j <= k)%nat -> ip n (fun i => X j i - X k i) (Rv k) = 0.
Proof.
  intros [_ _ O3] j Hj. remember (k - j)%nat as d eqn:Ed. revert j Hj Ed. induction d as [|d IH]; intros j Hj Ed.
  - replace j with k by lia. apply ip_zero_l. intros; lra.
  - transitivity (ip n (fun i => (X (S j) i - X k i) - al j * P j i) (Rv k)); [apply ip_ext; intros; [rewrite X_S; lra|auto]|].
    rewrite ip_sub_l, (IH (S j)) by lia. rewrite (ip_sym n (P j)), O3 by lia. lra.
Qed.
End CG.
