(** FSAI over the reals: positive definite systems do not fail; full neighbour
    lists give the exact inverse. *)
From Coq Require Import ZArith QArith List Lia Bool Permutation Reals Lra.
From Verif Require Import Base Mem Num CRing FNum Spec_Utils Proof_Utils Proof_Build Spec_Lapack Spec_SPD Model_FSAI Spec_FSAI Proof_FSAIKnn Proof_FSAICsr Proof_FSAIApply Proof_FSAIRow Proof_FSAITop.
Import ListNotations.
Open Scope Z_scope.

Section Alg.
Context {K : cring}.
Add Ring Kring : (cth K).
Local Open Scope ring_K.
Variable n : Z.

(** A lower triangular matrix with invertible diagonal is injective. *)
Lemma tri_inj (G : Z -> Z -> K) (x : Z -> K) : (forall i j, 0 <= i < n -> 0 <= j < n -> i < j -> G i j = c0) -> (forall i, 0 <= i < n -> exists s, s * G i i = c1) ->
  (forall i, 0 <= i < n -> rsum 0 n (fun j => G i j * x j) = c0) -> forall i, 0 <= i < n -> x i = c0.
Proof.
  intros HT Hd H.
  assert (HH : forall k, 0 <= k -> forall i, 0 <= i < k -> i < n -> x i = c0).
  { intros k Hk. pattern k. apply natlike_ind; [| |exact Hk]; [intros; lia|]. clear k Hk. intros k Hk IH i Hi Hin. unfold Z.succ in Hi.
    destruct (Z.eq_dec i k) as [->|]; [|apply IH; lia]. specialize (H k ltac:(lia)). destruct (Hd k ltac:(lia)) as (s & Es).
    rewrite (rsum_only 0 n _ k) in H; [|lia|intros j Hj Hne; destruct (Z.lt_ge_cases j k); [rewrite IH by lia; ring|rewrite HT by lia; ring]].
    transitivity (s * G k k * x k); [rewrite Es; ring|]. rewrite <- (Radd_0_l (cth K) (s * G k k * x k)). transitivity (s * (G k k * x k)); [ring|]. rewrite H. ring. }
  intros i Hi. apply (HH n); lia.
Qed.

(** With all earlier points as neighbours, G S G^T is the identity and G^T G the
    inverse of S. *)
Lemma fsai_full_inverse (S : Z -> Z -> K) nb G : (forall r c, 0 <= r < n -> 0 <= c < n -> S r c = S c r) ->
  (forall i, 0 <= i < n -> forall j, In j (nb i) <-> 0 <= j <= i) -> fsai_rows n S nb G ->
  forall r c, 0 <= r < n -> 0 <= c < n -> rsum 0 n (fun j => S r j * rsum 0 n (fun i => G i j * G i c)) = delta r c.
Proof.
  intros Sy Hnb HG.
  set (H := fun r i => rsum 0 n (fun j => S r j * G i j)).
  assert (HT : forall i j, 0 <= i < n -> 0 <= j < n -> i < j -> G i j = c0).
  { intros i j Hi Hj Hl. destruct (HG i Hi) as (G1 & _). apply G1. rewrite Hnb by auto. lia. }
  assert (H0 : forall r i, 0 <= i < n -> 0 <= r < i -> H r i = c0).
  { intros r i Hi Hr. destruct (HG i Hi) as (_ & G2 & _). apply G2; [|lia]. apply Hnb; auto. lia. }
  assert (Hdd : forall i, 0 <= i < n -> G i i * H i i = c1).
  { intros i Hi. destruct (HG i Hi) as (_ & _ & G3). fold (H i i) in G3. rewrite (rsum_only 0 n _ i) in G3; auto.
    intros r Hr Hne. fold (H r i). destruct (Z.lt_ge_cases r i); [rewrite H0 by lia; ring|rewrite HT by lia; ring]. }
  assert (Hup : forall i k, 0 <= i < n -> 0 <= k < n -> i <= k -> rsum 0 n (fun r => G i r * H r k) = delta i k).
  { intros i k Hi Hk Hle. rewrite (rsum_only 0 n _ i); auto.
    - unfold delta. destruct (Z.eqb_spec i k) as [->|]; auto. rewrite H0 by lia. ring.
    - intros r Hr Hne. destruct (Z.lt_ge_cases r i); [rewrite H0 by lia; ring|rewrite HT by lia; ring]. }
  assert (Hsy : forall i k, 0 <= i < n -> 0 <= k < n -> rsum 0 n (fun r => G i r * H r k) = rsum 0 n (fun r => G k r * H r i)).
  { intros i k Hi Hk. unfold H. rewrite (rsum_ext 0 n _ (fun r => rsum 0 n (fun j => G i r * (S r j * G k j)))) by (intros; now rewrite rsum_mul_l).
    rewrite (rsum_swap 0 n 0 n). apply rsum_ext. intros j Hj. rewrite <- rsum_mul_l. apply rsum_ext. intros r Hr. rewrite (Sy r j) by auto. ring. }
  assert (Hid : forall i k, 0 <= i < n -> 0 <= k < n -> rsum 0 n (fun r => G i r * H r k) = delta i k).
  { intros i k Hi Hk. destruct (Z.le_gt_cases i k); [auto|]. rewrite Hsy, Hup by lia. unfold delta. now rewrite Z.eqb_sym. }
  intros r c Hr Hc.
  assert (E : rsum 0 n (fun j => S r j * rsum 0 n (fun i => G i j * G i c)) = rsum 0 n (fun i => H r i * G i c)).
  { rewrite (rsum_ext 0 n _ (fun j => rsum 0 n (fun i => S r j * (G i j * G i c)))) by (intros; now rewrite rsum_mul_l).
    rewrite (rsum_swap 0 n 0 n). apply rsum_ext. intros i Hi. unfold H. rewrite <- rsum_mul_r. apply rsum_ext. intros; ring. }
  rewrite E. clear E.
  assert (Z0 : rsum 0 n (fun i => H r i * G i c) - delta r c = c0).
  { apply (tri_inj G (fun r => rsum 0 n (fun i => H r i * G i c) - delta r c)); auto.
    - intros i Hi. exists (H i i). rewrite <- (Hdd i Hi). ring.
    - intros i Hi. rewrite (rsum_ext 0 n _ (fun j => rsum 0 n (fun k => G i j * H j k * G k c) + (c0 - G i j * delta j c))).
      + rewrite rsum_add, (rsum_swap 0 n 0 n).
        rewrite (rsum_ext 0 n _ (fun k => if (k =? i)%Z then G k c else c0)).
        * rewrite (rsum_delta 0 n i (fun k => G k c)), (proj2 (Z.leb_le _ _)), (proj2 (Z.ltb_lt _ _)) by lia. cbn [andb].
          rewrite (rsum_only 0 n (fun j => c0 - G i j * delta j c) c); auto.
          -- unfold delta. rewrite Z.eqb_refl. ring.
          -- intros j Hj Hne. unfold delta. destruct (Z.eqb_spec j c); [lia|]. ring.
        * intros k Hk. rewrite rsum_mul_r, Hid by auto. unfold delta. rewrite (Z.eqb_sym k i). destruct (i =? k)%Z; ring.
      + intros j Hj. rewrite (rsum_ext 0 n (fun k => G i j * H j k * G k c) (fun k => G i j * (H j k * G k c))) by (intros; ring). rewrite rsum_mul_l. ring. }
  transitivity (rsum 0 n (fun i => H r i * G i c) - delta r c + delta r c); [ring|]. rewrite Z0. ring.
Qed.
End Alg.

(** 1 / DSQRT(x). *)
Definition Rrsq (x : R) : option R := if Rlt_dec 0 x then Some (/ sqrt x)%R else None.
Lemma Rrsq_ok t s : Rrsq t = Some s -> (s * s * t = 1)%R.
Proof.
  unfold Rrsq. destruct (Rlt_dec 0 t) as [H|]; [|discriminate]. intros E. injection E as <-. rewrite <- (sqrt_sqrt t) at 3 by lra. pose proof (sqrt_lt_R0 t H). field. lra.
Qed.

Lemma classic_zero (c : Z) (y : Z -> R) : notzero c y \/ forall b, 0 <= b < c -> y b = 0%R.
Proof.
  destruct (Z.le_gt_cases 0 c) as [Hc|Hc]; [|right; intros; lia]. pattern c. apply natlike_ind; [| |exact Hc].
  - right. intros; lia.
  - intros k Hk [(i & Hi & Hy)|Hz]; [left; exists i; split; [lia|auto]|]. destruct (Req_dec (y k) 0) as [E|N].
    + right. intros b Hb. destruct (Z.eq_dec b k) as [->|]; auto. apply Hz. lia.
    + left. exists k. split; [lia|auto].
Qed.

Section Real.
Context {F : num}.
Variable kern : list F -> list F -> Z -> Z -> Rring.
Variable la : lapack Rring.
Hypothesis LE : lapack_exact la.
Variables (m n dim : Z) (X : Z -> Z -> F) (n1 : Z) (Pf : Z -> Z -> R) (mu : R).
Hypothesis Hsym : forall r c, 0 <= r < n -> 0 <= c < n -> kern (pt_of dim X r) (pt_of dim X c) 0 0 = kern (pt_of dim X c) (pt_of dim X r) 0 0.
Let S : Z -> Z -> R := schur (K := Rring) kern dim X n1 Pf mu.

Lemma quad_restrict (nb : list Z) (y : Z -> R) : NoDup nb -> (forall j, In j nb -> 0 <= j < n) ->
  quad n S (sp_entry (K := Rring) (fun _ => zlen nb) (fun _ => nthz nb) (fun _ => y) 0) = quad (zlen nb) (fun a b => S (nthz nb a) (nthz nb b)) y.
Proof.
  intros Nd Hr. set (Y := sp_entry (K := Rring) (fun _ => zlen nb) (fun _ => nthz nb) (fun _ => y) 0).
  assert (Hin : forall a, 0 <= a < zlen nb -> 0 <= nthz nb a < n) by (intros a Ha; apply Hr; eapply getz_In; apply getz_nthz; exact Ha).
  unfold quad.
  rewrite (rsum_ext (K := Rring) 0 n _ (fun i => rsum (K := Rring) 0 n (fun j => S i j * Y j)%R * Y i)%R).
  2:{ intros i Hi. rewrite <- (rsum_mul_r (K := Rring)). apply rsum_ext. intros j Hj. cbn. ring. }
  refine (eq_trans (sp_row_sum (K := Rring) n (fun _ => zlen nb) (fun _ => nthz nb) (fun _ => y) (fun i => rsum (K := Rring) 0 n (fun j => S i j * Y j)%R) 0 Hin) _).
  apply rsum_ext. intros a Ha. refine (eq_trans (f_equal (fun t => cmul (c := Rring) t (y a)) (sp_row_sum (K := Rring) n (fun _ => zlen nb) (fun _ => nthz nb) (fun _ => y) (fun j => S (nthz nb a) j) 0 Hin)) _).
  rewrite <- (rsum_mul_r (K := Rring)). apply rsum_ext. intros b Hb. cbn. ring.
Qed.

Lemma pd_restrict (nb : list Z) : NoDup nb -> (forall j, In j nb -> 0 <= j < n) -> pos_def n S -> pos_def (zlen nb) (fun a b => S (nthz nb a) (nthz nb b)).
Proof.
  intros Nd Hr PD y (a & Ha & Hy). rewrite <- quad_restrict by auto. apply PD. pose proof (getz_nthz _ _ Ha) as Ga. exists (nthz nb a). split; [apply Hr; eapply getz_In; eauto|].
  unfold sp_entry. rewrite (rsum_only (K := Rring) 0 (zlen nb) _ a); auto.
  - now rewrite Z.eqb_refl.
  - intros b Hb Hne. destruct (Z.eqb_spec (nthz nb b) (nthz nb a)) as [E|]; auto. destruct Hne. eapply NoDup_getz; [exact Nd| |exact Ga]. rewrite <- E. apply getz_nthz. exact Hb.
Qed.

Lemma local_ok_pd (nb : Z -> list Z) : (forall i, 0 <= i < n -> nbr_list m i (nb i)) -> pos_def n S -> local_ok (K := Rring) kern la Rrsq n dim X n1 Pf mu nb.
Proof.
  intros Hnb PD i Hi. destruct (Hnb i Hi) as (L1 & L2 & L3 & L4).
  assert (Hr : forall j, In j (nb i) -> 0 <= j < n) by (intros j Hj; specialize (L3 j Hj); lia).
  pose proof (pd_restrict (nb i) L2 Hr PD) as PL. set (c := zlen (nb i)) in *.
  assert (Hin : forall a, 0 <= a < c -> 0 <= nthz (nb i) a < n) by (intros a Ha; apply Hr; eapply getz_In; apply getz_nthz; exact Ha).
  split.
  - intros A HA. destruct (Z.eq_dec (fst (l_potrf la c A)) 0) as [|Ne]; auto. exfalso.
    destruct (le_chol la LE c A ltac:(lia)) with (2 := Ne) as (y & Hy & Hq).
    { intros a b Ha Hb. rewrite !HA by auto. apply schur_sym with (n := n); auto. }
    specialize (PL y Hy). assert (quad c A y = quad c (fun a b => S (nthz (nb i) a) (nthz (nb i) b)) y); [|lra].
    unfold quad. apply (rsum_ext (K := Rring)). intros a Ha. apply (rsum_ext (K := Rring)). intros b Hb. cbn. rewrite HA by auto. reflexivity.
  - intros y Hy. assert (Hpos : (0 < y (c - 1)%Z)%R).
    { assert (Hq : quad c (fun a b => S (nthz (nb i) a) (nthz (nb i) b)) y = y (c - 1)%Z).
      { unfold quad. rewrite (rsum_ext (K := Rring) 0 c _ (fun a => if (a =? c - 1)%Z then y a else 0%R)).
        - etransitivity; [exact (rsum_delta (K := Rring) 0 c (c - 1)%Z y)|]. rewrite (proj2 (Z.leb_le _ _)), (proj2 (Z.ltb_lt _ _)) by lia. auto.
        - intros a Ha. rewrite (rsum_ext (K := Rring) 0 c _ (fun b => y a * (S (nthz (nb i) a) (nthz (nb i) b) * y b))%R) by (intros; cbn; ring).
          change (fun b => (y a * (S (nthz (nb i) a) (nthz (nb i) b) * y b))%R) with (fun b => cmul (c := Rring) (y a) (cmul (c := Rring) (S (nthz (nb i) a) (nthz (nb i) b)) (y b))).
          rewrite (rsum_mul_l (K := Rring)). rewrite Hy by auto. unfold delta. destruct (a =? c - 1)%Z; cbn; ring. }
      rewrite <- Hq. apply PL. destruct (Req_dec (y (c - 1)%Z) 0) as [E0|]; [|exists (c - 1)%Z; split; [lia|auto]].
      (* y cannot vanish, since A y = e_last *)
      destruct (classic_zero c y) as [Hnz|Hz]; [exact Hnz|]. exfalso. specialize (Hy (c - 1)%Z ltac:(lia)).
      rewrite (rsum_zero (K := Rring)) in Hy; [|intros b Hb; rewrite (Hz b Hb); cbn; ring]. unfold delta in Hy. rewrite Z.eqb_refl in Hy. cbn in Hy. lra. }
    unfold Rrsq. destruct (Rlt_dec 0 (y (c - 1)%Z)); [eauto|contradiction].
Qed.
End Real.
