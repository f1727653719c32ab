(** A concrete case for the FSAI and AFN theorems: four points on a line, the
    kernel k(p, q) = p q (the matrix v v^T) and the shift mu = 1. *)
From Coq Require Import ZArith QArith Qreals Reals List Lia Lra Bool Permutation.
From Verif Require Import Base Mem Num CRing FNum Spec_Lapack Proof_Lapack Spec_SPD Model_FSAI Spec_FSAI Proof_FSAIReal Model_AFN Spec_AFN Proof_AFNTop.
Import ListNotations.
Open Scope Z_scope.

Lemma Qred_total : total_lt (nlt (n := Qred_num)).
Proof.
  split; cbn.
  - intros a b H. apply negb_true_iff in H. apply negb_false_iff. destruct (Qle_bool a b) eqn:E; auto.
    exfalso. assert (~ (b <= a)%Q) by (intros C; apply Qle_bool_iff in C; congruence). assert (~ (a <= b)%Q) by (intros C; apply Qle_bool_iff in C; congruence).
    destruct (Qlt_le_dec a b) as [L|L]; [apply Qlt_le_weak in L|]; contradiction.
  - intros a b c H1 H2. apply negb_false_iff in H1, H2. apply negb_false_iff. apply Qle_bool_iff in H1, H2. apply Qle_bool_iff. eapply Qle_trans; eauto.
Qed.

(** c v v^T + mu I is positive definite for c >= 0, mu > 0. *)
Lemma rank1_pd n (A : Z -> Z -> R) c mu (v : Z -> R) : (0 <= c)%R -> (0 < mu)%R -> (forall i j, A i j = (c * v i * v j + mu * @delta Rring i j)%R) -> pos_def n A.
Proof.
  intros Hc Hmu HA y (p & Hp & Hy). rewrite quad_mv.
  set (s := @rsum Rring 0 n (fun j => (v j * y j)%R)).
  assert (E : forall i, 0 <= i < n -> @rsum Rring 0 n (fun j => (A i j * y j)%R) = (c * v i * s + mu * y i)%R).
  { intros i Hi. transitivity (@rsum Rring 0 n (fun j => cadd (c := Rring) ((c * v i) * (v j * y j))%R (mu * (@delta Rring i j * y j))%R)).
    - apply (@rsum_ext Rring). intros j Hj. rewrite HA. cbn. ring.
    - etransitivity; [apply (@rsum_add Rring)|]. cbn. f_equal.
      + exact (@rsum_mul_l Rring 0 n (c * v i)%R (fun j => (v j * y j)%R)).
      + etransitivity; [exact (@rsum_mul_l Rring 0 n mu (fun j => (@delta Rring i j * y j)%R))|]. cbn. f_equal. exact (@Proof_ULVMath.rsum_delta_l Rring n i y Hi). }
  rewrite (@rsum_ext Rring 0 n _ (fun i => cadd (c := Rring) ((c * s) * (v i * y i))%R (mu * (y i * y i))%R)) by (intros i Hi; rewrite E by auto; cbn; ring).
  rewrite (@rsum_add Rring).
  change (0 < @rsum Rring 0 n (fun i => cmul (c := Rring) (c * s)%R (v i * y i)%R) + @rsum Rring 0 n (fun i => cmul (c := Rring) mu (y i * y i)%R))%R.
  rewrite !(@rsum_mul_l Rring). fold s. cbn.
  destruct (rsum_nonneg (fun k => (y k * y k)%R) n ltac:(lia)) as (P1 & P2). { intros k Hk. cbv beta. nra. }
  specialize (P2 p Hp). cbv beta in P2. assert (0 < y p * y p)%R by nra. assert (0 <= c * (s * s))%R by (apply Rmult_le_pos; [auto|nra]). nra.
Qed.

Definition ex_n : Z := 4.
Definition ex_pts : list Q := [0; 1; 3; 7]%Q.
Definition ex_coord : mem Qred_num := full (ex_pts : list Qred_num).
Definition ex_X (j d : Z) : Qred_num := nth (Z.to_nat j) ex_pts 0%Q.
Definition ex_kern (p q : list Qred_num) (_ _ : Z) : Rring := (Q2R (hd 0%Q p) * Q2R (hd 0%Q q))%R.
Definition ex_v (j : Z) : R := Q2R (nth (Z.to_nat j) ex_pts 0%Q).
Definition ex_up : list Z := [0; 1; 2; 3].
Definition ex_dn : list Z := [3; 1; 2; 0].

Lemma ex_coords : coords_at ex_coord 0 4 4 1 ex_X.
Proof. intros j d Hj Hd. assert (d = 0) by lia. subst d. assert (Hc : j = 0 \/ j = 1 \/ j = 2 \/ j = 3) by lia. destruct Hc as [->|[->|[->| ->]]]; reflexivity. Qed.
Lemma ex_kernel i j : ex_kern (pt_of 1 ex_X i) (pt_of 1 ex_X j) 0 0 = (ex_v i * ex_v j)%R.
Proof. reflexivity. Qed.
Lemma ex_symm : kernel_symmetric ex_kern 4 1 ex_X.
Proof. intros i j _ _. rewrite !ex_kernel. apply Rmult_comm. Qed.
Lemma ex_orders : any_order 4 ex_up /\ any_order 4 ex_dn.
Proof. split; unfold any_order; change (zrange 0 4) with [0; 1; 2; 3]; [apply Permutation_refl|]. unfold ex_dn. apply NoDup_Permutation_bis; [repeat constructor; cbn; lia|cbn; lia|]. intros x; cbn; tauto. Qed.
Lemma ex_pd : pos_def 4 (shifted_kernel ex_kern 1 ex_X (1%R : Rring)).
Proof. apply (rank1_pd 4 _ 1 1 ex_v); try lra. intros i j. unfold shifted_kernel. rewrite ex_kernel. cbn. ring. Qed.

(** P = v / 2, one column. *)
Definition ex_Pf (r l : Z) : Rring := (/ 2 * ex_v r)%R.
Definition ex_P : mem Rring := full (map (fun r => ex_Pf r 0) (zrange 0 4)).
Lemma ex_P_holds r l : 0 <= r < 4 -> 0 <= l < 1 -> ld ex_P (r * 1 + l) = Some (ex_Pf r l).
Proof. intros Hr Hl. assert (l = 0) by lia. subst l. assert (Hc : r = 0 \/ r = 1 \/ r = 2 \/ r = 3) by lia. destruct Hc as [->|[->|[->| ->]]]; reflexivity. Qed.
Lemma ex_pd_P : pos_def 4 (fsai_target ex_kern 1 ex_X 1 ex_Pf (1%R : Rring)).
Proof.
  apply (rank1_pd 4 _ (3 / 4) 1 ex_v); try lra. intros i j. unfold fsai_target, shifted_kernel. rewrite ex_kernel.
  change (rsum 0 1 (fun l : Z => cmul (ex_Pf i l) (ex_Pf j l))) with (@rsum Rring 0 (0 + 1) (fun l : Z => (ex_Pf i l * ex_Pf j l)%R)). rewrite (@rsum_one Rring). unfold ex_Pf. cbn. field.
Qed.

Lemma ex_distinct : distinct_points (1000%Q : Qred_num) 4 1 ex_X.
Proof.
  intros j k l Hj Hk Hl Hkl. assert (Hc : forall z, 0 <= z < 4 -> z = 0 \/ z = 1 \/ z = 2 \/ z = 3) by lia.
  destruct (Hc j Hj) as [->|[->|[->| ->]]], (Hc k Hk) as [->|[->|[->| ->]]], (Hc l Hl) as [->|[->|[->| ->]]]; try lia; split; vm_compute; reflexivity.
Qed.
