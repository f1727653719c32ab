(** pcg.c with a symmetric positive definite matrix and preconditioner. *)
From Coq Require Import ZArith QArith List Lia Bool Reals Qreals Lra.
From Verif Require Import Base Mem CRing FNum Model_Build Model_PCG Spec_ID Spec_PCG Proof_IDMath Proof_PCG Proof_PCGMath Proof_PCGTop.
Import ListNotations.
Open Scope R_scope.

Section Spd.
Variable n : Z.
Hypothesis Hn : (0 <= n)%Z.
Lemma mv_sym B u v : spd n B -> ip n u (mat_vec n B v) = ip n v (mat_vec n B u).
Proof.
  intros [S _]. unfold ip, mat_vec. change Rsum with (@rsum Rring).
  transitivity (sumR 0%Z n (fun i => sumR 0%Z n (fun j => u i * (B i j * v j)))); [apply sumR_ext; intros i Hi; symmetry; apply sumR_mul_l|].
  rewrite sumR_swap. apply sumR_ext. intros j Hj. rewrite <- sumR_mul_l. apply sumR_ext. intros i Hi. rewrite (S i j) by auto. lra.
Qed.
Lemma op_sym B Bx u v : applies n B Bx -> spd n B -> ip n u (@app Rnum n Bx v) = ip n v (@app Rnum n Bx u).
Proof.
  intros HB S. transitivity (ip n u (mat_vec n B v)); [apply ip_ext; auto; intros; now apply app_mv|]. rewrite mv_sym by auto.
  apply ip_ext; auto; intros; symmetry; now apply app_mv.
Qed.
Lemma op_pos B Bx v : applies n B Bx -> spd n B -> nonzero n v -> 0 < ip n v (@app Rnum n Bx v).
Proof. intros HB [_ S] NZ. rewrite (ip_ext n v _ v (mat_vec n B v)); [apply S, NZ|auto|intros; now apply app_mv]. Qed.

Variable A : Z -> Z -> R.
Variable Ax : list R -> list R.
Hypothesis HA : applies n A Ax.
Variable invMx : option (list R -> list R).
Variables (tol : R) (bm xm : mem R) (b x0 : Z -> R) (res : option (mem R)).
Hypothesis Hb : array_of n bm b.
Hypothesis Hx : array_of n xm x0.
Hypothesis HS : spd n A.
Hypothesis HW : forall M, invMx = Some M -> exists W, applies n W M /\ spd n W.
Hypothesis Htol : 0 <= tol.
Hypothesis Hbn : nonzero n b.

Notation run m := (@pcg Rnum n tol m Ax bm invMx xm res).
Notation Af := (@app Rnum n Ax).
Notation Wf := (@prec Rnum n invMx).
Notation cgk := (cg n Af Wf x0 (residual n A b x0)).
Notation Xk := (X n Af Wf x0 (residual n A b x0)).
Notation Rk := (Rv n Af Wf x0 (residual n A b x0)).

Lemma Asym u v : ip n u (Af v) = ip n v (Af u). Proof. now apply (op_sym A). Qed.
Lemma Apos v : nonzero n v -> 0 < ip n v (Af v). Proof. now apply (op_pos A). Qed.
Lemma Wsym u v : ip n u (Wf v) = ip n v (Wf u).
Proof. unfold prec. destruct invMx as [M|]; [|apply ip_sym]. destruct (HW M eq_refl) as (W & H1 & H2). now apply (op_sym W). Qed.
Lemma Wpos v : nonzero n v -> 0 < ip n v (Wf v).
Proof.
  unfold prec. destruct invMx as [M|]; [|intros H; apply nonzero_norm_pos in H; auto; unfold norm in H; apply sqrt_lt_0_alt; rewrite sqrt_0; exact H].
  destruct (HW M eq_refl) as (W & H1 & H2). now apply (op_pos W).
Qed.
Lemma HM : forall M, invMx = Some M -> @keeps Rnum n M.
Proof. intros M E. destruct (HW M E) as (W & H & _). now apply (applies_keeps n Hn W). Qed.

Lemma steps_cg g0 : @rep Rnum n g0 x0 (residual n A b x0) x0 -> g_iter g0 = 0%Z -> g_rho g0 = 1 ->
  forall k, (forall j, (j < k)%nat -> nonzero n (Rk j)) -> (forall v, g_res g0 = Some v -> (Z.of_nat k <= zlen v)%Z) ->
  exists g, @steps Rnum n Ax invMx k g0 = Some g /\ @rep Rnum n g (Xk k) (Rk k) (c_p (cgk k)) /\ g_rho g = c_rho (cgk k) /\ g_iter g = Z.of_nat k /\
    match g_res g0 with None => g_res g = None | Some v => exists v', g_res g = Some v' /\ zlen v' = zlen v end.
Proof.
  intros HR E0 E1. induction k as [|k IH]; intros NZ Hv.
  - exists g0. split; [reflexivity|]. split; [exact HR|]. split; [exact E1|]. split; [exact E0|]. destruct (g_res g0); eauto.
  - destruct IH as (g & Eg & HRg & Erho & Eit & HV); [intros; apply NZ; lia|intros v Ev; specialize (Hv v Ev); lia|].
    destruct (orth_all n Hn Af Wf Asym Apos Wsym Wpos x0 (residual n A b x0) (S k) NZ) as [_ Hpap].
    assert (Hpk := Hpap k ltac:(lia)).
    assert (Hrho0 : c_rho (cgk k) <> 0).
    { destruct k as [|k]; [cbn; lra|]. cbn [cg c_rho]. assert (H := Wpos _ (NZ k ltac:(lia))). unfold Rv in H. lra. }
    cbn [steps]. rewrite Eg. cbn [bind].
    assert (Dd : forall a c : R, c <> 0 -> @fdiv Rnum a c = Some (a / c)) by (intros a c Hc; cbn; destruct (Req_EM_T c 0); [contradiction|auto]).
    destruct (@step_spec Rnum n Hn Ax invMx (applies_keeps n Hn A Ax HA) HM g _ _ _ HRg) as [[_ EN]|(beta & Eb & D)].
    { intros v Ev. destruct (g_res g0) as [v0|]; [|congruence]. destruct HV as (v' & Ev' & Lv). specialize (Hv v0 eq_refl). replace v with v' by congruence. rewrite Eit. lia. }
    { rewrite fsum_ip, Erho, Dd in EN by auto. discriminate. }
    rewrite fsum_ip, Erho, Dd in Eb by auto. injection Eb as Eb.
    assert (Ed : @new_p Rnum (g_iter g) beta (Wf (Rk k)) (c_p (cgk k)) = P n Af Wf x0 (residual n A b x0) k).
    { unfold new_p, P, dir. rewrite Eit, <- Eb. destruct k as [|k]; [reflexivity|]. destruct (Z.eqb_spec (Z.of_nat (S k)) 0); [lia|]. reflexivity. }
    cbv zeta in D. rewrite Ed in D.
    assert (Etmp : @fsum Rnum n (fun i => @fmul Rnum (P n Af Wf x0 (residual n A b x0) k i) (Af (P n Af Wf x0 (residual n A b x0) k) i)) <> 0) by (rewrite (fsum_ip n Hn); apply Rgt_not_eq; exact Hpk).
    destruct D as [[_ EN]|(alpha & g' & Ea & E' & HR' & Erho' & Eit' & HV')]; [rewrite Dd in EN by auto; discriminate|].
    rewrite Dd in Ea by auto. injection Ea as Ea. rewrite !(fsum_ip n Hn) in *. subst alpha.
    exists g'. split; [exact E'|]. split; [exact HR'|]. split; [exact Erho'|]. split; [rewrite Eit', Eit; lia|].
    destruct (g_res g0) as [v0|].
    + destruct HV as (v' & Ev' & Lv). rewrite Ev' in HV'. destruct HV' as (v2 & Ev2 & Es). exists v2. split; auto. apply st_zlen in Es. lia.
    + rewrite HV in HV'. exact HV'.
Qed.

Lemma rk_true k : (forall i, (0 <= i < n)%Z -> Rk k i = residual n A b (Xk k) i).
Proof.
  induction k as [|k IH]; intros i Hi; [reflexivity|]. rewrite Rv_S, X_S. unfold residual. rewrite (mv_lin n), IH by auto. unfold residual. rewrite <- (app_mv n Hn A Ax HA (P _ _ _ _ _ _)) by auto. lra.
Qed.

Lemma first_false (c : nat -> bool) N : c N = false -> exists k, (k <= N)%nat /\ c k = false /\ forall j, (j < k)%nat -> c j = true.
Proof.
  intros H. assert (G : forall m, (m <= S N)%nat -> (exists k, (k < m)%nat /\ c k = false /\ forall j, (j < k)%nat -> c j = true) \/ forall j, (j < m)%nat -> c j = true).
  { induction m as [|m IH]; intros Hm; [right; intros; lia|]. destruct IH as [(k & Hk & H1 & H2)|IH]; [lia|left; exists k; repeat split; auto; lia|].
    destruct (c m) eqn:E; [right|left; exists m; auto]. intros j Hj. destruct (Nat.eq_dec j m); [subst; auto|apply IH; lia]. }
  destruct (G (S N) ltac:(lia)) as [(k & Hk & H1 & H2)|H0]; [exists k; repeat split; auto; lia|]. rewrite H0 in H by lia. discriminate.
Qed.

(** The run for every bound on the number of turns. *)
Lemma run_cg m : fits_res res m -> exists out (k : nat), run m = Some out /\ array_of n (o_x out) (Xk k) /\ o_iter out = Z.of_nat k /\
  (Z.of_nat k <= n)%Z /\ (Z.of_nat k <= Z.max 0 m)%Z /\ orth n Af Wf x0 (residual n A b x0) k /\
  (forall j, (j < k)%nat -> norm n b * tol < norm n (Rk j)) /\ ((Z.of_nat k < m)%Z -> norm n (Rk k) <= norm n b * tol) /\
  ((n <= m)%Z -> o_flag out = 0%Z).
Proof.
  intros Hres. destruct (run_start n Hn A Ax HA invMx tol bm xm b x0 res Hb Hx) as (g0 & HR & E1 & E2 & E3 & E4 & E5).
  pose (c := fun j : nat => (Z.of_nat j <? m)%Z && Rltb (norm n b * tol) (norm n (Rk j))).
  assert (Hnb := norm_nonneg n b). assert (Hst : 0 <= norm n b * tol) by (apply Rmult_le_pos; auto).
  assert (Cnz : forall j, c j = true -> nonzero n (Rk j)).
  { intros j Cj. apply andb_prop in Cj as [_ Cj]. apply Rltb_true in Cj. apply norm_pos_nonzero; auto. lra. }
  assert (Tm := cg_terminates n Hn Af Wf Asym Apos Wsym Wpos x0 (residual n A b x0)).
  assert (Ex : exists j, (j <= Z.to_nat n)%nat /\ c j = false).
  { assert (G : forall N, (exists j, (j <= N)%nat /\ c j = false) \/ forall j, (j <= N)%nat -> c j = true).
    { induction N as [|N IH].
      - destruct (c O) eqn:E; [right|left; exists O; auto]. intros j Hj. replace j with O by lia. auto.
      - destruct IH as [(j & Hj & E)|IH]; [left; exists j; split; [lia|auto]|]. destruct (c (S N)) eqn:E; [right|left; exists (S N); auto]. intros j Hj. destruct (Nat.eq_dec j (S N)); [subst; auto|apply IH; lia]. }
    destruct (G (Z.to_nat n)) as [D|D]; auto. exfalso. apply Tm. intros j Hj. apply Cnz, D, Hj. }
  destruct Ex as (N & HN & CN). destruct (first_false c N CN) as (k & HkN & Ck & Cj).
  assert (Hkm : (Z.of_nat k <= Z.max 0 m)%Z).
  { destruct k as [|k]; [lia|]. assert (H := Cj k ltac:(lia)). apply andb_prop in H as [H _]. apply Z.ltb_lt in H. lia. }
  assert (Hv : forall k', (k' <= k)%nat -> forall v, g_res g0 = Some v -> (Z.of_nat k' <= zlen v)%Z).
  { intros k' Hk' v Ev. rewrite E4 in Ev. specialize (Hres v Ev). change (m <= @zlen (option Rnum) v)%Z in Hres. assert (0 <= @zlen (option Rnum) v)%Z by apply zlen_nonneg. lia. }
  assert (NZ : forall j, (j < k)%nat -> nonzero n (Rk j)) by (intros; apply Cnz, Cj; auto).
  assert (Hst' : forall k', (k' <= k)%nat -> exists g, @steps Rnum n Ax invMx k' g0 = Some g /\ hold n (g_x g) (Xk k') /\ g_iter g = Z.of_nat k' /\ g_rn g = norm n (Rk k')).
  { intros k' Hk'. destruct (steps_cg g0 HR E2 E3 k') as (g & Eg & HRg & _ & Eit & _); [intros; apply NZ; lia|now apply Hv|].
    exists g. split; auto. split; [apply HRg|]. split; auto. rewrite (rp_rn n _ _ _ _ HRg), (fsum_ip n Hn). reflexivity. }
  destruct (Hst' k (le_n k)) as (g & Eg & Hgx & Eit & Ern).
  assert (El : @pcg_loop Rnum n (Z.to_nat m) Ax invMx m (stop_at n tol b) g0 = Some g).
  { apply (@steps_loop Rnum n Ax invMx m (stop_at n tol b) k); auto; [lia| |].
    - unfold cond. rewrite Eit, Ern. exact Ck.
    - intros j gj Hj Ej. destruct (Hst' j ltac:(lia)) as (gj' & Ej' & _ & Eitj & Ernj). replace gj with gj' by congruence. unfold cond. rewrite Eitj, Ernj. apply Cj, Hj. }
  assert (Hb0 : norm n b <> 0) by (apply nonzero_norm_pos in Hbn; auto; lra).
  exists (@POut Rnum (g_x g) (if Rleb (g_rn g) (stop_at n tol b) then 0 else 1)%Z (g_rn g / norm n b) (g_iter g) (g_res g)), k. rewrite E5, El. cbn [bind fdiv Rnum].
  destruct (Req_EM_T (norm n b) 0); [contradiction|]. cbn [bind o_x o_flag o_iter]. split; [reflexivity|]. split; [exact Hgx|]. split; [exact Eit|]. split; [lia|]. split; [exact Hkm|].
  split; [apply (orth_all n Hn Af Wf Asym Apos Wsym Wpos); auto|]. split; [|split].
  - intros j Hj. specialize (Cj j Hj). apply andb_prop in Cj as [_ Cj]. now apply Rltb_true in Cj.
  - intros Hk. unfold c in Ck. replace (Z.of_nat k <? m)%Z with true in Ck by (symmetry; now apply Z.ltb_lt). now apply Rltb_false in Ck.
  - intros Hnm. unfold stop_at. rewrite Ern. unfold Rleb. destruct (Rle_dec (norm n (Rk k)) (norm n b * tol)) as [L|L]; auto. exfalso.
    unfold c in Ck. replace (Rltb _ _) with true in Ck by (symmetry; apply Rltb_true; lra). rewrite andb_true_r in Ck. apply Z.ltb_ge in Ck.
    apply Tm. intros j Hj. destruct (Nat.eq_dec j k) as [->|Nj]; [apply norm_pos_nonzero; auto; lra|]. apply NZ. lia.
Qed.

(** Smallest energy error among affine combinations of the iterates so far. *)
Lemma run_optimal m (xs : Z -> Z -> R) outs sol w : (0 <= m)%Z -> fits_res res m ->
  (forall j, (0 <= j <= m)%Z -> run j = Some (outs j) /\ array_of n (o_x (outs j)) (xs j)) ->
  (forall i, (0 <= i < n)%Z -> mat_vec n A sol i = b i) -> Rsum 0 (m + 1) w = 1 ->
  energy n A (fun i => sol i - xs m i) <= energy n A (fun i => sol i - Rsum 0 (m + 1) (fun j => w j * xs j i)).
Proof.
  intros Hm Hres HX Hsol Hw. destruct (run_cg m Hres) as (om & k & Em & Hmx & _ & _ & Hkm & Ok & Ck & Dk & _).
  assert (Same : forall (a : mem R) u v, array_of n a u -> array_of n a v -> forall i, (0 <= i < n)%Z -> u i = v i).
  { intros a u v [_ H1] [_ H2] i Hi. specialize (H1 i Hi). specialize (H2 i Hi). congruence. }
  assert (XM : forall i, (0 <= i < n)%Z -> xs m i = Xk k i).
  { destruct (HX m ltac:(lia)) as [E1 E2]. replace (outs m) with om in E2 by congruence. intros. eapply Same; eauto. }
  assert (D : forall j, (0 <= j <= m)%Z -> ip n (fun i => xs j i - xs m i) (Rk k) = 0).
  { intros j Hj. destruct (HX j Hj) as [E1 E2]. destruct (run_cg j) as (oj & kj & Ej & Hjx & _ & _ & Hkj & _ & Cj & _); [intros v Ev; specialize (Hres v Ev); lia|].
    replace (outs j) with oj in E2 by congruence.
    assert (Hle : (kj <= k)%nat). { destruct (le_lt_dec kj k) as [|Hlt]; auto. assert (H1 := Dk ltac:(lia)). assert (H2 := Cj k Hlt). lra. }
    rewrite <- (x_diff_orth n Af Wf x0 (residual n A b x0) k Ok kj Hle). apply ip_ext; auto. intros i Hi. rewrite XM by auto. f_equal. eapply Same; eauto. }
  set (y := fun i => Rsum 0 (m + 1) (fun j => w j * xs j i)). set (d := fun i => y i - xs m i).
  assert (Hd : ip n d (Rk k) = 0).
  { unfold d, y. rewrite (ip_ext n _ (Rk k) (fun i => Rsum 0 (m + 1) (fun j => w j * (xs j i - xs m i))) (Rk k)); auto.
    2:{ intros i Hi. change Rsum with (@rsum Rring). rewrite (sumR_ext 0 (m + 1) (fun j => w j * (xs j i - xs m i)) (fun j => w j * xs j i - w j * xs m i)) by (intros; lra).
        rewrite sumR_sub, sumR_mul_r. change (sumR 0%Z (m + 1)%Z w) with (Rsum 0 (m + 1) w). rewrite Hw. lra. }
    unfold ip. change Rsum with (@rsum Rring).
    transitivity (sumR 0%Z n (fun i => sumR 0%Z (m + 1)%Z (fun j => w j * (xs j i - xs m i) * Rk k i))); [apply sumR_ext; intros; now rewrite sumR_mul_r|].
    rewrite sumR_swap. apply sumR_zero. intros j Hj.
    transitivity (w j * ip n (fun i => xs j i - xs m i) (Rk k)); [|rewrite D by lia; lra]. unfold ip. rewrite <- sumR_mul_l. apply sumR_ext. intros. lra. }
  set (e := fun i => sol i - xs m i).
  assert (He : forall i, (0 <= i < n)%Z -> mat_vec n A e i = Rk k i).
  { intros i Hi. rewrite rk_true by auto. unfold residual. rewrite <- Hsol by auto. rewrite <- (mv_ext n A (xs m) (Xk k)) by auto.
    transitivity (mat_vec n A (fun q => sol q + (-1) * xs m q) i); [apply mv_ext; intros; unfold e; lra|]. rewrite mv_lin. lra. }
  assert (Ey : energy n A (fun i => sol i - y i) = energy n A e - 2 * ip n d (Rk k) + energy n A d).
  { unfold energy. rewrite !inner_ip. rewrite (ip_ext n (fun i => sol i - y i) _ (fun i => e i - 1 * d i) (fun i => mat_vec n A e i - 1 * mat_vec n A d i)).
    2:{ intros. unfold e, d. lra. }
    2:{ intros i Hi. transitivity (mat_vec n A (fun q => e q + (-1) * d q) i); [apply mv_ext; intros; unfold e, d; lra|]. rewrite mv_lin. lra. }
    rewrite ip_sub_l, !ip_sub_r. rewrite (mv_sym A e d HS). rewrite (ip_ext n d (mat_vec n A e) d (Rk k)) by auto. change (inner n) with (ip n). lra. }
  change (energy n A e <= energy n A (fun i => sol i - y i)). rewrite Ey, Hd.
  assert (0 <= energy n A d).
  { destruct (Req_EM_T (energy n A d) 0) as [->|NE]; [lra|]. unfold energy in *. rewrite inner_ip in *. apply ip_pos_nonzero in NE; auto. destruct HS as [_ S]. specialize (S d NE). left. exact S. }
  lra.
Qed.
End Spd.
