(** C39, C40: the preconditioned conjugate gradient solver of examples/PCG. *)
From Coq Require Import ZArith QArith List Lia Bool Reals Qreals Lra.
From Verif Require Import Base Mem CRing FNum Model_Build Model_PCG Spec_ID Spec_PCG Proof_IDMath Proof_PCG Proof_PCGMath Proof_PCGTop Proof_PCGSpd.
Import ListNotations.
Open Scope R_scope.

(** C39: in exact arithmetic, for any matrix and any preconditioner, whenever
    pcg returns, what it reports is about the true residual b - A x of the x it
    returns: flag 0 exactly when it is at most tol ||b||, relres its relative
    norm; it makes at most max_iter iterations, and all of them if it reports
    failure; x is not touched if it already was good enough; res_vec[k] is the
    residual norm of the x that a run limited to k + 1 iterations returns, and
    the rest of res_vec is not touched. *)
Theorem C39_pcg_reports_true_residual (n : Z) (A : Z -> Z -> R) Ax invMx tol max_iter bm xm (b x0 : Z -> R) res (out : pcg_out Rnum) :
  (0 <= n)%Z -> applies n A Ax -> (forall M, invMx = Some M -> length_kept n M) ->
  array_of n bm b -> array_of n xm x0 -> (forall v, res = Some v -> (max_iter <= zlen v)%Z) ->
  @pcg Rnum n tol max_iter Ax bm invMx xm res = Some out ->
  exists x' : Z -> R, array_of n (o_x out) x' /\
    (o_flag out = 0%Z <-> norm n (residual n A b x') <= norm n b * tol) /\ (o_flag out = 0%Z \/ o_flag out = 1%Z) /\
    norm n b <> 0 /\ o_relres out = norm n (residual n A b x') / norm n b /\
    (0 <= o_iter out <= Z.max 0 max_iter)%Z /\ (o_flag out = 1%Z -> o_iter out = Z.max 0 max_iter) /\
    (norm n (residual n A b x0) <= norm n b * tol -> o_x out = xm /\ o_iter out = 0%Z) /\
    match res with
    | None => o_res out = None
    | Some v => exists v', o_res out = Some v' /\ zlen v' = zlen v /\
       (forall k, (o_iter out <= k)%Z -> getz v' k = getz v k) /\
       forall k, (0 <= k < o_iter out)%Z ->
         exists outk xk, @pcg Rnum n tol (k + 1)%Z Ax bm invMx xm res = Some outk /\ array_of n (o_x outk) xk /\ ld v' k = Some (norm n (residual n A b xk))
    end.
Proof. intros Hn HA HM Hb Hx Hv. now apply (run_honest n Hn A Ax HA invMx HM tol bm xm b x0 res Hb Hx max_iter out). Qed.
Print Assumptions C39_pcg_reports_true_residual.

(** C39: in any arithmetic in which divisions yield values (IEEE), pcg touches
    only its arrays, returns, and makes at most max_iter iterations, whatever the
    matrix, the preconditioner and the values are. *)
Theorem C39_pcg_terminates_in_any_arithmetic (F : fnum) (n : Z) Ax invMx (tol : F) max_iter bm xm b x0 res :
  div_total F -> (0 <= n)%Z -> (forall v, zlen v = n -> zlen (Ax v) = n) -> (forall M, invMx = Some M -> forall v, zlen v = n -> zlen (M v) = n) ->
  zlen bm = n -> (forall i, (0 <= i < n)%Z -> ld bm i = Some (b i)) -> zlen xm = n -> (forall i, (0 <= i < n)%Z -> ld xm i = Some (x0 i)) ->
  (forall v, res = Some v -> (max_iter <= zlen v)%Z) ->
  exists out, pcg n tol max_iter Ax bm invMx xm res = Some out /\ zlen (o_x out) = n /\ (0 <= o_iter out <= Z.max 0 max_iter)%Z /\ (o_flag out = 0%Z \/ o_flag out = 1%Z).
Proof. intros HD Hn HA HM Lb Gb Lx Gx Hv. apply (pcg_total n Hn Ax invMx HA HM HD tol max_iter bm xm res b x0); auto; split; auto. Qed.
Print Assumptions C39_pcg_terminates_in_any_arithmetic.

(** C39, defect: with a zero right-hand side relres is 0 / 0, whatever else the
    arguments are (in IEEE arithmetic: NaN or infinity). *)
Theorem C39_zero_right_hand_side_refuted (n : Z) (A : Z -> Z -> R) Ax invMx tol max_iter bm xm (b x0 : Z -> R) res :
  (0 <= n)%Z -> applies n A Ax -> (forall M, invMx = Some M -> length_kept n M) -> array_of n bm b -> array_of n xm x0 ->
  (forall i, (0 <= i < n)%Z -> b i = 0) -> @pcg Rnum n tol max_iter Ax bm invMx xm res = None.
Proof.
  intros Hn HA HM Hb Hx H0. apply (run_zero_rhs n Hn A Ax HA invMx tol bm xm b x0 res Hb Hx).
  unfold norm. change (inner n b b) with (ip n b b). rewrite ip_zero_l by auto. apply sqrt_0.
Qed.
Print Assumptions C39_zero_right_hand_side_refuted.

(** C40: for a symmetric positive definite matrix and preconditioner (or none),
    a nonzero right-hand side and tol >= 0, pcg in exact arithmetic never divides
    by zero, needs at most n iterations, and so succeeds whenever it is allowed n;
    with tol = 0 it then solves the system exactly. *)
Theorem C40_pcg_converges_in_n_steps (n : Z) (A : Z -> Z -> R) Ax invMx tol max_iter bm xm (b x0 : Z -> R) res :
  (0 <= n)%Z -> applies n A Ax -> spd n A -> (forall M, invMx = Some M -> exists W, applies n W M /\ spd n W) ->
  array_of n bm b -> array_of n xm x0 -> (forall v, res = Some v -> (max_iter <= zlen v)%Z) -> 0 <= tol -> nonzero n b ->
  exists out x', @pcg Rnum n tol max_iter Ax bm invMx xm res = Some out /\ array_of n (o_x out) x' /\ (0 <= o_iter out <= n)%Z /\
    ((n <= max_iter)%Z -> o_flag out = 0%Z /\ norm n (residual n A b x') <= norm n b * tol /\
       (tol = 0 -> forall i, (0 <= i < n)%Z -> mat_vec n A x' i = b i)).
Proof.
  intros Hn HA HS HW Hb Hx Hv Ht Hnz.
  destruct (run_cg n Hn A Ax HA invMx tol bm xm b x0 res Hb Hx HS HW Ht Hnz max_iter Hv) as (out & k & E & _ & Ei & Hk & _ & _ & _ & _ & Hf).
  assert (HM : forall M, invMx = Some M -> length_kept n M) by (intros M EM; apply (HM n Hn invMx HW M EM)).
  destruct (run_honest n Hn A Ax HA invMx HM tol bm xm b x0 res Hb Hx max_iter out Hv E) as (x' & Hx' & Hfl & _).
  exists out, x'. split; auto. split; auto. split; [lia|]. intros Hnm. specialize (Hf Hnm). split; auto. apply Hfl in Hf. split; auto.
  intros -> i Hi. rewrite Rmult_0_r in Hf. destruct (Req_EM_T (residual n A b x' i) 0) as [E0|NE]; [unfold residual in E0; lra|].
  assert (0 < norm n (residual n A b x')) by (apply nonzero_norm_pos; auto; exists i; auto). lra.
Qed.
Print Assumptions C40_pcg_converges_in_n_steps.

(** C40: of all affine combinations of the starting vector and the iterates so
    far (the results of runs with smaller limits), the x returned has the smallest
    error in the energy norm; in particular more iterations never increase that
    error. *)
Theorem C40_pcg_smallest_energy_error (n : Z) (A : Z -> Z -> R) Ax invMx tol m bm xm (b x0 : Z -> R) res (outs : Z -> pcg_out Rnum) (xs : Z -> Z -> R) sol w :
  (0 <= n)%Z -> applies n A Ax -> spd n A -> (forall M, invMx = Some M -> exists W, applies n W M /\ spd n W) ->
  array_of n bm b -> array_of n xm x0 -> (forall v, res = Some v -> (m <= zlen v)%Z) -> 0 <= tol -> nonzero n b -> (0 <= m)%Z ->
  (forall j, (0 <= j <= m)%Z -> @pcg Rnum n tol j Ax bm invMx xm res = Some (outs j) /\ array_of n (o_x (outs j)) (xs j)) ->
  (forall i, (0 <= i < n)%Z -> mat_vec n A sol i = b i) -> Rsum 0 (m + 1) w = 1 ->
  energy n A (fun i => sol i - xs m i) <= energy n A (fun i => sol i - Rsum 0 (m + 1) (fun j => w j * xs j i)).
Proof.
  intros Hn HA HS HW Hb Hx Hv Ht Hnz Hm HX Hsol Hw.
  exact (run_optimal n Hn A Ax HA invMx tol bm xm b x0 res Hb Hx HS HW Ht Hnz m xs outs sol w Hm Hv HX Hsol Hw).
Qed.
Print Assumptions C40_pcg_smallest_energy_error.

(** ** A concrete system: A = [1 1; 1 2], b = (2, 0), x0 = 0, tol = 0. *)
Definition A2 (i j : Z) : R := if (i =? 1)%Z && (j =? 1)%Z then 2 else 1.
Definition A2x (v : list R) : list R := match v with [a; c] => [1 * a + (1 * c + 0); 1 * a + (2 * c + 0)] | _ => v end.
Definition b2 (i : Z) : R := if (i =? 0)%Z then 2 else 0.
Definition bm2 : mem R := full [2; 0].
Definition x2 : mem R := full [0; 0].
Lemma A2_applies : applies 2 A2 A2x. Proof. intros x. reflexivity. Qed.
Lemma A2_spd : spd 2 A2.
Proof.
  split.
  - intros i j Hi Hj. unfold A2. now rewrite andb_comm.
  - intros x (i & Hi & NZ). change (0 < x 0%Z * (1 * x 0%Z + (1 * x 1%Z + 0)) + (x 1%Z * (1 * x 0%Z + (2 * x 1%Z + 0)) + 0)).
    assert (D : x 0%Z <> 0 \/ x 1%Z <> 0) by (assert (i = 0 \/ i = 1)%Z as [-> | ->] by lia; auto).
    assert (0 <= (x 0%Z + x 1%Z) * (x 0%Z + x 1%Z)) by apply Rle_0_sqr. assert (0 <= x 1%Z * x 1%Z) by apply Rle_0_sqr.
    destruct (Req_EM_T (x 1%Z) 0) as [E1|N1].
    + destruct D as [D|D]; [|contradiction]. assert (0 < x 0%Z * x 0%Z) by nra. rewrite E1. lra.
    + assert (0 < x 1%Z * x 1%Z) by nra. lra.
Qed.
Lemma b2_arr : array_of 2 bm2 b2.
Proof. split; [reflexivity|]. intros i Hi. assert (i = 0 \/ i = 1)%Z as [-> | ->] by lia; reflexivity. Qed.
Lemma x2_arr : array_of 2 x2 (fun _ => 0).
Proof. split; [reflexivity|]. intros i Hi. assert (i = 0 \/ i = 1)%Z as [-> | ->] by lia; reflexivity. Qed.
Lemma b2_nz : nonzero 2 b2. Proof. exists 0%Z. split; [lia|]. change (2 <> 0). lra. Qed.

(** The hypotheses of the C40 theorems, and with them of C39, are met. *)
Example C40_instance : exists out x', @pcg Rnum 2 0 2 A2x bm2 None x2 (Some (alloc 2)) = Some out /\ array_of 2 (o_x out) x' /\
  o_flag out = 0%Z /\ forall i, (0 <= i < 2)%Z -> mat_vec 2 A2 x' i = b2 i.
Proof.
  destruct (C40_pcg_converges_in_n_steps 2 A2 A2x None 0 2 bm2 x2 b2 (fun _ => 0) (Some (alloc 2)) ltac:(lia) A2_applies A2_spd ltac:(discriminate) b2_arr x2_arr)
    as (out & x' & E & Hx & Hi & Hc); [intros v [= <-]; vm_compute; discriminate|lra|apply b2_nz|]. destruct (Hc ltac:(lia)) as (H1 & H2 & H3). exists out, x'. auto.
Qed.
(** Another instance, with a preconditioner (the diagonal's inverse, doubled). *)
Definition W2 (i j : Z) : R := if (i =? j)%Z then (if (i =? 0)%Z then 2 else 1) else 0.
Definition W2x (v : list R) : list R := match v with [a; c] => [2 * a + (0 * c + 0); 0 * a + (1 * c + 0)] | _ => v end.
Example C40_instance_preconditioned : exists out x', @pcg Rnum 2 0 5 A2x bm2 (Some W2x) x2 None = Some out /\ array_of 2 (o_x out) x' /\ o_flag out = 0%Z /\ (o_iter out <= 2)%Z.
Proof.
  destruct (C40_pcg_converges_in_n_steps 2 A2 A2x (Some W2x) 0 5 bm2 x2 b2 (fun _ => 0) None ltac:(lia) A2_applies A2_spd) as (out & x' & E & Hx & Hi & Hc); auto using b2_arr, x2_arr, b2_nz; try discriminate; try lra.
  - intros M [= <-]. exists W2. split; [intros x; reflexivity|]. split.
    + intros i j Hi Hj. unfold W2. rewrite (Z.eqb_sym j i). destruct (Z.eqb_spec i j); [subst|]; reflexivity.
    + intros x (i & Hi & NZ). change (0 < x 0%Z * (2 * x 0%Z + (0 * x 1%Z + 0)) + (x 1%Z * (0 * x 0%Z + (1 * x 1%Z + 0)) + 0)).
      assert (D : x 0%Z <> 0 \/ x 1%Z <> 0) by (assert (i = 0 \/ i = 1)%Z as [-> | ->] by lia; auto). destruct D; nra.
  - destruct (Hc ltac:(lia)) as (H1 & _). exists out, x'. repeat split; auto; try apply Hx; lia.
Qed.

(** C39, defect: pcg.h documents res_vec as "residual vector relative 2-norms",
    but the values are absolute: here res_vec[0] = 2 while the relative residual
    norm is 1. *)
Theorem C39_res_vec_is_not_relative_refuted :
  exists out x' v, @pcg Rnum 2 0 1 A2x bm2 None x2 (Some (alloc 1)) = Some out /\ array_of 2 (o_x out) x' /\ o_res out = Some v /\
    ld v 0 = Some 2 /\ norm 2 (residual 2 A2 b2 x') / norm 2 b2 = 1.
Proof.
  assert (Hv : fits_res (Some (alloc 1)) 1) by (intros v [= <-]; vm_compute; discriminate).
  assert (Hx0 := x2_arr). assert (Hb := b2_arr). assert (HA := A2_applies).
  destruct (run_cg 2 ltac:(lia) A2 A2x HA None 0 bm2 x2 b2 (fun _ => 0) (Some (alloc 1)) Hb Hx0 A2_spd ltac:(discriminate) ltac:(lra) b2_nz 1 Hv) as (out & k & E & Hx & Ei & Hk & Hk1 & _ & _ & Hlast & _).
  set (r0 := residual 2 A2 b2 (fun _ => 0)) in *.
  assert (R0 : r0 0%Z = 2 /\ r0 1%Z = 0) by (split; [change (2 - (1 * 0 + (1 * 0 + 0)) = 2)|change (0 - (1 * 0 + (2 * 0 + 0)) = 0)]; lra). destruct R0 as [R00 R01].
  assert (Nb : norm 2 b2 = 2).
  { unfold norm, inner. change (sqrt (2 * 2 + (0 * 0 + 0)) = 2). replace (2 * 2 + (0 * 0 + 0)) with (2 * 2) by lra. apply sqrt_square. lra. }
  assert (K1 : k = 1%nat).
  { destruct k as [|[|k]]; [exfalso|reflexivity|lia]. specialize (Hlast ltac:(lia)). rewrite Nb in Hlast.
    assert (0 < norm 2 r0) by (apply nonzero_norm_pos; exists 0%Z; split; [lia|lra]). change (norm 2 r0 <= 2 * 0) in Hlast. lra. }
  subst k. set (X1 := X 2 (@app Rnum 2 A2x) (@prec Rnum 2 (@None (list R -> list R))) (fun _ => 0) r0 1) in *.
  assert (Res : forall i, (0 <= i < 2)%Z -> residual 2 A2 b2 X1 i = if (i =? 0)%Z then 0 else -2).
  { intros i Hi. unfold X1. rewrite <- (rk_true 2 ltac:(lia) A2 A2x HA None b2 (fun _ => 0)) by auto. fold r0. rewrite Rv_S. cbv beta.
    set (P0 := P 2 (@app Rnum 2 A2x) (@prec Rnum 2 (@None (list R -> list R))) (fun _ => 0) r0 0).
    assert (EP : P0 = r0) by reflexivity. rewrite (app_mv 2 ltac:(lia) A2 A2x HA P0 i) by auto.
    assert (Eal : al 2 (@app Rnum 2 A2x) (@prec Rnum 2 (@None (list R -> list R))) (fun _ => 0) r0 0 = 1).
    { unfold al. fold P0. rewrite EP. rewrite (ip_ext 2 r0 (@app Rnum 2 A2x r0) r0 (mat_vec 2 A2 r0)); auto. 2: intros; apply (app_mv 2 ltac:(lia) A2 A2x HA); auto.
      change (rho 2 (@app Rnum 2 A2x) (@prec Rnum 2 (@None (list R -> list R))) (fun _ => 0) r0 0) with (r0 0%Z * r0 0%Z + (r0 1%Z * r0 1%Z + 0)).
      change (ip 2 r0 (mat_vec 2 A2 r0)) with (r0 0%Z * (1 * r0 0%Z + (1 * r0 1%Z + 0)) + (r0 1%Z * (1 * r0 0%Z + (2 * r0 1%Z + 0)) + 0)). rewrite R00, R01. field. }
    rewrite Eal, EP. change (Rv 2 (@app Rnum 2 A2x) (@prec Rnum 2 (@None (list R -> list R))) (fun _ => 0) r0 0) with r0.
    assert (i = 0 \/ i = 1)%Z as [-> | ->] by lia.
    - change (r0 0%Z - 1 * (1 * r0 0%Z + (1 * r0 1%Z + 0)) = 0). rewrite R00, R01. lra.
    - change (r0 1%Z - 1 * (1 * r0 0%Z + (2 * r0 1%Z + 0)) = -2). rewrite R00, R01. lra. }
  assert (Nr : norm 2 (residual 2 A2 b2 X1) = 2).
  { rewrite (norm_ext 2 _ (fun i => if (i =? 0)%Z then 0 else -2)) by auto. unfold norm, inner. change (sqrt (0 * 0 + (-2 * -2 + 0)) = 2).
    replace (0 * 0 + (-2 * -2 + 0)) with (2 * 2) by lra. apply sqrt_square. lra. }
  destruct (run_honest 2 ltac:(lia) A2 A2x HA None ltac:(discriminate) 0 bm2 x2 b2 (fun _ => 0) (Some (alloc 1)) Hb Hx0 1 out Hv E) as (x' & Hx' & _ & _ & _ & _ & _ & _ & _ & (v & Ev & _ & _ & Hh)).
  exists out, X1, v. split; auto. split; auto. split; auto. split; [|rewrite Nr, Nb; lra].
  destruct (Hh 0%Z ltac:(rewrite Ei; cbn; lia)) as (outk & xk & Ek & Hxk & Eld). change (0 + 1)%Z with 1%Z in Ek. assert (outk = out) by congruence. subst outk.
  rewrite Eld. f_equal. rewrite <- Nr. apply norm_ext. intros i Hi. unfold residual. f_equal. apply mv_ext. intros q Hq. destruct Hx as [_ Hx], Hxk as [_ Hxk]. specialize (Hx q Hq). specialize (Hxk q Hq). congruence.
Qed.
Print Assumptions C39_res_vec_is_not_relative_refuted.
