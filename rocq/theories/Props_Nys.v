(** Nystrom branch of the AFN preconditioner: the claims C59 and C60. *)
From Coq Require Import ZArith QArith Qreals Reals List Lia Lra Bool Permutation ClassicalEpsilon.
From Verif Require Import Base Mem Num CRing FNum Spec_Lapack Proof_Lapack Spec_SPD Model_FSAI Spec_FSAI Proof_FSAIReal Model_AFN Spec_AFN Proof_AFNTop Ex_AFN Model_Nys Spec_Nys Proof_NysMath Proof_NysTop Proof_Spectral.
Import ListNotations.
Open Scope Z_scope.

(** C59.  For distinct points, a symmetric positive semidefinite kernel that
    vanishes at no pair (x, x), mu > 0 and an estimated rank between 1 and
    max_k - 1, the construction succeeds for any number of threads (at most n) and
    any order of its parallel regions; applying the preconditioner is then
    multiplication by a fixed symmetric positive definite matrix M, with x and y
    in the user's order, whatever y and the work arrays contain. *)
Theorem C59_nystrom_spd_operator {F : num} (kern : list F -> list F -> Z -> Z -> Rring) la syevd gap eps (big : F) n dim (coord : mem F) X (mu : R) nt max_k m est_rank o :
  let Kx := fun i j => kern (pt_of dim X i) (pt_of dim X j) 0 0 in
  lapack_ok la -> lapack_exact la -> syevd_ok est_rank syevd -> (forall x, 0 < gap x)%R -> (0 < eps)%R ->
  total_lt (nlt (n := F)) -> 0 <= dim -> coords_at coord 0 n n dim X -> distinct_points big n dim X ->
  symmetric n Kx -> psd n Kx -> (forall i, 0 <= i < n -> Kx i i <> 0%R) -> (0 < mu)%R ->
  1 <= nt <= n -> 1 <= est_rank <= n -> est_rank < max_k ->
  (forall i, any_order nt (ao_fps o i)) -> any_order nt (ao_k11 o) -> any_order nt (ao_k12 o) ->
  exists a M, AFN_precond_build kern la Rrsq big nt n dim coord mu max_k m est_rank (Nys_precond_build la syevd gap eps mu) o = Some a /\
    (forall i j, 0 <= i < n -> 0 <= j < n -> M i j = M j i) /\ pos_def n M /\
    forall (x y px py t1 t2 : mem Rring) xv, (forall j, 0 <= j < n -> ld x j = Some (xv j)) -> n <= zlen y ->
      zlen px = n -> zlen py = n -> zlen t1 = n -> zlen t2 = n ->
      exists y' px' py' t1' t2', AFN_precond_apply a x y px py t1 t2 = Some (y', (px', py', t1', t2')) /\
        zlen px' = n /\ zlen py' = n /\ zlen t1' = n /\ zlen t2' = n /\
        (forall i, 0 <= i < n -> ld y' i = Some (@rsum Rring 0 n (fun j => M i j * xv j)%R)) /\ forall c, ~ 0 <= c < n -> ld y' c = ld y c.
Proof.
  intros Kx LA LE HS Hg He HT Hd HX Hdi Hsy Hps Hkd Hmu Hnt Her Hmk O1 O2 O3.
  destruct (NYS_spec kern la LA LE syevd gap eps Hg He big HT n dim coord X Hd HX mu Hmu Hsy Hps Hkd Hdi nt max_k m est_rank o Hnt Her Hmk O1 O2 O3 HS) as (a & M & sel & nu & N & U & lam & E & Ha & H1 & H2 & _).
  exists a, M. split; [exact E|]. split; [exact H1|]. split; [exact H2|]. intros x y px py t1 t2 xv Hx Hy Z1 Z2 Z3 Z4.
  destruct (Ha x y px py t1 t2 xv Hx Hy Z1 Z2 Z3 Z4) as (y' & p1 & p2 & p3 & p4 & Q & W1 & W2 & W3 & W4 & _ & W5 & W6). exists y', p1, p2, p3, p4. split; [exact Q|]. auto 10.
Qed.
Print Assumptions C59_nystrom_spd_operator.

(** C60.  Applying it is multiplication by eta (U diag(s + mu) U^T + eta (I - U U^T))^-1
    where s = max(lam - nu, 0), eta = s 0 + mu and U diag(lam) U^T is, up to the
    truncation tolerance, the Nystrom approximation of K(X, X) that the
    est_rank farthest points give. *)
Theorem C60_nystrom_inverse {F : num} (kern : list F -> list F -> Z -> Z -> Rring) la syevd gap eps (big : F) n dim (coord : mem F) X (mu : R) nt max_k m est_rank o :
  let Kx := fun i j => kern (pt_of dim X i) (pt_of dim X j) 0 0 in
  lapack_ok la -> lapack_exact la -> syevd_ok est_rank syevd -> (forall x, 0 < gap x)%R -> (0 < eps)%R ->
  total_lt (nlt (n := F)) -> 0 <= dim -> coords_at coord 0 n n dim X -> distinct_points big n dim X ->
  symmetric n Kx -> psd n Kx -> (forall i, 0 <= i < n -> Kx i i <> 0%R) -> (0 < mu)%R ->
  1 <= nt <= n -> 1 <= est_rank <= n -> est_rank < max_k ->
  (forall i, any_order nt (ao_fps o i)) -> any_order nt (ao_k11 o) -> any_order nt (ao_k12 o) ->
  exists a M sel nu N U lam, AFN_precond_build kern la Rrsq big nt n dim coord mu max_k m est_rank (Nys_precond_build la syevd gap eps mu) o = Some a /\
    farthest_points big n dim X est_rank sel /\ (0 < nu)%R /\
    nystrom_approx n est_rank Kx sel nu N /\ eig_approx n est_rank eps N U lam /\ nys_inverse n est_rank mu nu U lam M /\
    forall (x y px py t1 t2 : mem Rring) xv, (forall j, 0 <= j < n -> ld x j = Some (xv j)) -> n <= zlen y ->
      zlen px = n -> zlen py = n -> zlen t1 = n -> zlen t2 = n ->
      exists y' w, AFN_precond_apply a x y px py t1 t2 = Some (y', w) /\
        forall i, 0 <= i < n -> ld y' i = Some (@rsum Rring 0 n (fun j => M i j * xv j)%R).
Proof.
  intros Kx LA LE HS Hg He HT Hd HX Hdi Hsy Hps Hkd Hmu Hnt Her Hmk O1 O2 O3.
  destruct (NYS_spec kern la LA LE syevd gap eps Hg He big HT n dim coord X Hd HX mu Hmu Hsy Hps Hkd Hdi nt max_k m est_rank o Hnt Her Hmk O1 O2 O3 HS) as (a & M & sel & nu & N & U & lam & E & Ha & H1 & H2 & P1 & P2 & P3 & P4 & P5).
  exists a, M, sel, nu, N, U, lam. repeat (split; [first [exact E | exact P1 | exact P2 | exact P3 | exact P4 | exact P5]|]).
  intros x y px py t1 t2 xv Hx Hy Z1 Z2 Z3 Z4.
  destruct (Ha x y px py t1 t2 xv Hx Hy Z1 Z2 Z3 Z4) as (y' & p1 & p2 & p3 & p4 & Q & W1 & W2 & W3 & W4 & _ & W5 & W6). eauto.
Qed.
Print Assumptions C60_nystrom_inverse.

(** Defect: an estimated rank of 0, which the estimator returns when no sampled
    eigenvalue exceeds 1.1 mu, makes the construction read S[-1]. *)
Theorem C60_rank_zero_refuted {F : num} (kern : list F -> list F -> Z -> Z -> Rring) la syevd gap eps (big : F) n dim (coord : mem F) (mu : R) nt max_k m o :
  1 <= max_k -> AFN_precond_build kern la Rrsq big nt n dim coord mu max_k m 0 (Nys_precond_build la syevd gap eps mu) o = None.
Proof.
  intros Hk. assert (NZ : forall n2 A B, Nys_precond_build la syevd gap eps mu 0 n2 A B = None).
  { intros n2 A B. unfold Nys_precond_build. cbv zeta. destruct (nys_K1 gap 0 n2 A B) as [[K1 nu]|]; [cbn [bind]|reflexivity].
    destruct (nys_invL la 0 nu A) as [iL|]; [cbn [bind]|reflexivity].
    match goal with |- bind ?e _ = _ => destruct e as [Mm|]; [cbn [bind]|reflexivity] end.
    match goal with |- bind ?e _ = _ => destruct e as [MT|]; [cbn [bind]|reflexivity] end.
    match goal with |- bind ?e _ = _ => destruct e as [[MT2 Sv]|]; [cbn [bind]|reflexivity] end.
    assert (Z : nys_scale eps 0 Sv = None) by reflexivity. rewrite Z. reflexivity. }
  unfold AFN_precond_build. destruct (Z.ltb_spec 0 max_k) as [_|C]; [|lia]. cbv zeta.
  repeat match goal with |- bind ?e _ = _ => match e with Nys_precond_build _ _ _ _ _ _ _ _ _ => rewrite NZ; reflexivity | _ => destruct e; [cbn [bind]|reflexivity] end end.
Qed.
Print Assumptions C60_rank_zero_refuted.

(** An eigensolver exists for every size. *)
Definition Rsyevd (n : Z) (A : Z -> Z -> R) : (Z -> Z -> R) * (Z -> R) :=
  epsilon (inhabits (fun _ _ => 0%R, fun _ => 0%R)) (fun p => eig_ok n A (fst p) (snd p)).
Lemma Rsyevd_ok n : 0 <= n -> syevd_ok n Rsyevd.
Proof.
  intros Hn A Sym. destruct (spectral n Hn A Sym) as (V & s & H). unfold Rsyevd. apply epsilon_spec. exists (V, s). exact H.
Qed.

(** The hypotheses hold for four points on a line, the kernel p q + 1, mu = 1 and
    an estimated rank of 2. *)
Definition exn_kern (p q : list Qred_num) (_ _ : Z) : Rring := (Q2R (hd 0%Q p) * Q2R (hd 0%Q q) + 1)%R.
Lemma exn_kernel i j : exn_kern (pt_of 1 ex_X i) (pt_of 1 ex_X j) 0 0 = (ex_v i * ex_v j + 1)%R.
Proof. reflexivity. Qed.
Lemma exn_sym : symmetric 4 (fun i j => exn_kern (pt_of 1 ex_X i) (pt_of 1 ex_X j) 0 0).
Proof. intros i j _ _. rewrite !exn_kernel. f_equal. apply Rmult_comm. Qed.
Lemma exn_psd : psd 4 (fun i j => exn_kern (pt_of 1 ex_X i) (pt_of 1 ex_X j) 0 0).
Proof.
  intros y. rewrite (quad_ext 4 _ (fun i j => S 0 2 (fun k => (if k =? 0 then ex_v i else 1) * 1 * (if k =? 0 then ex_v j else 1))%R)).
  - rewrite quad_outer. apply S_nonneg. intros k Hk. rewrite Rmult_1_l. apply Rle_0_sqr.
  - intros i j _ _. rewrite exn_kernel. replace 2 with (0 + 1 + 1) by lia. rewrite S_snoc by lia. unfold S. rewrite (@rsum_one Rring). change (0 =? 0) with true. change (0 + 1 =? 0) with false. cbv iota. change (cadd (c := Rring)) with Rplus. cbv beta. ring.
Qed.
Lemma exn_diag i : 0 <= i < 4 -> exn_kern (pt_of 1 ex_X i) (pt_of 1 ex_X i) 0 0 <> 0%R.
Proof. intros _. rewrite exn_kernel. pose proof (Rle_0_sqr (ex_v i)) as Q. unfold Rsqr in Q. lra. Qed.
Definition exn_ord : afn_ord := AOrd (fun _ => [2; 0; 1]) [1; 2; 0] [0; 1; 2] (FOrd [] [] [] [] []).
Lemma exn_ord_ok : (forall i, any_order 3 (ao_fps exn_ord i)) /\ any_order 3 (ao_k11 exn_ord) /\ any_order 3 (ao_k12 exn_ord).
Proof.
  assert (Q3 : any_order 3 [2; 0; 1]) by (unfold any_order; change (zrange 0 3) with [0; 1; 2]; apply (Permutation_cons_append [0; 1] 2)).
  assert (R3 : any_order 3 [1; 2; 0]) by (unfold any_order; change (zrange 0 3) with [0; 1; 2]; apply Permutation_sym, (Permutation_cons_append [1; 2] 0)).
  repeat split; auto. apply Permutation_refl.
Qed.
Example C59_example : exists a M, AFN_precond_build exn_kern Rlapack Rrsq (1000%Q : Qred_num) 3 4 1 ex_coord 1%R 3 7 2 (Nys_precond_build Rlapack Rsyevd (fun _ => 1%R) (/ 1000)%R 1%R) exn_ord = Some a /\ pos_def 4 M.
Proof.
  destruct exn_ord_ok as (O1 & O2 & O3).
  destruct (C59_nystrom_spd_operator exn_kern Rlapack Rsyevd (fun _ => 1%R) (/ 1000)%R (1000%Q : Qred_num) 4 1 ex_coord ex_X 1%R 3 3 7 2 exn_ord) as (a & M & E & _ & P & _);
    try solve [exact Rlapack_ok | exact Rlapack_exact | apply Rsyevd_ok; lia | intros; lra | lra | exact Qred_total | lia | exact ex_coords | exact ex_distinct | exact exn_sym | exact exn_psd | exact exn_diag | exact O1 | exact O2 | exact O3].
  exists a, M. split; [exact E|exact P].
Qed.
Example C60_example : exists a sel nu N, AFN_precond_build exn_kern Rlapack Rrsq (1000%Q : Qred_num) 3 4 1 ex_coord 1%R 3 7 2 (Nys_precond_build Rlapack Rsyevd (fun _ => 1%R) (/ 1000)%R 1%R) exn_ord = Some a /\
  nystrom_approx 4 2 (fun i j => exn_kern (pt_of 1 ex_X i) (pt_of 1 ex_X j) 0 0) sel nu N.
Proof.
  destruct exn_ord_ok as (O1 & O2 & O3).
  destruct (C60_nystrom_inverse exn_kern Rlapack Rsyevd (fun _ => 1%R) (/ 1000)%R (1000%Q : Qred_num) 4 1 ex_coord ex_X 1%R 3 3 7 2 exn_ord) as (a & M & sel & nu & N & U & lam & E & P1 & P2 & P3 & _);
    try solve [exact Rlapack_ok | exact Rlapack_exact | apply Rsyevd_ok; lia | intros; lra | lra | exact Qred_total | lia | exact ex_coords | exact ex_distinct | exact exn_sym | exact exn_psd | exact exn_diag | exact O1 | exact O2 | exact O3].
  exists a, sel, nu, N. split; [exact E|exact P3].
Qed.
