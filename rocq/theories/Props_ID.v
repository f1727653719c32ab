(** Interpolative decomposition: C24, C25. *)
From Coq Require Import ZArith QArith List Lia Bool Permutation Reals Qreals Lra.
From Verif Require Import Base Mem CRing FNum Model_Utils Model_Dense Model_ID Spec_Utils Spec_Dense Spec_ID Proof_Utils
  Proof_IDMem Proof_IDQR Proof_IDIndex Proof_IDSolve Proof_IDQRk Proof_IDStruct Proof_IDMath Proof_IDInv Proof_IDInvk Proof_IDFinal Proof_IDResid.
Import ListNotations.
Open Scope Z_scope.

(** C24: in any arithmetic whose division gives a value, for every matrix, every
    stopping rule and every schedule of the parallel loops, the decomposition
    returns increasing, distinct points within range, no more rows than the
    matrix has rows or columns (or than asked for), and a fully defined n x r
    matrix that is the identity at the skeleton rows. *)
Theorem C24_skeleton : forall (F : fnum) dbl (stp : @stop F) kdim npt n m want_U ord0 ord A J l a,
  div_total F -> 1 <= kdim -> 1 <= n -> n = npt * kdim -> dm_holds A n m a -> (1 < kdim -> n * dm_ld A <= zlen (dm_data A)) -> iv_holds J l ->
  schedules kdim n m ord0 ord ->
  exists A' J' U sk u, id_compress dbl stp kdim want_U ord0 ord A J = Some (A', J', if want_U then Some U else None) /\
    iv_holds J' sk /\ dm_holds U n (zlen sk * kdim) u /\ skeleton_of kdim npt sk u /\
    zlen sk * kdim <= Z.min n m /\ rank_limit stp (zlen sk * kdim).
Proof.
  intros F dbl stp kdim npt n m want_U ord0 ord A J l a Hd Hk Hn En HA Hbuf HJ Ho.
  destruct (id_compress_spec dbl stp kdim npt n m want_U ord0 ord A J l a Hk Hn En HA Hbuf HJ Ho) as [(A' & J' & U & sk & u & E & H1 & H2 & H3 & H4 & H5)|(_ & X & _)].
  - intros M p r _ k b _. apply Hd.
  - exists A', J', U, sk, u. split; auto. split; auto. split; auto.
    assert (Hnpt : 0 <= npt) by (apply (Z.mul_le_mono_pos_r _ _ kdim); lia). assert (Hm : 0 <= m) by (destruct HA as (_ & _ & _ & (_ & X & _) & _); auto).
    pose proof (zlen_nonneg sk). assert (0 <= zlen sk * kdim) by (apply Z.mul_nonneg_nonneg; lia).
    assert (B : zlen sk * kdim <= Z.min m n /\ rank_limit stp (zlen sk * kdim)).
    { destruct H5 as [M p s q E0 r Org _ _ _ _ _ _ _ _ _]. destruct (origin_struct dbl stp kdim m n npt _ M p r ltac:(lia) Hm Hnpt En Org) as (_ & _ & B1 & B2 & _). auto. }
    split; [|split; [lia|apply B]]. split; auto. split; auto. apply (id_out_identity dbl stp kdim m n npt a sk u); auto. lia.
  - contradiction.
Qed.
Print Assumptions C24_skeleton.

(** ** C25, over the reals *)
Lemma fq_run_Some dbl (stp : @stop Rnum) n m (a : Z -> Z -> R) mu : 0 <= m -> 0 <= n -> max_norm 1 n m a mu -> (0 < tolerance dbl stp 1 m mu)%R ->
  let '(tol_rank, tol_norm, rel) := stop_params stp 1 (Z.min m n) in @fq_run Rnum dbl m n rel tol_rank tol_norm (fun r c => a c r) <> None.
Proof.
  intros Hm Hn Hmu Ht. pose proof (fun x => stop_norm_tol dbl stp 1 m (Z.min m n) x) as Et. destruct (stop_params stp 1 (Z.min m n)) as ((tol_rank & tol_norm) & rel).
  unfold fq_run. assert (E : (f_np (@fq_init Rnum m n (fun r c => a c r)) = mu :> R)).
  { apply (max_norm_unique 1 n m a); auto; [apply init1_max; auto|apply (max_norm_nonneg 1 n m a), init1_max; auto|eapply max_norm_nonneg; eauto]. }
  rewrite Et, E. destruct (qinv_run dbl m n (fun r c => a c r) _ (Z.min (Z.min m n) tol_rank) Ht Hm Hn _ (qinv_init m n (fun r c => a c r) _ _ Hm Hn)) as (s' & E' & _). rewrite E'. discriminate.
Qed.

Lemma C25_core : forall dbl (stp : @stop Rnum) kdim npt n m want_U ord0 ord A J l a mu,
  1 <= kdim -> 1 <= n -> n = npt * kdim -> @dm_holds Rnum A n m a -> (1 < kdim -> n * dm_ld A <= zlen (dm_data A)) -> iv_holds J l -> schedules kdim n m ord0 ord ->
  max_norm kdim npt m a mu -> (0 < tolerance dbl stp kdim m mu)%R -> (kdim = 1 \/ id_compress dbl stp kdim want_U ord0 ord A J <> None) ->
  exists A' J' U sk u, id_compress dbl stp kdim want_U ord0 ord A J = Some (A', J', if want_U then Some U else None) /\
    iv_holds J' sk /\ dm_holds U n (zlen sk * kdim) u /\ skeleton_of kdim npt sk u /\ @id_out Rnum dbl stp kdim m n npt a sk u.
Proof.
  intros dbl stp kdim npt n m want_U ord0 ord A J l a mu Hk Hn En HA Hbuf HJ Ho Hmu Ht Hc.
  assert (Hnpt : 0 <= npt) by (apply (Z.mul_le_mono_pos_r _ _ kdim); lia). assert (Hm : 0 <= m) by (destruct HA as (_ & _ & _ & (_ & X & _) & _); auto).
  destruct (@id_compress_spec Rnum dbl stp kdim npt n m want_U ord0 ord A J l a Hk Hn En HA Hbuf HJ Ho) as [(A' & J' & U & sk & u & E & H1 & H2 & H3 & H4 & H5)|(X & _ & Y)].
  - intros M p r Org k b Hkr. destruct (@origin_struct Rnum dbl stp kdim m n npt _ M p r ltac:(lia) Hm Hnpt En Org) as (_ & (q & -> & _) & _).
    destruct (origin_math dbl stp kdim m n npt a M p q mu ltac:(lia) Hm Hnpt En Hmu Ht Org) as (_ & T & _). destruct (T k Hkr) as [Nz _].
    cbn [fdiv Rnum]. destruct (Req_EM_T (M k k) 0) as [|_]; [contradiction|eauto].
  - exists A', J', U, sk, u. split; auto. split; auto. split; auto. split; auto. split; auto. split; auto.
    pose proof (zlen_nonneg sk). assert (0 <= zlen sk * kdim) by (apply Z.mul_nonneg_nonneg; lia).
    apply (@id_out_identity Rnum dbl stp kdim m n npt a sk u); auto. split; auto. destruct H4 as (_ & _ & _ & _). destruct H5 as [M p s q E0 r Org _ _ _ _ _ _ _ _ _]. destruct (@origin_struct Rnum dbl stp kdim m n npt _ M p r ltac:(lia) Hm Hnpt En Org) as (_ & _ & B1 & _). lia.
  - destruct Hc as [E1|E1]; [|contradiction]. subst kdim. rewrite Z.mul_1_r in En. subst npt. pose proof (fq_run_Some dbl stp n m a mu Hm ltac:(lia) Hmu Ht) as S. specialize (Y eq_refl).
    destruct (stop_params stp 1 (Z.min m n)) as ((tol_rank & tol_norm) & rel). contradiction.
Qed.

(** C25: in exact arithmetic, the part of the matrix that the skeleton does not
    reproduce is orthogonal to the skeleton rows, and with a norm tolerance every
    point's residual is under the tolerance (points with kdim > 1 rows: the
    residual of the whole group, provided the number of columns is a multiple of
    kdim).  For kdim = 1 the decomposition always returns. *)
Theorem C25_residual : forall dbl (stp : @stop Rnum) kdim npt n m want_U ord0 ord A J l a mu,
  1 <= kdim -> 1 <= n -> n = npt * kdim -> @dm_holds Rnum A n m a -> (1 < kdim -> n * dm_ld A <= zlen (dm_data A)) -> iv_holds J l -> schedules kdim n m ord0 ord ->
  max_norm kdim npt m a mu -> (0 < tolerance dbl stp kdim m mu)%R -> (kdim = 1 \/ id_compress dbl stp kdim want_U ord0 ord A J <> None) ->
  exists A' J' U sk u, id_compress dbl stp kdim want_U ord0 ord A J = Some (A', J', if want_U then Some U else None) /\
    iv_holds J' sk /\ dm_holds U n (zlen sk * kdim) u /\ skeleton_of kdim npt sk u /\
    (forall i, 0 <= i < n -> orthogonal_to_skeleton kdim m sk a u i) /\
    match stp with
    | QR_RANK q => zlen sk * kdim <= Z.max 0 q /\
        (zlen sk < Z.min (Z.min m n / kdim) (Z.quot q kdim) -> forall j, 0 <= j < npt -> (grp_norm kdim m (resid kdim sk a u) j < tolerance dbl stp kdim m mu)%R)
    | _ => (kdim | m) -> forall j, 0 <= j < npt -> (grp_norm kdim m (resid kdim sk a u) j < tolerance dbl stp kdim m mu)%R
    end.
Proof.
  intros dbl stp kdim npt n m want_U ord0 ord A J l a mu Hk Hn En HA Hbuf HJ Ho Hmu Ht Hc.
  assert (Hnpt : 0 <= npt) by (apply (Z.mul_le_mono_pos_r _ _ kdim); lia). assert (Hm : 0 <= m) by (destruct HA as (_ & _ & _ & (_ & X & _) & _); auto).
  destruct (C25_core dbl stp kdim npt n m want_U ord0 ord A J l a mu Hk Hn En HA Hbuf HJ Ho Hmu Ht Hc) as (A' & J' & U & sk & u & E & H1 & H2 & H3 & H4).
  exists A', J', U, sk, u. do 4 (split; [assumption|]).
  destruct (id_out_resid dbl stp kdim m n npt a u sk mu ltac:(lia) Hm Hnpt En Hmu Ht H4) as (O & S & Z0). split; auto.
  assert (B : zlen sk * kdim <= Z.min m n /\ rank_limit stp (zlen sk * kdim)).
  { destruct H4 as [M p s q E0 r Org _ _ _ _ _ _ _ _ _]. destruct (@origin_struct Rnum dbl stp kdim m n npt _ M p r ltac:(lia) Hm Hnpt En Org) as (_ & _ & B1 & B2 & _). auto. }
  assert (Full : fst (fst (stop_params stp kdim (Z.min m n))) = Z.min m n -> (kdim | m) -> forall j, 0 <= j < npt -> (grp_norm kdim m (resid kdim sk a u) j < tolerance dbl stp kdim m mu)%R).
  { intros Ep (m' & Em) j Hj. destruct S as [S|S]; [auto|]. rewrite Ep in S. rewrite Z.quot_div_nonneg, Z.min_id in S by lia.
    assert (Emin : Z.min m n = Z.min m' npt * kdim) by (rewrite Em, En, Z.mul_min_distr_nonneg_r; lia). rewrite Emin, Z.div_mul in S by lia.
    assert (zlen sk * kdim = Z.min m n). { assert (Z.min m' npt * kdim <= zlen sk * kdim) by (apply Z.mul_le_mono_nonneg_r; lia). lia. }
    assert (R0 : forall i l, 0 <= i < n -> 0 <= l < m -> resid kdim sk a u i l = 0%R) by (apply Z0; lia).
    assert (EN : grp_norm kdim m (resid kdim sk a u) j = 0%R).
    { unfold grp_norm. replace (Rsum 0 kdim _) with 0%R; [apply sqrt_0|]. symmetry. rewrite Rsum_sumR. apply sumR_zero. intros t Ht'. rewrite Rsum_sumR. apply sumR_zero. intros l' Hl.
      rewrite R0; [lra| |auto]. rewrite En. apply blk_in; lia. }
    rewrite EN. auto. }
  destruct stp as [q|tol|tol].
  - split; [apply B|]. intros L. destruct S as [S|S]; [auto|]. cbn [stop_params fst] in S. lia.
  - apply Full. reflexivity.
  - apply Full. reflexivity.
Qed.
Print Assumptions C25_residual.

(** Orthogonality makes the interpolation the best possible one from those
    skeleton rows: any other coefficients [w] leave a row residual at least as
    large. *)
Theorem C25_best : forall kdim m sk (a u : Z -> Z -> R) i (w : Z -> R), orthogonal_to_skeleton kdim m sk a u i ->
  (Rsum 0 m (fun l => resid kdim sk a u i l * resid kdim sk a u i l) <=
   Rsum 0 m (fun l => (a i l - Rsum 0 (zlen sk * kdim) (fun k => w k * a (skrow kdim sk k) l)) * (a i l - Rsum 0 (zlen sk * kdim) (fun k => w k * a (skrow kdim sk k) l))))%R.
Proof.
  intros kdim m sk a u i w Ho. set (r := zlen sk * kdim) in *. set (b := fun k l => a (skrow kdim sk k) l). set (y := resid kdim sk a u i).
  set (d := (fun l => sumR 0 r (fun k => (w k - u i k) * b k l)%R) : Z -> R).
  assert (E : forall l, (a i l - Rsum 0 r (fun k => w k * b k l) = y l - 1 * d l)%R).
  { intros l. unfold y, resid, d. fold r. rewrite !Rsum_sumR. fold (b). change (fun k => (u i k * a (skrow kdim sk k) l)%R) with (fun k => (u i k * b k l)%R).
    rewrite (sumR_ext 0 r (fun k => (w k - u i k) * b k l)%R (fun k => (w k * b k l - u i k * b k l)%R)) by (intros; ring). rewrite sumR_sub. set (X := sumR 0 r (fun k => (w k * b k l)%R) : R). set (Y := sumR 0 r (fun k => (u i k * b k l)%R) : R). change (a i l - X = a i l - Y - 1 * (X - Y))%R. lra. }
  change (ip m y y <= ip m (fun l => a i l - Rsum 0 r (fun k => w k * b k l)) (fun l => a i l - Rsum 0 r (fun k => w k * b k l)))%R.
  rewrite (ip_ext m (fun l => a i l - Rsum 0 r (fun k => w k * b k l))%R (fun l => a i l - Rsum 0 r (fun k => w k * b k l))%R (fun l => y l - 1 * d l)%R (fun l => y l - 1 * d l)%R) by (intros l _; apply E).
  rewrite ip_sub_l, !ip_sub_r.
  assert (Od : ip m y d = 0%R).
  { unfold ip, d. rewrite (sumR_ext 0 m _ (fun l => sumR 0 r (fun k => (w k - u i k) * (y l * b k l))%R)).
    2:{ intros l _. rewrite <- sumR_mul_l. apply sumR_ext. intros k _. ring. }
    rewrite sumR_swap. apply sumR_zero. intros k Hk. rewrite sumR_mul_l. pose proof (Ho k Hk) as H. rewrite Rsum_sumR in H. fold y in H. unfold b. rewrite H. lra. }
  rewrite (ip_sym m d y), Od. pose proof (ip_nonneg m d). lra.
Qed.
Print Assumptions C25_best.

(** ** Defects *)
(** A zero matrix with a relative tolerance (or a rank): the stopping norm is 0,
    no norm is under it, and the first Householder vector is 0 / 0: no finite
    result, whatever the size. *)
Theorem C25_zero_matrix_refuted : forall dbl (tol : R) n m want_U ord0 ord (A : dmat Rnum) J l,
  1 <= n -> 1 <= m -> @dm_holds Rnum A n m (fun _ _ => 0%R) -> iv_holds J l -> schedules 1 n m ord0 ord ->
  @id_compress Rnum dbl (@QR_REL_NRM Rnum tol) 1 want_U ord0 ord A J = None.
Proof.
  intros dbl tol n m want_U ord0 ord A J l Hn Hm HA HJ Ho. set (a := (fun _ _ => 0%R) : Z -> Z -> R).
  assert (Z0 : forall (x : Z -> R) k, (forall i, x i = 0%R) -> @fnrm2 Rnum (map x (zrange 0 k)) = 0%R).
  { intros x k Hx. change (sqrt (Rdot (map x (zrange 0 k)) (map x (zrange 0 k))) = 0%R). rewrite Rdot_ip. unfold ip. rewrite sumR_zero; [apply sqrt_0|]. intros i _. rewrite Hx. lra. }
  assert (N0 : fq_run dbl m n true (Z.min m n) (@fmul Rnum tol (@fsqrt Rnum (@flit Rnum (inject_Z 1)))) (fun r c => a c r) = None).
  { unfold fq_run. assert (E0 : (f_np (@fq_init Rnum m n (fun r c => a c r)) = 0 :> R)%R).
    { destruct (init1_max m n a ltac:(lia) ltac:(lia)) as [_ [E|(j & _ & E)]]; auto. rewrite E. unfold grp_norm. replace (Rsum 0 1 _) with 0%R; [apply sqrt_0|]. symmetry. rewrite Rsum_sumR. apply sumR_zero. intros. rewrite Rsum_sumR. apply sumR_zero. intros. unfold a. lra. }
    rewrite Z.min_id. rewrite zfor_step by lia. unfold fq_step at 1. change (f_rank (@fq_init Rnum m n (fun r c => a c r)) =? -1) with true. cbn [negb].
    assert (Es : @flt Rnum (f_np (@fq_init Rnum m n (fun r c => a c r))) (@stop_norm Rnum dbl true m (@fmul Rnum tol (@fsqrt Rnum (@flit Rnum (inject_Z 1)))) (f_np (@fq_init Rnum m n (fun r c => a c r)))) = false).
    { rewrite E0. unfold stop_norm. match goal with |- @flt Rnum ?x (@fmul Rnum ?s ?y) = false => change (Rltb x (s * y)%R = false) end. rewrite Rmult_0_r. unfold Rltb. destruct (Rlt_dec 0 0); [lra|reflexivity]. }
    rewrite Es. destruct (Z.leb_spec (Z.min m n) 0); [lia|]. cbn [orb]. cbv zeta.
    match goal with |- context [@hinv Rnum ?x ?k] => set (xx := x : Z -> R); assert (Hx : forall i, xx i = 0%R) by reflexivity; assert (Eh : @hinv Rnum xx k = None) end; [|rewrite Eh; reflexivity].
    unfold hinv. assert (Ex : forall i, @hraw Rnum xx (m - 0) i = 0%R).
    { intros i. unfold hraw. assert (En : @hnorm Rnum xx (m - 0) = 0%R) by (apply Z0; auto). destruct (i =? 0); [|apply Hx].
      change (xx 0%Z + @hsign Rnum xx * @hnorm Rnum xx (m - 0)%Z = 0)%R. rewrite Hx, En. lra. }
    rewrite Z0 by exact Ex. cbn [fdiv Rnum]. destruct (Req_EM_T 0 0); [reflexivity|lra]. }
  assert (En : @id_qr Rnum dbl (@QR_REL_NRM Rnum tol) 1 m n (dm_ld A) ord0 ord (dm_data A) = fun p => '(R, p, r) <- @pivot_qr Rnum dbl true m n (dm_ld A) (Z.min m n) (@fmul Rnum tol (@fsqrt Rnum (@flit Rnum (inject_Z 1)))) ord0 ord (dm_data A) p; p <- (if r =? 0 then zfor 0 n (fun i p => st p i i) p else Some p); Some (R, p, r)) by reflexivity.
  destruct HA as (Aok & An & Am & Fit & HA). unfold id_compress. rewrite An, Am. destruct (iv_set_capacity_spec J l n HJ) as (J1 & -> & HJ1 & Ecap). cbn [bind]. rewrite En.
  destruct Ho as [O1 O2]. rewrite Z.div_1_r in O2. cbn [Z.eqb Pos.eqb] in O2.
  destruct Fit as (F1 & F2 & _ & F3 & _). assert (Zj : zlen (iv_data J1) = iv_cap J1) by (destruct HJ1; auto).
  pose proof (@pivot_qr_sim Rnum dbl m n (dm_ld A) true (Z.min m n) (@fmul Rnum tol (@fsqrt Rnum (@flit Rnum (inject_Z 1)))) ord0 ord (dm_data A) (fun r c => a c r) (iv_data J1) ltac:(lia) ltac:(lia) O1 ltac:(intros i Hi; apply O2; lia) ltac:(intros r c Hr Hc; apply HA; auto) ltac:(lia)) as Sim.
  rewrite N0 in Sim. rewrite Sim. reflexivity.
Qed.
Print Assumptions C25_zero_matrix_refuted.

(** Skeleton rows are linearly independent, so a point whose kdim rows are
    dependent (here twice the same row) cannot be chosen; when it has to be, the
    block Householder step divides by zero. *)
Definition eq2_m : @dmat R := mkDM 2 2 2 4 [Some 1%R; Some 0%R; Some 1%R; Some 0%R].
Theorem C25_dependent_group_refuted : exists (A : @dmat R) a mu, @dm_holds R A 2 2 a /\ max_norm 2 1 2 a mu /\ (0 < tolerance true (@QR_REL_NRM Rnum (1 / 2)%R) 2 2 mu)%R /\
  forall J l want_U ord0 ord, iv_holds J l -> schedules 2 2 2 ord0 ord -> @id_compress Rnum true (@QR_REL_NRM Rnum (1 / 2)%R) 2 want_U ord0 ord A J = None.
Proof.
  set (a := (fun _ l => if l =? 0 then 1%R else 0%R) : Z -> Z -> R).
  assert (Ga : grp_norm 2 2 a 0 = sqrt 2). { unfold grp_norm, Rsum, a. change (zrange 0 2) with [0; 1]. cbn. change (0 =? 0) with true. change (1 =? 0) with false. cbv iota. f_equal. lra. }
  assert (S2 : (0 < sqrt 2)%R) by (apply sqrt_lt_R0; lra).
  assert (Mu : max_norm 2 1 2 a (sqrt 2)).
  { split; [intros j Hj; assert (j = 0) by lia; subst j; rewrite Ga; lra|]. right. exists 0. split; [lia|auto]. }
  assert (Tl : (tolerance true (@QR_REL_NRM Rnum (1 / 2)%R) 2 2 (sqrt 2) = 1)%R).
  { unfold tolerance. rewrite Rmax_right.
    - rewrite Rmult_assoc, sqrt_sqrt; lra.
    - assert (Q2R (1 # 10 ^ 15) <= 1 / 2)%R.
      { assert (E : (1 / 2 = Q2R (1 # 2))%R) by (unfold Q2R; cbn; lra). rewrite E. apply Qle_Rle. unfold Qle. cbn. lia. }
      rewrite (Rmult_comm (sqrt 2)). apply Rmult_le_compat_r; lra. }
  exists eq2_m, a, (sqrt 2). assert (HA : @dm_holds R eq2_m 2 2 a).
  { split; [reflexivity|]. split; [reflexivity|]. split; [reflexivity|]. split; [unfold fits; repeat split; intros; cbn; zlia|].
    intros i j Hi Hj. assert (i = 0 \/ i = 1) as [-> | ->] by lia; assert (j = 0 \/ j = 1) as [-> | ->] by lia; reflexivity. }
  split; auto. split; auto. split; [rewrite Tl; lra|]. intros J l want_U ord0 ord HJ Ho.
  destruct (@id_compress Rnum true (@QR_REL_NRM Rnum (1 / 2)%R) 2 want_U ord0 ord eq2_m J) as [x|] eqn:Ex; [exfalso|reflexivity].
  destruct (C25_core true (@QR_REL_NRM Rnum (1 / 2)%R) 2 1 2 2 want_U ord0 ord eq2_m J l a (sqrt 2) ltac:(lia) ltac:(lia) eq_refl HA ltac:(intros; cbn; zlia) HJ Ho Mu ltac:(rewrite Tl; lra) ltac:(right; rewrite Ex; discriminate)) as (A' & J' & U & sk & u & E & H1 & H2 & H3 & H4).
  destruct H4 as [M p s q E0 r Org Pp _ _ _ _ _ _ _ _]. subst r.
  destruct (@origin_struct Rnum true _ 2 2 2 1 _ M p _ ltac:(lia) ltac:(lia) ltac:(lia) eq_refl Org) as (_ & _ & B & _ & _).
  destruct (origin_math true _ 2 2 2 1 a M p (zlen sk) (sqrt 2) ltac:(lia) ltac:(lia) ltac:(lia) eq_refl Mu ltac:(rewrite Tl; lra) Org) as (G & T & St).
  assert (AG : forall c c', ip 2 (fun r => a c r) (fun r => a c' r) = 1%R). { intros. unfold ip, rsum, lsum, a. change (zrange 0 2) with [0; 1]. cbn. change (0 =? 0) with true. change (1 =? 0) with false. cbv iota. lra. }
  assert (MG : forall c c', (0 <= c < 2)%Z -> (0 <= c' < 2)%Z -> (M 0%Z c * M 0%Z c' + M 1%Z c * M 1%Z c' = 1)%R).
  { intros c c' Hc Hc'. pose proof (eq_trans (G c c' Hc Hc') (AG (p c) (p c'))) as G1. unfold ip, rsum, lsum in G1. change (zrange 0 2) with [0; 1] in G1. cbn in G1. lra. }
  pose proof (zlen_nonneg sk). assert (zlen sk = 0 \/ zlen sk = 1) as [E1|E1] by lia.
  - rewrite E1 in St. destruct St as [St|St]; [|vm_compute in St; apply St; reflexivity].
    specialize (St 0 ltac:(lia)). rewrite Tl in St. assert (Bt : (btail 2 2 M (0 * 2) 0 = 2)%R).
    { unfold btail, tail, rsum, lsum. change (0 * 2) with 0. change (zrange 0 2) with [0; 1]. cbn. pose proof (MG 0 0 ltac:(lia) ltac:(lia)). pose proof (MG 1 1 ltac:(lia) ltac:(lia)). change (0 + 0)%Z with 0%Z. change (0 + 1)%Z with 1%Z. lra. }
    rewrite Bt in St. rewrite <- sqrt_1 in St. apply sqrt_lt_0_alt in St. lra.
  - rewrite E1 in T. destruct (T 0 ltac:(lia)) as [_ T0]. destruct (T 1 ltac:(lia)) as [T1 _]. specialize (T0 1 ltac:(lia)).
    pose proof (MG 0 0 ltac:(lia) ltac:(lia)) as G0. pose proof (MG 0 1 ltac:(lia) ltac:(lia)) as G1. pose proof (MG 1 1 ltac:(lia) ltac:(lia)) as G2. rewrite T0 in G0, G1.
    assert (D : (M 0%Z 1%Z = M 0%Z 0%Z)%R). { assert ((M 0%Z 0%Z) * (M 0%Z 1%Z - M 0%Z 0%Z) = 0)%R by nra. apply Rmult_integral in H0 as [H0|H0]; [rewrite H0 in G0; lra|lra]. }
    rewrite D in G2. assert (M 1%Z 1%Z * M 1%Z 1%Z = 0)%R by lra. apply Rmult_integral in H0 as [H0|H0]; contradiction.
Qed.
Print Assumptions C25_dependent_group_refuted.

(** ** Non-vacuity *)
(** An arithmetic with total division, on integers. *)
Definition Tdot (x y : list Z) : Z := fold_right Z.add 0 (map (fun p => fst p * snd p) (combine x y)).
Definition Tnum : fnum := FNum Z (fun q => Qnum q / Zpos (Qden q)) Z.add Z.sub Z.mul (fun a b => Some (a / b)) Z.sqrt Z.ltb Z.leb Tdot (fun x => Z.sqrt (Tdot x x)).
Lemma Tnum_div : div_total Tnum. Proof. intros a b. eexists. reflexivity. Qed.
Definition ex_m : @dmat Z := mkDM 3 2 2 6 [Some 1; Some 2; Some 30; Some 40; Some 5; Some 7].
Lemma ex_m_holds : dm_holds ex_m 3 2 (fun i j => nthz [1; 2; 30; 40; 5; 7] (i * 2 + j)).
Proof.
  split; [reflexivity|]. split; [reflexivity|]. split; [reflexivity|]. split; [unfold fits; repeat split; intros; cbn; zlia|]. intros i j Hi Hj.
  assert (i = 0 \/ i = 1 \/ i = 2) as [->|[-> | ->]] by lia; assert (j = 0 \/ j = 1) as [-> | ->] by lia; reflexivity.
Qed.
Example C24_example : exists A' J' U sk u, @id_compress Tnum true (@QR_RANK Tnum 1) 1 true [2; 0; 1] (fun i => rev (zrange 0 (3 - i - 1))) ex_m (iv_init 0) = Some (A', J', Some U) /\
  iv_holds J' sk /\ dm_holds U 3 (zlen sk * 1) u /\ skeleton_of 1 3 sk u /\ zlen sk * 1 <= 2 /\ sk = [1].
Proof.
  destruct (C24_skeleton Tnum true (@QR_RANK Tnum 1) 1 3 3 2 true [2; 0; 1] (fun i => rev (zrange 0 (3 - i - 1))) ex_m (iv_init 0) [] (fun i j => nthz [1; 2; 30; 40; 5; 7] (i * 2 + j)) Tnum_div ltac:(lia) ltac:(lia) ltac:(lia) ex_m_holds ltac:(lia))
    as (A' & J' & U & sk & u & E & H1 & H2 & H3 & H4 & H5).
  - split; [reflexivity|]. split; [reflexivity|]. split; [vm_compute; discriminate|]. intros k Hk. zlia.
  - split; [|intros i Hi; cbn [Z.eqb Pos.eqb]; symmetry; apply Permutation_rev]. change (zrange 0 3) with [0; 1; 2]. transitivity [0; 2; 1]; [constructor|apply perm_skip; constructor].
  - exists A', J', U, sk, u. split; [exact E|]. do 4 (split; [assumption|]). assert (EJ : iv_len J' = 1 /\ ld (iv_data J') 0 = Some 1).
    { assert (X : match @id_compress Tnum true (@QR_RANK Tnum 1) 1 true [2; 0; 1] (fun i => rev (zrange 0 (3 - i - 1))) ex_m (iv_init 0) with Some (_, J, _) => iv_len J = 1 /\ ld (iv_data J) 0 = Some 1 | None => False end) by (vm_compute; auto).
      rewrite E in X. exact X. }
    destruct H1 as (_ & L1 & _ & L2). destruct EJ as [X1 X2]. assert (Zs : zlen sk = 1) by lia. specialize (L2 0 ltac:(lia)). destruct sk as [|x [|y t]]; cbn in Zs; try (exfalso; zlia). rewrite X2 in L2. change (getz [x] 0) with (Some x) in L2. congruence.
Qed.

Definition ex_r : @dmat R := mkDM 2 1 1 2 [Some 1%R; Some 2%R].
Example C25_example : exists A' J' U sk u, @id_compress Rnum true (@QR_REL_NRM Rnum (1 / 2)%R) 1 true [1; 0] (fun i => zrange 0 (2 - i - 1)) ex_r (iv_init 4) = Some (A', J', Some U) /\
  iv_holds J' sk /\ dm_holds U 2 (zlen sk * 1) u /\ forall j, 0 <= j < 2 -> (grp_norm 1 1 (resid 1 sk (fun i _ => IZR (i + 1)) u) j < 1)%R.
Proof.
  set (a := (fun i _ => IZR (i + 1)) : Z -> Z -> R).
  assert (Gn : forall j, 0 <= j -> grp_norm 1 1 a j = IZR (j + 1)).
  { intros j Hj. unfold grp_norm, Rsum, a. change (zrange 0 1) with [0]. cbn [map fold_right]. replace (j * 1 + 0 + 1) with (j + 1) by lia. rewrite !Rplus_0_r. apply sqrt_square. apply IZR_le. lia. }
  assert (Mu : max_norm 1 2 1 a 2%R).
  { split; [intros j Hj; rewrite Gn by lia; apply IZR_le; lia|]. right. exists 1. split; [lia|]. rewrite Gn by lia. reflexivity. }
  assert (Tl : (tolerance true (@QR_REL_NRM Rnum (1 / 2)%R) 1 1 2 = 1)%R).
  { unfold tolerance. rewrite sqrt_1, Rmax_right; [lra|]. assert (Q2R (1 # 10 ^ 15) <= 1 / 2)%R; [|lra].
    assert (E : (1 / 2 = Q2R (1 # 2))%R) by (unfold Q2R; cbn; lra). rewrite E. apply Qle_Rle. unfold Qle. cbn. lia. }
  destruct (C25_residual true (@QR_REL_NRM Rnum (1 / 2)%R) 1 2 2 1 true [1; 0] (fun i => zrange 0 (2 - i - 1)) ex_r (iv_init 4) [] a 2%R) as (A' & J' & U & sk & u & E & H1 & H2 & _ & _ & H3); try lia; auto.
  - split; [reflexivity|]. split; [reflexivity|]. split; [reflexivity|]. split; [unfold fits; repeat split; intros; cbn; zlia|]. intros i j Hi Hj. assert (j = 0) by lia. subst j. assert (i = 0 \/ i = 1) as [-> | ->] by lia; reflexivity.
  - split; [reflexivity|]. split; [reflexivity|]. split; [vm_compute; discriminate|]. intros k Hk. zlia.
  - split; [constructor|]. intros i Hi. cbn [Z.eqb Pos.eqb]. apply Permutation_refl.
  - rewrite Tl. lra.
  - exists A', J', U, sk, u. split; [exact E|]. split; auto. split; auto. intros j Hj. rewrite <- Tl. apply H3; auto. apply Z.divide_1_l.
Qed.
