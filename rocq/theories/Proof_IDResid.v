(** Interpolative decomposition over the reals: what is dropped. *)
From Coq Require Import ZArith QArith List Lia Bool Permutation Reals Qreals Lra.
From Verif Require Import Base Mem CRing FNum Model_Utils Model_Dense Model_ID Spec_Utils Spec_Dense Spec_ID
  Proof_IDMem Proof_IDQR Proof_IDIndex Proof_IDSolve Proof_IDQRk Proof_IDStruct Proof_IDMath Proof_IDInv Proof_IDInvk Proof_IDFinal.
Import ListNotations.
Open Scope R_scope.

Lemma Rsum_sumR lo hi f : Rsum lo hi f = sumR lo hi f. Proof. reflexivity. Qed.

(** ** Largest norm and tolerance *)
Lemma max_norm_unique kdim npt m g mu mu' : max_norm kdim npt m g mu -> max_norm kdim npt m g mu' -> 0 <= mu -> 0 <= mu' -> mu = mu'.
Proof.
  intros [H1 H2] [H3 H4] P P'. destruct H2 as [->|(j & Hj & ->)]; destruct H4 as [->|(j' & Hj' & ->)]; auto.
  - pose proof (H1 j' Hj'). lra.
  - pose proof (H3 j Hj). lra.
  - pose proof (H1 j' Hj'). pose proof (H3 j Hj). lra.
Qed.
Lemma max_norm_nonneg kdim npt m g mu : max_norm kdim npt m g mu -> 0 <= mu.
Proof. intros [_ [->|(j & _ & ->)]]; [lra|apply sqrt_pos]. Qed.
Lemma grp_norm_btail kdim m (a : Z -> Z -> R) j : grp_norm kdim m a j = sqrt (btail kdim m (fun r c => a c r) 0 j).
Proof. reflexivity. Qed.

Lemma fpiv_max_norm kdim npt m (a : Z -> Z -> R) (bn : Z -> R) : (0 <= npt)%Z -> (forall j, (0 <= j < npt)%Z -> bn j = grp_norm kdim m a j) -> max_norm kdim npt m a (snd (@fpiv Rnum bn 0 npt)).
Proof.
  intros Hn Hb. destruct (fpiv_max bn 0 npt Hn _ eq_refl) as (X1 & X2 & X3). set (pv := @fpiv Rnum bn 0 npt : Z * R) in *. split.
  - intros j Hj. rewrite <- Hb by auto. apply X2. auto.
  - destruct (Rle_lt_or_eq_dec 0 (snd pv) X1) as [L|E]; [|left; auto]. right. exists (fst pv). destruct (X3 L) as [E1 E2]. split; auto. rewrite <- Hb; auto.
Qed.

Lemma init1_max m n (a : Z -> Z -> R) : (0 <= m)%Z -> (0 <= n)%Z -> max_norm 1 n m a (f_np (@fq_init Rnum m n (fun r c => a c r))).
Proof.
  intros Hm Hn. apply (fpiv_max_norm 1 n m a (fun c => @fnrm2 Rnum (@colv Rnum (fun r c => a c r) 0 c m))); auto.
  intros j Hj. pose proof (colv_norm m (fun r c => a c r) 0 j ltac:(lia)) as E. rewrite Z.sub_0_r in E. rewrite E. rewrite grp_norm_btail. unfold btail. change 1%Z with (0 + 1)%Z at 1. rewrite sumR_one. do 2 f_equal. lia.
Qed.
Lemma initk_max kdim nblk m (a : Z -> Z -> R) : (0 <= m)%Z -> (0 <= nblk)%Z -> max_norm kdim nblk m a (f_np (@fk_init Rnum kdim m nblk (fun r c => a c r))).
Proof.
  intros Hm Hn. apply (fpiv_max_norm kdim nblk m a (@bnorm0 Rnum kdim (fun c => @fnrm2 Rnum (@colv Rnum (fun r c => a c r) 0 c m)))); auto.
  intros j Hj. rewrite grp_norm_btail. change (sqrt (@sumsq Rnum kdim (fun k => @fnrm2 Rnum (@colv Rnum (fun r c => a c r) 0 (kdim * j + k) m)) (Q2R 0)) = sqrt (btail kdim m (fun r c => a c r) 0 j)). f_equal.
  eapply eq_trans; [exact (sumsq_R kdim (fun k => @fnrm2 Rnum (@colv Rnum (fun r c => a c r) 0 (kdim * j + k) m)))|]. unfold btail. apply sumR_ext. intros t Ht.
  pose proof (colv_norm m (fun r c => a c r) 0 (kdim * j + t) ltac:(lia)) as E. rewrite Z.sub_0_r in E. rewrite E. rewrite sqrt_sqrt by apply tail_nonneg. f_equal. lia.
Qed.

Lemma Q2R_inject z : Q2R (inject_Z z) = IZR z.
Proof. unfold Q2R, inject_Z. cbn. field. Qed.
Lemma fmax_R (x y : R) : @fmax Rnum x y = Rmax x y.
Proof.
  unfold fmax. change (@flt Rnum y x) with (Rltb y x). unfold Rltb. destruct (Rlt_dec y x).
  - rewrite Rmax_left; auto. lra.
  - rewrite Rmax_right; auto. lra.
Qed.
Lemma stop_norm_tol dbl (stp : @stop Rnum) kdim m mn (mu : R) : let '(tol_rank, tol_norm, rel) := stop_params stp kdim mn in
  @stop_norm Rnum dbl rel m tol_norm mu = tolerance dbl stp kdim m mu.
Proof.
  destruct stp as [q|tol|tol]; cbn [stop_params]; unfold stop_norm, tolerance, eps_t;
    change (@fsqrt Rnum (@flit Rnum (inject_Z m))) with (sqrt (Q2R (inject_Z m))); rewrite Q2R_inject, fmax_R.
  - reflexivity.
  - change (@fsqrt Rnum (@flit Rnum (inject_Z kdim))) with (sqrt (Q2R (inject_Z kdim))). rewrite Q2R_inject. reflexivity.
  - reflexivity.
Qed.

(** ** The factorisation *)
Lemma origin_math dbl (stp : @stop Rnum) kdim m n nblk (a M : Z -> Z -> R) p k mu : (0 < kdim)%Z -> (0 <= m)%Z -> (0 <= nblk)%Z -> n = (nblk * kdim)%Z ->
  max_norm kdim nblk m a mu -> 0 < tolerance dbl stp kdim m mu -> @origin Rnum dbl stp kdim m n nblk (fun r c => a c r) M p (k * kdim) ->
  gram m n (fun r c => a c r) M p /\ triang m (k * kdim) M /\
  ((forall j, (k <= j < nblk)%Z -> sqrt (btail kdim m M (k * kdim) j) < tolerance dbl stp kdim m mu) \/
   (Z.min (Z.min m n / kdim) (Z.quot (fst (fst (stop_params stp kdim (Z.min m n)))) kdim) <= k)%Z).
Proof.
  intros Hk Hm Hb Hn Hmu Hs. assert (Hn0 : (0 <= n)%Z) by (rewrite Hn; apply Z.mul_nonneg_nonneg; lia). pose proof (max_norm_nonneg _ _ _ _ _ Hmu) as Pmu.
  unfold origin. pose proof (fun mu => stop_norm_tol dbl stp kdim m (Z.min m n) mu) as Et.
  destruct (stop_params stp kdim (Z.min m n)) as ((tol_rank & tol_norm) & rel). cbn [fst].
  intros [(E1 & s & E & -> & -> & Er)|(Hk1 & s & E & -> & -> & Er)].
  - subst kdim. rewrite Z.mul_1_r in *. subst nblk. rewrite Z.div_1_r, Z.quot_1_r.
    unfold fq_run in E. set (np := f_np (@fq_init Rnum m n (fun r c => a c r)) : R) in *.
    assert (np = mu). { apply (max_norm_unique 1 n m a); auto; [apply init1_max; auto|apply (max_norm_nonneg 1 n m a); apply init1_max; auto]. }
    rewrite Et in E. rewrite H in E. set (sn := tolerance dbl stp 1 m mu) in *. set (sr := Z.min (Z.min m n) tol_rank) in *.
    destruct (qinv_run dbl m n (fun r c => a c r) sn sr Hs Hm Hn0 _ (qinv_init m n (fun r c => a c r) sn sr Hm Hn0)) as (s' & E' & I).
    assert (s' = s) by congruence. subst s'. destruct I as (K1 & K2 & K3 & P & G & T & N & Mx & _ & St).
    assert (Ek : (if (f_rank s =? -1)%Z then Z.min m n else f_rank s) = k) by (symmetry; exact Er). rewrite Ek in *. split; auto. split; auto.
    set (np' := f_np s : R) in *. set (cn := f_cn s : Z -> R) in *.
    destruct (Z.eqb_spec (f_rank s) (-1)) as [Ef|Ef]; [right; unfold sr; lia|].
    destruct (St Ef) as [L|L]; [left|right; auto]. intros j Hj. unfold btail. change 1%Z with (0 + 1)%Z at 1. rewrite sumR_one. replace (j * 1 + 0)%Z with j by lia.
    pose proof (Mx j Hj). destruct (N j Hj) as [Ec|[Ec1 Ec2]]; lra.
  - set (np := f_np (@fk_init Rnum kdim m nblk (fun r c => a c r)) : R) in *.
    assert (np = mu). { apply (max_norm_unique kdim nblk m a); auto; [apply initk_max; auto|apply (max_norm_nonneg kdim nblk m a); apply initk_max; auto]. }
    rewrite Et, H in E. set (sn := tolerance dbl stp kdim m mu) in *. set (sr := Z.min (Z.min m n / kdim) (Z.quot tol_rank kdim)) in *.
    pose proof (qinvk_reach dbl kdim m n (fun r c => a c r) nblk sn sr (Z.min m n / kdim) s Hk Hm Hb Hn E) as (q & Eq & Q1 & Q2 & G & T & N & Mx & St).
    assert (q = k). { unfold final_rank_k in Er. rewrite Eq in Er. apply (Z.mul_reg_r _ _ kdim); lia. } subst q. split; auto. split; auto.
    set (np' := f_np s : R) in *. set (bn := f_cn s : Z -> R) in *.
    destruct (Z.eq_dec (f_rank s) (-1)) as [Ef|Ef]; [right; rewrite (Q2 Ef); unfold sr; lia|].
    destruct (St Ef) as [L|L]; [left|right; auto]. intros j Hj. pose proof (Mx j Hj). destruct (N j Hj) as [Ec|[Ec1 Ec2]]; lra.
Qed.

(** ** Dropping the trailing block *)
Lemma ip_lin n r (x : Z -> R) (e : Z -> R) (w : Z -> Z -> R) (y : Z -> R) :
  ip n (fun l => x l - sumR 0%Z r (fun t => e t * w l t)) y = ip n x y - sumR 0%Z r (fun t => e t * ip n (fun l => w l t) y).
Proof.
  unfold ip. rewrite (sumR_ext _ _ _ (fun l => x l * y l - sumR 0%Z r (fun t => e t * (w l t * y l)))).
  2:{ intros l _. rewrite Rmult_minus_distr_r. f_equal. rewrite <- sumR_mul_r. apply sumR_ext. intros t _. ring. }
  rewrite sumR_sub. f_equal. rewrite sumR_swap. apply sumR_ext. intros t _. apply sumR_mul_l.
Qed.

Section Resid.
Variables (m n r : Z) (A M : Z -> Z -> R) (p : Z -> Z) (c : Z) (e : Z -> R).
Hypothesis Hr : (0 <= r <= m)%Z.
Hypothesis Hrn : (r <= c < n)%Z.
Hypothesis HG : gram m n A M p.
Hypothesis HT : triang m r M.
Hypothesis He : forall t, (0 <= t < r)%Z -> sumR 0%Z r (fun t' => e t' * M t t') = M t c.
Let z (l : Z) : R := M l c - sumR 0%Z r (fun t => e t * M l t).
Let y (l : Z) : R := A l (p c) - sumR 0%Z r (fun t => e t * A l (p t)).

Lemma z_lo l : (0 <= l < r)%Z -> z l = 0.
Proof. intros Hl. unfold z. rewrite He by auto. lra. Qed.
Lemma z_hi l : (r <= l < m)%Z -> z l = M l c.
Proof. intros Hl. unfold z. rewrite sumR_zero; [lra|]. intros t Ht. destruct (HT t Ht) as [_ H]. rewrite H by lia. lra. Qed.
Lemma yz c' : (0 <= c' < n)%Z -> ip m y (fun l => A l (p c')) = ip m z (fun l => M l c').
Proof.
  intros Hc. unfold y, z. rewrite (ip_lin m r (fun l => A l (p c)) e (fun l t => A l (p t))), (ip_lin m r (fun l => M l c) e M).
  rewrite (HG c c') by lia. f_equal. apply sumR_ext. intros t Ht. rewrite (HG t c') by lia. reflexivity.
Qed.
Lemma y_orth c' : (0 <= c' < r)%Z -> ip m y (fun l => A l (p c')) = 0.
Proof.
  intros Hc. rewrite yz by lia. apply sumR_zero. intros l Hl. destruct (Z.lt_ge_cases l r) as [L|L].
  - rewrite z_lo by lia. lra.
  - destruct (HT c' Hc) as [_ H]. rewrite H by lia. lra.
Qed.
Lemma y_norm : ip m y y = tail m M r c.
Proof.
  assert (E : ip m y y = ip m z z).
  { transitivity (ip m y (fun l => A l (p c))).
    - rewrite (ip_sym m y (fun l => A l (p c))). unfold y at 1. rewrite (ip_lin m r (fun l => A l (p c)) e (fun l t => A l (p t)) y).
      rewrite (sumR_zero 0 r); [lra|]. intros t Ht. rewrite ip_sym, y_orth by auto. lra.
    - rewrite yz by lia. symmetry. rewrite (ip_sym m z (fun l => M l c)). unfold z at 1. rewrite (ip_lin m r (fun l => M l c) e M z).
      rewrite (sumR_zero 0 r); [lra|]. intros t Ht. rewrite ip_sym, <- yz, y_orth by lia. lra. }
  rewrite E. unfold ip, tail. rewrite (sumR_split 0 r m) by lia. rewrite (sumR_zero 0 r) by (intros l Hl; rewrite z_lo by lia; lra).
  rewrite Rplus_0_l. apply sumR_ext. intros l Hl. rewrite z_hi by auto. reflexivity.
Qed.
End Resid.

Lemma tri_row_sum (M : Z -> Z -> R) m r c (e : Z -> R) t : (0 <= t < r)%Z -> (r <= m)%Z -> triang m r M -> @tri_row Rnum M r c e t -> sumR 0%Z r (fun t' => e t' * M t t') = M t c.
Proof.
  intros Ht Hrm HT H. unfold tri_row in H.
  change ((if Req_EM_T (M t t) 0 then None else Some ((M t c - Rdot (map (fun l => M t (t + 1 + l)%Z) (zrange 0 (r - 1 - t))) (map (fun l => e (t + 1 + l)%Z) (zrange 0 (r - 1 - t)))) / M t t)) = Some (e t)) in H.
  rewrite (Rdot_ip (r - 1 - t) (fun l => M t (t + 1 + l)%Z) (fun l => e (t + 1 + l)%Z)) in H.
  destruct (HT t Ht) as [Hd Hz]. destruct (Req_EM_T (M t t) 0) as [|_]; [contradiction|]. injection H as H.
  rewrite (sumR_split 0 t r) by lia. rewrite (sumR_zero 0 t).
  2:{ intros t' Ht'. destruct (HT t' ltac:(lia)) as [_ Hz']. rewrite Hz' by lia. lra. }
  rewrite (sumR_first t r) by lia.
  assert (E : sumR (t + 1)%Z r (fun t' => e t' * M t t') = ip (r - 1 - t) (fun l => M t (t + 1 + l)%Z) (fun l => e (t + 1 + l)%Z)).
  { unfold ip. pose proof (sumR_shift 0 (r - 1 - t) (t + 1) (fun t' => e t' * M t t')) as E. replace (0 + (t + 1))%Z with (t + 1)%Z in E by lia. replace (r - 1 - t + (t + 1))%Z with r in E by lia. rewrite E.
    apply sumR_ext. intros l _. rewrite (Z.add_comm l (t + 1)). ring. }
  rewrite E. set (X := ip (r - 1 - t) (fun l => M t (t + 1 + l)%Z) (fun l => e (t + 1 + l)%Z)) in *.
  assert (H2 : (e t * M t t = M t c - X)%R) by (rewrite <- H; field; auto). cbn [cadd Rring]. lra.
Qed.

Lemma sumR_perm r s (f : Z -> R) : perm_on r s -> sumR 0%Z r (fun k => f (s k)) = sumR 0%Z r f.
Proof.
  intros Hs. unfold rsum. rewrite <- (@lsum_map Rring). apply (@lsum_perm Rring). apply perm_on_list. auto.
Qed.

(** ** Residual of every row *)
Lemma id_out_resid dbl (stp : @stop Rnum) kdim m n nblk (a u : Z -> Z -> R) sk mu : (0 < kdim)%Z -> (0 <= m)%Z -> (0 <= nblk)%Z -> n = (nblk * kdim)%Z ->
  max_norm kdim nblk m a mu -> 0 < tolerance dbl stp kdim m mu -> @id_out Rnum dbl stp kdim m n nblk a sk u ->
  (forall i, (0 <= i < n)%Z -> orthogonal_to_skeleton kdim m sk a u i) /\
  ((forall j, (0 <= j < nblk)%Z -> grp_norm kdim m (resid kdim sk a u) j < tolerance dbl stp kdim m mu) \/
   (Z.min (Z.min m n / kdim) (Z.quot (fst (fst (stop_params stp kdim (Z.min m n)))) kdim) <= zlen sk)%Z) /\
  ((zlen sk * kdim = m \/ zlen sk * kdim = n)%Z -> forall i l, (0 <= i < n)%Z -> (0 <= l < m)%Z -> resid kdim sk a u i l = 0).
Proof.
  intros Hk Hm Hb Hn Hmu Hs [M p s q E r0 Org Pp Ps Hi Lo Inv Qr Row Hu Tri]. unfold r0 in *. clear r0.
  destruct (@origin_struct Rnum dbl stp kdim m n nblk _ M p (zlen sk * kdim) Hk Hm Hb Hn Org) as (Bl & _ & Rmn & _ & _).
  destruct (origin_math dbl stp kdim m n nblk a M p (zlen sk) mu Hk Hm Hb Hn Hmu Hs Org) as (G & T & St). set (r := (zlen sk * kdim)%Z) in *.
  assert (Hr0 : (0 <= r)%Z) by (apply Z.mul_nonneg_nonneg; [apply zlen_nonneg|lia]).
  assert (Psr : perm_on r s). { split; [auto|]. intros c c' H1 H2. apply Ps; lia. }
  assert (Hsk : (0 < r)%Z -> (0 < zlen sk)%Z). { intros. pose proof (zlen_nonneg sk). destruct (Z.eq_dec (zlen sk) 0) as [E0|]; [unfold r in *; rewrite E0 in *; lia|lia]. }
  (* skeleton rows have residual 0 *)
  assert (R0 : forall c l, (0 <= c < r)%Z -> resid kdim sk a u (p c) l = 0).
  { intros c l Hc. destruct (perm_on_surj r s c Psr Hc) as (k & Hkk & <-). unfold resid. fold r. rewrite Rsum_sumR.
    rewrite (sumR_ext 0 r _ (fun k' => if (k' =? k)%Z then a (p (s k')) l else 0)).
    2:{ intros k' Hk'. rewrite Row by auto. rewrite Hu; auto; [|lia|apply Pp; apply Ps; lia]. unfold U_entry. rewrite Inv by lia. destruct (Z.ltb_spec k r); [|lia]. unfold delta.
        rewrite (Z.eqb_sym k' k). destruct (Z.eqb_spec k k'); [change (@flit Rnum 1%Q) with (Q2R 1); rewrite Q2R_1; lra|change (@flit Rnum 0%Q) with (Q2R 0); rewrite Q2R_0; lra]. }
    assert (ED : sumR 0%Z r (fun k' => if (k' =? k)%Z then a (p (s k')) l else 0) = a (p (s k)) l).
    { eapply eq_trans; [exact (@rsum_delta Rring 0 r k (fun k' => a (p (s k')) l))|]. destruct (Z.leb_spec 0 k); [|lia]. destruct (Z.ltb_spec k r); [|lia]. reflexivity. }
    apply Rminus_diag_eq. symmetry. exact ED. }
  (* the others *)
  assert (R1 : forall c l, (r <= c < n)%Z -> resid kdim sk a u (p c) l = a (p c) l - sumR 0%Z r (fun t => E t c * a (p t) l)).
  { intros c l Hc. unfold resid. fold r. rewrite Rsum_sumR. f_equal. rewrite <- (sumR_perm r s (fun t => E t c * a (p t) l) Psr). apply sumR_ext. intros k Hk'. rewrite Row by auto.
    rewrite Hu; auto; [|apply Hsk; lia|apply Pp; lia]. unfold U_entry. replace (q (p c)) with c by (rewrite <- (Hi c) at 2 by auto; rewrite Inv by lia; reflexivity). destruct (Z.ltb_spec c r); [lia|]. reflexivity. }
  assert (He : forall c t, (r <= c < n)%Z -> (0 <= t < r)%Z -> sumR 0%Z r (fun t' => E t' c * M t t') = M t c).
  { intros c t Hc Ht. apply (tri_row_sum M m r c (fun l => E l c) t); auto. lia. }
  assert (RN : forall c, (0 <= c < n)%Z -> ip m (resid kdim sk a u (p c)) (resid kdim sk a u (p c)) = if (c <? r)%Z then 0 else tail m M r c).
  { intros c Hc. destruct (Z.ltb_spec c r) as [L|L].
    - apply sumR_zero. intros l _. rewrite R0 by lia. lra.
    - rewrite <- (y_norm m n r (fun r c => a c r) M p c (fun t => E t c) ltac:(lia) ltac:(lia) G T ltac:(intros; apply He; lia)). apply ip_ext; intros l _; apply R1; lia. }
  assert (Surj : forall i, (0 <= i < n)%Z -> exists c, (0 <= c < n)%Z /\ p c = i) by (intros; apply perm_on_surj; auto).
  split; [|split].
  - intros i Hin k Hkk. change (zlen sk * kdim)%Z with r in Hkk. destruct (Surj i Hin) as (c & Hc & <-). rewrite Row by auto. pose proof (Lo k Hkk) as Lk.
    change (ip m (resid kdim sk a u (p c)) (fun l => a (p (s k)) l) = 0). destruct (Z.lt_ge_cases c r) as [L|L].
    + apply sumR_zero. intros l _. rewrite R0 by lia. lra.
    + rewrite (ip_ext m _ (fun l => a (p (s k)) l) (fun l => a (p c) l - sumR 0%Z r (fun t => E t c * a (p t) l)) (fun l => a (p (s k)) l)); [|intros l _; apply R1; lia|auto].
      apply (y_orth m n r (fun r c => a c r) M p c (fun t => E t c) ltac:(lia) ltac:(lia) G T ltac:(intros; apply He; lia) (s k) Lk).
  - destruct St as [St|St]; [left|right; exact St]. intros j Hj. destruct Bl as (g & Pg & Hg). destruct (perm_on_surj nblk g j Pg Hj) as (b & Hbb & <-).
    assert (EN : grp_norm kdim m (resid kdim sk a u) (g b) = sqrt (sumR 0%Z kdim (fun t => if (b <? zlen sk)%Z then 0 else tail m M r (b * kdim + t)%Z))).
    { unfold grp_norm. f_equal. rewrite Rsum_sumR. apply sumR_ext. intros t Ht. pose proof (blk_in kdim nblk b t Hk Hbb Ht) as Hbt.
      assert (Ep : p (b * kdim + t)%Z = (g b * kdim + t)%Z). { rewrite Hg by auto. destruct (blk_divmod kdim b t Ht) as [-> ->]. reflexivity. }
      rewrite <- Ep. change (ip m (resid kdim sk a u (p (b * kdim + t)%Z)) (resid kdim sk a u (p (b * kdim + t)%Z)) = if (b <? zlen sk)%Z then 0 else tail m M r (b * kdim + t)%Z). rewrite RN by lia.
      destruct (Z.ltb_spec b (zlen sk)) as [L|L].
      - pose proof (blk_in kdim (zlen sk) b t Hk ltac:(lia) Ht). change (zlen sk * kdim)%Z with r in H. destruct (Z.ltb_spec (b * kdim + t) r); [reflexivity|lia].
      - assert (r <= b * kdim)%Z by (apply Z.mul_le_mono_nonneg_r; lia). destruct (Z.ltb_spec (b * kdim + t) r); [lia|reflexivity]. }
    rewrite EN. destruct (Z.ltb_spec b (zlen sk)) as [L|L].
    + rewrite sumR_zero by auto. rewrite sqrt_0. auto.
    + apply (St b). lia.
  - intros Hfull i l Hin Hl. destruct (Surj i Hin) as (c & Hc & <-). destruct (Z.lt_ge_cases c r) as [L|L]; [apply R0; lia|].
    assert (Erm : r = m) by lia. pose proof (RN c Hc) as N0. destruct (Z.ltb_spec c r); [lia|]. unfold tail in N0. rewrite (sumR_empty r m) in N0 by lia.
    pose proof (sumR_ge_term 0 m (fun k => resid kdim sk a u (p c) k * resid kdim sk a u (p c) k) l ltac:(lia) ltac:(intros; nra)) as GT. unfold ip in N0. rewrite N0 in GT. nra.
Qed.
