(** The block version of the pivoted QR over the reals: the block reflector is
    the product of the reflections inside the block, and the invariant of the
    loop. *)
From Coq Require Import ZArith QArith List Lia Bool Permutation Reals Qreals Lra.
From Verif Require Import Base CRing FNum Model_ID Proof_IDMem Proof_IDQR Proof_IDIndex Proof_IDQRk Proof_IDStruct Proof_IDMath Proof_IDInv.
Import ListNotations.
Open Scope R_scope.

Lemma Q2R_m2 : Q2R (-2) = -2. Proof. unfold Q2R. cbn. lra. Qed.
Lemma ip_pos_of_hinv (x : Z -> R) n inv : (1 <= n)%Z -> @hinv Rnum x n = Some inv -> 0 < ip n x x.
Proof.
  intros Hn E. destruct (Rle_or_lt (ip n x x) 0) as [L|L]; auto. exfalso.
  assert (Z0 : forall k, (0 <= k < n)%Z -> x k = 0).
  { intros k Hk. pose proof (sumR_ge_term 0 n (fun k => x k * x k) k Hk ltac:(intros; nra)) as G. unfold ip in L. cbn beta in G. nra. }
  assert (N0 : @hnorm Rnum x n = 0).
  { change (sqrt (Rdot (map x (zrange 0 n)) (map x (zrange 0 n))) = 0). rewrite Rdot_ip. assert (ip n x x = 0) as -> by (apply sumR_zero; intros k Hk; rewrite Z0 by auto; lra). apply sqrt_0. }
  unfold hinv in E. change (@fnrm2 Rnum (map (@hraw Rnum x n) (zrange 0 n))) with (sqrt (Rdot (map (@hraw Rnum x n) (zrange 0 n)) (map (@hraw Rnum x n) (zrange 0 n)))) in E.
  rewrite Rdot_ip in E. assert (H0 : ip n (@hraw Rnum x n) (@hraw Rnum x n) = 0).
  { apply sumR_zero. intros k Hk. assert (@hraw Rnum x n k = 0) as ->; [|lra]. unfold hraw. destruct (Z.eqb_spec k 0); [|apply Z0; auto].
    change (x 0%Z + @hsign Rnum x * @hnorm Rnum x n = 0). rewrite N0, Z0 by lia. lra. }
  rewrite H0, sqrt_0 in E. cbn in E. destruct (Req_EM_T 0 0); [discriminate|contradiction].
Qed.

Lemma reflected_R nrow (M : Z -> Z -> R) i v d r c : (i < c)%Z -> (i <= r)%Z ->
  @reflected Rnum nrow M i v d r c = M r c - 2 * ip (nrow - i) v (fun k => M (i + k)%Z c) * v (r - i)%Z.
Proof.
  intros Hc Hr. unfold reflected. destruct (Z.ltb_spec c i); [lia|]. destruct (Z.ltb_spec r i); [lia|]. cbn [orb]. destruct (Z.eqb_spec c i); [lia|].
  change (M r c - Q2R 2 * Rdot (map v (zrange 0 (nrow - i))) (map (fun k => M (i + k)%Z c) (zrange 0 (nrow - i))) * v (r - i)%Z = M r c - 2 * ip (nrow - i) v (fun k => M (i + k)%Z c) * v (r - i)%Z).
  rewrite Q2R_2, Rdot_ip. reflexivity.
Qed.
Lemma reflected_out nrow (M : Z -> Z -> R) i v d r c : (c < i \/ r < i)%Z -> @reflected Rnum nrow M i v d r c = M r c.
Proof. intros H. unfold reflected. destruct (Z.ltb_spec c i); destruct (Z.ltb_spec r i); cbn [orb]; auto; lia. Qed.

Lemma wrel_R n (V W : Z -> Z -> R) b : (0 <= b)%Z -> @wrel Rnum n V W b -> forall j, (0 <= j < n)%Z -> W b j = -2 * (V b j + sumR 0%Z b (fun l => W l j * ip n (V l) (V b))).
Proof.
  intros Hb H j Hj. rewrite (H j Hj). destruct (Z.eqb_spec b 0) as [->|N].
  - rewrite sumR_empty by lia. change (Q2R (-2) * V 0%Z j = -2 * (V 0%Z j + 0)). rewrite Q2R_m2. lra.
  - change (Q2R (-2) * (V b j + Rdot (map (fun l => W l j) (zrange 0 b)) (map (fun l => Rdot (map (V l) (zrange 0 n)) (map (V b) (zrange 0 n))) (zrange 0 b))) = -2 * (V b j + sumR 0%Z b (fun l => W l j * ip n (V l) (V b)))).
    rewrite Q2R_m2. rewrite (map_ext (fun l => Rdot (map (V l) (zrange 0 n)) (map (V b) (zrange 0 n))) (fun l => ip n (V l) (V b))) by (intros; apply Rdot_ip). rewrite Rdot_ip. reflexivity.
Qed.
Lemma blkupd_R kdim nrow B (V W M : Z -> Z -> R) r c : (B + kdim <= c)%Z -> (B <= r)%Z ->
  @blkupd Rnum kdim nrow B V W M r c = M r c + sumR 0%Z kdim (fun a => V a (r - B)%Z * ip (nrow - B) (W a) (fun j => M (B + j)%Z c)).
Proof.
  intros Hc Hr. unfold blkupd. destruct (Z.ltb_spec c (B + kdim)); [lia|]. destruct (Z.ltb_spec r B); [lia|]. cbn [orb].
  change (M r c + Rdot (map (fun a => V a (r - B)%Z) (zrange 0 kdim)) (map (fun a => Rdot (map (W a) (zrange 0 (nrow - B))) (map (fun j => M (B + j)%Z c) (zrange 0 (nrow - B)))) (zrange 0 kdim)) = M r c + sumR 0%Z kdim (fun a => V a (r - B)%Z * ip (nrow - B) (W a) (fun j => M (B + j)%Z c))).
  rewrite (map_ext (fun a => Rdot (map (W a) (zrange 0 (nrow - B))) (map (fun j => M (B + j)%Z c) (zrange 0 (nrow - B)))) (fun a => ip (nrow - B) (W a) (fun j => M (B + j)%Z c))) by (intros; apply Rdot_ip). rewrite Rdot_ip. reflexivity.
Qed.
Lemma blkupd_out kdim nrow B (V W M : Z -> Z -> R) r c : (c < B + kdim \/ r < B)%Z -> @blkupd Rnum kdim nrow B V W M r c = M r c.
Proof. intros H. unfold blkupd. destruct (Z.ltb_spec c (B + kdim)); destruct (Z.ltb_spec r B); cbn [orb]; auto; lia. Qed.

(** Inner product with a vector with leading zeros. *)
Lemma ip_lead n b (v y : Z -> R) : (0 <= b <= n)%Z -> ip n (fun j => if (j <? b)%Z then 0 else v (j - b)%Z) y = ip (n - b) v (fun k => y (b + k)%Z).
Proof.
  intros Hb. unfold ip at 1. rewrite (sumR_split 0 b n) by lia. rewrite (sumR_zero 0 b).
  2:{ intros k Hk. destruct (Z.ltb_spec k b); [lra|lia]. }
  pose proof (sumR_shift 0 (n - b) b (fun j => (if (j <? b)%Z then 0 else v (j - b)%Z) * y j)) as E. replace (0 + b)%Z with b in E by lia. replace (n - b + b)%Z with n in E by lia.
  rewrite E. rewrite Rplus_0_l. apply sumR_ext. intros k Hk. destruct (Z.ltb_spec (k + b) b); [lia|]. replace (k + b - b)%Z with k by lia. now rewrite (Z.add_comm k b).
Qed.

Section Blk.
Variables (dbl : bool) (kdim nrow ncol : Z) (A : Z -> Z -> R).

Lemma gram_ext M M' p : (forall r c, (0 <= r < nrow)%Z -> (0 <= c < ncol)%Z -> M' r c = M r c) -> gram nrow ncol A M p -> gram nrow ncol A M' p.
Proof. intros E G c c' Hc Hc'. rewrite <- G by auto. apply ip_ext; intros; apply E; auto. Qed.
Lemma triang_ext M M' k : (k <= ncol)%Z -> (k <= nrow)%Z -> (forall r c, (0 <= r < nrow)%Z -> (0 <= c < ncol)%Z -> M' r c = M r c) -> triang nrow k M -> triang nrow k M'.
Proof. intros H1 H2 E T c Hc. destruct (T c Hc) as [T1 T2]. split; [rewrite E by lia; auto|]. intros r Hr. rewrite E by lia. auto. Qed.

Lemma blk_T (M : Z -> Z -> R) B p W b Mb V : (0 < kdim)%Z -> (0 <= B)%Z -> (B + kdim <= nrow)%Z -> (B + kdim <= ncol)%Z -> gram nrow ncol A M p -> triang nrow B M ->
  @hsteps Rnum kdim nrow M B b Mb V -> (forall b', (0 <= b' < b)%Z -> @wrel Rnum (nrow - B) V W b') ->
  (0 <= b <= kdim)%Z /\ exists T : Z -> Z -> R, gram nrow ncol A T p /\ triang nrow (B + b) T /\
    (forall r c, (c < B + kdim)%Z -> T r c = Mb r c) /\ (forall r c, (r < B)%Z -> T r c = M r c) /\
    (forall c, (B <= c < ncol)%Z -> tail nrow T B c = tail nrow M B c) /\ (forall r c, (B + kdim <= c)%Z -> Mb r c = M r c) /\
    (forall j c, (0 <= j < nrow - B)%Z -> (B + kdim <= c < ncol)%Z -> T (B + j)%Z c = M (B + j)%Z c + sumR 0%Z b (fun l => V l j * ip (nrow - B) (W l) (fun j => M (B + j)%Z c))).
Proof.
  intros Hkd HB Hnr Hnc HG HT H. set (n := (nrow - B)%Z).
  induction H as [V|b Mb V inv H IH Hb x Einv v d]; intros HW.
  { split; [lia|]. exists M. rewrite Z.add_0_r. do 6 (split; [auto|]). intros j c Hj Hc. rewrite sumR_empty by lia. lra. }
  set (V' := (fun b' j : Z => if (b' =? b)%Z then (if (j <? b)%Z then Q2R 0 else v (j - b)%Z) else V b' j) : Z -> Z -> R).
  assert (Vo : forall l, (l < b)%Z -> forall j, V' l j = V l j) by (intros l Hl j; unfold V'; destruct (Z.eqb_spec l b); [lia|reflexivity]).
  assert (Vb : forall j, V' b j = if (j <? b)%Z then 0 else v (j - b)%Z) by (intros j; unfold V'; rewrite Z.eqb_refl, Q2R_0; reflexivity).
  destruct IH as (_ & T & G & Tr & TM & TB & TT & MB & TW).
  { intros b' Hb' j Hj. pose proof (HW b' ltac:(lia) j Hj) as E. change (W b' j = if (b' =? 0)%Z then @fmul Rnum (@flit Rnum (-2)%Q) (V' 0%Z j) else
      @fmul Rnum (@flit Rnum (-2)%Q) (@fadd Rnum (V' b' j) (@fdot Rnum (map (fun l => W l j) (zrange 0 b')) (map (fun l => @fdot Rnum (map (V' l) (zrange 0 n)) (map (V' b') (zrange 0 n))) (zrange 0 b'))))) in E.
    rewrite (Vo b') in E by lia. rewrite (map_ext (V' b') (V b')) in E by (intros; apply Vo; lia).
    rewrite (map_ext_in (fun l => @fdot Rnum (map (V' l) (zrange 0 n)) (map (V b') (zrange 0 n))) (fun l => @fdot Rnum (map (V l) (zrange 0 n)) (map (V b') (zrange 0 n)))) in E.
    2:{ intros l Hl. apply In_zrange in Hl. rewrite (map_ext (V' l) (V l)) by (intros; apply Vo; lia). reflexivity. }
    rewrite (Vo 0%Z) in E by lia. exact E. }
  split; [lia|]. set (ii := (B + b)%Z) in *.
  assert (Hx : 0 < ip (nrow - ii) x x) by (apply (ip_pos_of_hinv x (nrow - ii) inv); [lia|exact Einv]).
  destruct (house_math x (nrow - ii) ltac:(lia) Hx) as (inv' & Einv' & Hv & Hk). assert (inv' = inv) by congruence. subst inv'.
  assert (Ev : forall k, v k = @hraw Rnum x (nrow - ii) k * inv) by reflexivity. change (fun k => @hraw Rnum x (nrow - ii) k * inv) with v in Hv, Hk.
  assert (Ed : d = (0 - @hsign Rnum x) * @hnorm Rnum x (nrow - ii)). { unfold d. cbn. now rewrite Q2R_0. }
  assert (Hd : d <> 0).
  { rewrite Ed. assert (Hn : 0 < @hnorm Rnum x (nrow - ii)). { change (0 < sqrt (Rdot (map x (zrange 0 (nrow - ii))) (map x (zrange 0 (nrow - ii))))). rewrite Rdot_ip. apply sqrt_lt_R0. auto. }
    assert (@hsign Rnum x = 1 \/ @hsign Rnum x = -1) as [E|E]; [|rewrite E; nra|rewrite E; nra].
    unfold hsign. destruct (flt _ _); [left; apply Q2R_1|right; apply Q2R_m1]. }
  rewrite <- Ed in Hk.
  assert (Tx : forall k, T (ii + k)%Z ii = x k) by (intros k; apply TM; lia).
  destruct (reflect_inv nrow ncol A ii T p v d) as (G2 & Tr2 & TL); auto; try lia.
  { intros k Hkk. rewrite Tx. rewrite (ip_ext (nrow - ii) v (fun k0 => T (ii + k0)%Z ii) v x) by auto. apply Hk. auto. }
  set (T' := @reflected Rnum nrow T ii v d : Z -> Z -> R) in *.
  exists T'. replace (B + (b + 1))%Z with (ii + 1)%Z by (unfold ii; lia). split; [exact G2|]. split; [exact Tr2|]. split; [|split; [|split; [|split]]].
  - intros r c Hc. unfold blkref. destruct (Z.ltb_spec c (B + kdim)); [|lia]. fold ii. unfold T', reflected.
    destruct ((c <? ii)%Z || (r <? ii)%Z); [apply TM; auto|]. destruct (c =? ii)%Z; auto. rewrite (TM r c) by auto.
    assert (@colv Rnum T ii c (nrow - ii) = @colv Rnum Mb ii c (nrow - ii)) as ->; [|reflexivity]. unfold colv. apply map_ext. intros k. apply TM; auto.
  - intros r c Hr. unfold T'. rewrite reflected_out by (unfold ii; lia). auto.
  - intros c Hc. rewrite <- TT by auto. destruct (Z.lt_ge_cases c ii) as [L|L].
    + unfold tail. apply sumR_ext. intros r Hr. unfold T'. rewrite reflected_out by lia. reflexivity.
    + unfold tail. rewrite (sumR_split B ii nrow) by (unfold ii; lia). rewrite (sumR_split B ii nrow (fun r => T r c * T r c)) by (unfold ii; lia).
      fold (tail nrow T' ii c). fold (tail nrow T ii c). rewrite TL by lia. f_equal. apply sumR_ext. intros r Hr. unfold T'. rewrite reflected_out by lia. reflexivity.
  - intros r c Hc. unfold blkref. destruct (Z.ltb_spec c (B + kdim)); [lia|]. auto.
  - intros j c Hj Hc. fold n in Hj. rewrite (sumR_snoc 0 b) by lia. set (Mc := fun j => M (B + j)%Z c).
    change (sumR 0%Z b (fun l => V' l j * ip n (W l) Mc)) with (sumR 0%Z b (fun l => V' l j * ip n (W l) Mc)).
    match goal with |- T' (B + j)%Z c = M (B + j)%Z c + (?S + ?L) => assert (ES : S = sumR 0%Z b (fun l => V l j * ip n (W l) Mc)) by (apply sumR_ext; intros l Hl; change ((if (l =? b)%Z then if (j <? b)%Z then Q2R 0 else v (j - b)%Z else V l j) * ip n (W l) Mc = V l j * ip n (W l) Mc); destruct (Z.eqb_spec l b); [lia|reflexivity]);
      assert (EL : L = V' b j * ip n (W b) Mc) by reflexivity; rewrite ES, EL end. clear ES EL.
    assert (HWb : forall j, (0 <= j < n)%Z -> W b j = -2 * (V' b j + sumR 0%Z b (fun l => W l j * ip n (V' l) (V' b)))) by (apply wrel_R; [lia|exact (HW b ltac:(lia))]).
    assert (E1 : ip n (W b) Mc = -2 * (ip n (V' b) Mc + sumR 0%Z b (fun l => ip n (V l) (V' b) * ip n (W l) Mc))).
    { unfold ip at 1. rewrite (sumR_ext 0 n _ (fun k => -2 * (V' b k * Mc k + sumR 0%Z b (fun l => ip n (V l) (V' b) * (W l k * Mc k))))).
      2:{ intros k Hkk. rewrite HWb by auto. rewrite (sumR_ext 0 b (fun l => W l k * ip n (V' l) (V' b)) (fun l => ip n (V l) (V' b) * W l k)).
          2:{ intros l Hl. rewrite (ip_ext n (V' l) (V' b) (V l) (V' b)); [lra| |auto]. intros; apply Vo; lia. }
          rewrite (sumR_ext 0 b (fun l => ip n (V l) (V' b) * (W l k * Mc k)) (fun l => ip n (V l) (V' b) * W l k * Mc k)) by (intros; lra). rewrite sumR_mul_r. lra. }
      rewrite sumR_mul_l, sumR_add. f_equal. f_equal. rewrite sumR_swap. apply sumR_ext. intros l Hl. rewrite sumR_mul_l. reflexivity. }
    assert (E2 : ip (nrow - ii) v (fun k => T (ii + k)%Z c) = ip n (V' b) (fun j => T (B + j)%Z c)).
    { replace (nrow - ii)%Z with (n - b)%Z by (unfold n, ii; lia). rewrite (ip_ext n (V' b) (fun j => T (B + j)%Z c) (fun j => if (j <? b)%Z then 0 else v (j - b)%Z) (fun j => T (B + j)%Z c)); [|intros; apply Vb|auto].
      rewrite ip_lead by (unfold n; lia). apply ip_ext; auto. intros k Hkk. f_equal. unfold ii. lia. }
    assert (E3 : ip n (V' b) (fun j => T (B + j)%Z c) = ip n (V' b) Mc + sumR 0%Z b (fun l => ip n (V l) (V' b) * ip n (W l) Mc)).
    { rewrite (ip_ext n (V' b) (fun j => T (B + j)%Z c) (V' b) (fun j => Mc j + sumR 0%Z b (fun l => V l j * ip n (W l) Mc))); [|auto|intros k Hkk; apply TW; auto].
      unfold ip at 1. rewrite (sumR_ext 0 n _ (fun k => V' b k * Mc k + sumR 0%Z b (fun l => ip n (W l) Mc * (V l k * V' b k)))).
      2:{ intros k Hkk. rewrite Rmult_plus_distr_l. f_equal. rewrite <- sumR_mul_l. apply sumR_ext. intros. lra. }
      rewrite sumR_add. f_equal. rewrite sumR_swap. apply sumR_ext. intros l Hl. rewrite sumR_mul_l. apply Rmult_comm. }
    rewrite E1. destruct (Z.lt_ge_cases j b) as [L|L].
    + unfold T'. rewrite reflected_out by (unfold ii; lia). rewrite TW by auto. rewrite Vb. destruct (Z.ltb_spec j b); [|lia]. fold Mc. unfold Mc. lra.
    + unfold T'. rewrite reflected_R by (unfold ii; lia). rewrite E2, E3, TW by auto. rewrite Vb. destruct (Z.ltb_spec j b); [lia|]. fold Mc. replace (B + j - ii)%Z with (j - b)%Z by (unfold ii; lia). change (fun j0 : Z => M (B + j0)%Z c) with Mc. ring.
Qed.

(** ** Norms of blocks *)
Definition btail (M : Z -> Z -> R) (B j : Z) : R := sumR 0%Z kdim (fun t => tail nrow M B (j * kdim + t)%Z).
Lemma btail_nonneg M B j : 0 <= btail M B j.
Proof. apply sumR_nonneg. intros. apply tail_nonneg. Qed.

Lemma fold_add (g : Z -> R) l : forall t0, fold_left (fun t k => t + g k) l t0 = t0 + @lsum Rring Z g l.
Proof. induction l as [|k l IH]; intros t0; cbn [fold_left]; [cbn; lra|]. rewrite IH, (@lsum_cons Rring). cbn. lra. Qed.
Lemma fold_sub (g : Z -> R) l : forall t0, fold_left (fun t k => t - g k) l t0 = t0 - @lsum Rring Z g l.
Proof. induction l as [|k l IH]; intros t0; cbn [fold_left]; [cbn; lra|]. rewrite IH, (@lsum_cons Rring). cbn. lra. Qed.
Lemma fold_left_ext {S T} (f g : S -> T -> S) l : (forall s t, f s t = g s t) -> forall s, fold_left f l s = fold_left g l s.
Proof. intros E. induction l as [|a l IH]; intros s; cbn; auto. rewrite E. apply IH. Qed.

Lemma sumsq_R (f : Z -> R) : @sumsq Rnum kdim f (Q2R 0) = sumR 0%Z kdim (fun k => f k * f k).
Proof. unfold sumsq. change (fold_left (fun t k => t + f k * f k) (zrange 0 kdim) (Q2R 0) = sumR 0%Z kdim (fun k => f k * f k)). rewrite (fold_add (fun k => f k * f k)). rewrite Q2R_0. unfold rsum. lra. Qed.
Lemma subsq_R (M : Z -> Z -> R) B j t0 : @subsq Rnum kdim M B j t0 = t0 - sumR 0%Z kdim (fun k0 => sumR 0%Z kdim (fun k1 => M (B + k1)%Z (j * kdim + k0)%Z * M (B + k1)%Z (j * kdim + k0)%Z)).
Proof.
  unfold subsq. change (fold_left (fun t k0 => fold_left (fun t k1 => t - M (B + k1)%Z (j * kdim + k0)%Z * M (B + k1)%Z (j * kdim + k0)%Z) (zrange 0 kdim) t) (zrange 0 kdim) t0 =
    t0 - sumR 0%Z kdim (fun k0 => sumR 0%Z kdim (fun k1 => M (B + k1)%Z (j * kdim + k0)%Z * M (B + k1)%Z (j * kdim + k0)%Z))).
  rewrite (fold_left_ext _ (fun t k0 => t - sumR 0%Z kdim (fun k1 => M (B + k1)%Z (j * kdim + k0)%Z * M (B + k1)%Z (j * kdim + k0)%Z))).
  2:{ intros t k0. apply (fold_sub (fun k1 => M (B + k1)%Z (j * kdim + k0)%Z * M (B + k1)%Z (j * kdim + k0)%Z)). }
  apply (fold_sub (fun k0 => sumR 0%Z kdim (fun k1 => M (B + k1)%Z (j * kdim + k0)%Z * M (B + k1)%Z (j * kdim + k0)%Z))).
Qed.
Lemma colv_norm (M : Z -> Z -> R) i c : (0 <= i <= nrow)%Z -> @fnrm2 Rnum (@colv Rnum M i c (nrow - i)) = sqrt (tail nrow M i c).
Proof.
  intros Hi. change (@fnrm2 Rnum (@colv Rnum M i c (nrow - i))) with (sqrt (Rdot (map (fun k => M (i + k)%Z c) (zrange 0 (nrow - i))) (map (fun k => M (i + k)%Z c) (zrange 0 (nrow - i))))).
  rewrite Rdot_ip. unfold tail. rewrite sum_tail by auto. reflexivity.
Qed.

Variables (nblk : Z) (sn : R).
Definition bnorms (q : Z) (M : Z -> Z -> R) (bn : Z -> R) : Prop :=
  forall j, (q <= j < nblk)%Z -> bn j = sqrt (btail M (q * kdim) j) \/ (bn j = 0 /\ sqrt (btail M (q * kdim) j) < sn).

Lemma renormk_inv i M M' bn : (0 < kdim)%Z -> (0 <= i)%Z -> (i * kdim + kdim <= nrow)%Z -> ncol = (nblk * kdim)%Z -> bnorms i M bn -> (forall c, (i * kdim <= c < ncol)%Z -> tail nrow M' (i * kdim) c = tail nrow M (i * kdim) c) ->
  bnorms (i + 1) M' (fun j => if (j <=? i)%Z then bn j else @renormk Rnum dbl kdim nrow sn M' bn i j).
Proof.
  intros Hk Hi Hr Hnc N HT j Hj. destruct (Z.leb_spec j i); [lia|]. set (B := (i * kdim)%Z) in *.
  assert (HB : (0 <= B)%Z) by (apply Z.mul_nonneg_nonneg; lia).
  assert (Hjk : (B + kdim <= j * kdim /\ j * kdim + kdim <= ncol)%Z).
  { assert ((i + 1) * kdim <= j * kdim)%Z by (apply Z.mul_le_mono_nonneg_r; lia). assert ((j + 1) * kdim <= nblk * kdim)%Z by (apply Z.mul_le_mono_nonneg_r; lia). unfold B. lia. }
  replace ((i + 1) * kdim)%Z with (B + kdim)%Z by (unfold B; lia).
  assert (E0 : btail M' B j = btail M B j). { apply sumR_ext. intros t Ht. apply HT. lia. }
  set (sq := sumR 0%Z kdim (fun k0 => sumR 0%Z kdim (fun k1 => M' (B + k1)%Z (j * kdim + k0)%Z * M' (B + k1)%Z (j * kdim + k0)%Z))).
  assert (E1 : btail M' B j = sq + btail M' (B + kdim) j).
  { unfold btail, sq. rewrite <- sumR_add. apply sumR_ext. intros t Ht. unfold tail. rewrite (sumR_split B (B + kdim) nrow) by lia. f_equal.
    pose proof (sumR_shift 0 kdim B (fun r => M' r (j * kdim + t)%Z * M' r (j * kdim + t)%Z)) as E. replace (0 + B)%Z with B in E by lia. replace (kdim + B)%Z with (B + kdim)%Z in E by lia. rewrite E. apply sumR_ext. intros k _. now rewrite (Z.add_comm k B). }
  assert (P0 : 0 <= sq). { apply sumR_nonneg. intros. apply sumR_nonneg. intros. nra. }
  pose proof (btail_nonneg M' (B + kdim) j) as P1.
  assert (Le : sqrt (btail M' (B + kdim) j) <= sqrt (btail M' B j)) by (apply sqrt_le_1_alt; lra).
  assert (Er : @renormk Rnum dbl kdim nrow sn M' bn i j = (if Rlt_dec (bn j) sn then 0 else if Rleb (bn j * bn j - sq) (@fast_thr Rnum dbl) then sqrt (btail M' (B + kdim) j) else sqrt (bn j * bn j - sq))).
  { unfold renormk. fold B. rewrite subsq_R. fold sq. cbv zeta.
    assert (ES : @sumsq Rnum kdim (fun k => @fnrm2 Rnum (@colv Rnum M' ((i + 1) * kdim) (j * kdim + k) (nrow - (i + 1) * kdim))) (@flit Rnum 0%Q) = btail M' (B + kdim) j).
    { eapply eq_trans; [exact (sumsq_R (fun k => @fnrm2 Rnum (@colv Rnum M' ((i + 1) * kdim) (j * kdim + k) (nrow - (i + 1) * kdim))))|]. replace ((i + 1) * kdim)%Z with (B + kdim)%Z by (unfold B; lia).
      apply sumR_ext. intros k Hkk. rewrite colv_norm by lia. apply sqrt_sqrt. apply tail_nonneg. }
    rewrite ES. change (@flt Rnum (bn j) sn) with (Rltb (bn j) sn). unfold Rltb. change (@flit Rnum 0%Q) with (Q2R 0). rewrite Q2R_0. destruct (Rlt_dec (bn j) sn); reflexivity. }
  rewrite Er. clear Er. rewrite E0 in *.
  destruct (Rlt_dec (bn j) sn) as [L|L].
  - right. split; [reflexivity|]. destruct (N j ltac:(lia)) as [Ec|[Ec1 Ec2]]; [rewrite Ec in L; fold B in L|fold B in Ec2]; lra.
  - left. destruct (N j ltac:(lia)) as [Ec|[Ec1 Ec2]].
    2:{ pose proof (sqrt_pos (btail M (i * kdim) j)). exfalso. lra. }
    assert (Tm : bn j * bn j - sq = btail M' (B + kdim) j). { rewrite Ec. fold B. rewrite sqrt_sqrt by (apply btail_nonneg). lra. }
    rewrite Tm. match goal with |- context [if ?b then _ else _] => destruct b end; reflexivity.
Qed.

(** ** The loop *)
Variable (stop_rank : Z).
Definition qinvk (i : Z) (s : @fst_ Rnum) : Prop :=
  let np : R := f_np s in
  let bn : Z -> R := f_cn s in
  exists q, (if (f_rank s =? -1)%Z then i * kdim else f_rank s)%Z = (q * kdim)%Z /\ (0 <= q <= i)%Z /\ (f_rank s = (-1)%Z -> q = i) /\
    gram nrow ncol A (f_M s) (f_p s) /\ triang nrow (q * kdim) (f_M s) /\ bnorms q (f_M s) bn /\
    (forall j, (q <= j < nblk)%Z -> bn j <= np) /\ (f_rank s <> (-1)%Z -> np < sn \/ (stop_rank <= q)%Z).

Lemma swb_range i j c : (0 < kdim)%Z -> (0 <= i < nblk)%Z -> (0 <= j < nblk)%Z -> (0 <= c < nblk * kdim)%Z -> (0 <= swb kdim i j c < nblk * kdim)%Z.
Proof. intros Hk Hi Hj Hc. unfold swb. apply blk_in; auto; [apply sw_range; auto; apply blk_lt; auto|apply Z.mod_pos_bound; auto]. Qed.

Lemma qinvk_reach i s : (0 < kdim)%Z -> (0 <= nrow)%Z -> (0 <= nblk)%Z -> ncol = (nblk * kdim)%Z -> @fk_reach Rnum dbl kdim nrow ncol nblk stop_rank sn A i s -> qinvk i s.
Proof.
  intros Hk Hn Hnb Hnc H. induction H as [|i s s' H IH Hi Hs].
  - unfold qinvk, fk_init. cbn [f_M f_p f_cn f_piv f_np f_rank]. rewrite Z.eqb_refl. exists 0%Z. split; [lia|]. split; [lia|]. split; [auto|].
    set (bn := @bnorm0 Rnum kdim (fun c => @fnrm2 Rnum (@colv Rnum A 0 c nrow)) : Z -> R).
    pose proof (fpiv_max bn 0 nblk Hnb _ eq_refl) as (X1 & X2 & X3).
    split; [intros c c' _ _; reflexivity|]. split; [intros c HH; lia|]. split.
    { intros j Hj. left. change (bn j) with (sqrt (@sumsq Rnum kdim (fun k => @fnrm2 Rnum (@colv Rnum A 0 (kdim * j + k) nrow)) (Q2R 0))). f_equal.
      eapply eq_trans; [exact (sumsq_R (fun k => @fnrm2 Rnum (@colv Rnum A 0 (kdim * j + k) nrow)))|]. unfold btail. apply sumR_ext. intros t Ht. pose proof (colv_norm A 0 (kdim * j + t) ltac:(lia)) as E. rewrite Z.sub_0_r in E. rewrite E.
      rewrite sqrt_sqrt by apply tail_nonneg. f_equal. lia. }
    split; [exact X2|]. intros HH; now destruct HH.
  - pose proof (@fk_struct Rnum dbl nrow ncol kdim nblk stop_rank sn A i s Hk Hnb Hnc H) as (_ & Pv & _ & _).
    destruct IH as (q & Eq & Q1 & Q2 & G & T & N & Mx & St). set (np := f_np s : R) in *. set (bn0 := f_cn s : Z -> R) in *.
    assert (Hin : (i < nblk)%Z).
    { assert (Z.min nrow ncol / kdim <= ncol / kdim)%Z by (apply Z.div_le_mono; lia). assert (ncol / kdim = nblk)%Z by (rewrite Hnc; apply Z.div_mul; lia). lia. }
    assert (HB : (0 <= i * kdim)%Z) by (apply Z.mul_nonneg_nonneg; lia).
    assert (Hmi : (i * kdim + kdim <= Z.min nrow ncol)%Z).
    { pose proof (Z.mul_div_le (Z.min nrow ncol) kdim Hk). assert ((i + 1) * kdim <= Z.min nrow ncol / kdim * kdim)%Z by (apply Z.mul_le_mono_nonneg_r; lia). lia. }
    destruct Hs as [Er|Er Es|Mk V W Er Es M bn HS HW M' bn' pv]; unfold qinvk; cbn [f_M f_p f_cn f_piv f_np f_rank].
    + destruct (Z.eqb_spec (f_rank s) (-1)); [contradiction|]. exists q. split; [auto|]. split; [lia|]. split; [intros; contradiction|]. auto 8.
    + rewrite Er, Z.eqb_refl in Eq. destruct (Z.eqb_spec (i * kdim) (-1)); [lia|]. exists q. split; [auto|]. split; [lia|]. split; [lia|]. do 4 (split; [assumption|]). intros _.
      apply orb_true_iff in Es as [E|E]; [left|right; rewrite (Q2 Er); lia]. change (Rltb np sn = true) in E. unfold Rltb in E. destruct (Rlt_dec np sn); [auto|discriminate].
    + rewrite (Q2 Er) in *. rewrite Z.eqb_refl. specialize (Pv Er Hin). exists (i + 1)%Z. split; [auto|]. split; [lia|]. split; [auto|].
      set (MR := M : Z -> Z -> R) in *. set (bnR := bn : Z -> R) in *.
      assert (G1 : gram nrow ncol A MR (fun c => f_p s (swb kdim i (f_piv s) c))).
      { intros c c' Hc Hc'. apply G; rewrite Hnc in *; apply swb_range; auto; lia. }
      assert (T1 : triang nrow (i * kdim) MR).
      { intros c Hc. assert (swb kdim i (f_piv s) c = c) as E.
        { assert (c / kdim < i)%Z by (apply Z.div_lt_upper_bound; lia). unfold swb, sw. pose proof (Z.div_mod c kdim ltac:(lia)). destruct (Z.eqb_spec (c / kdim) i); [lia|]. destruct (Z.eqb_spec (c / kdim) (f_piv s)); lia. }
        unfold MR, M. rewrite E. apply T. auto. }
      assert (N1 : bnorms i MR bnR).
      { intros j Hj. assert (E : btail MR (i * kdim) j = btail (f_M s) (i * kdim) (sw i (f_piv s) j)).
        { apply sumR_ext. intros t Ht. unfold tail, MR, M, swb. destruct (blk_divmod kdim j t Ht) as [-> ->]. reflexivity. }
        rewrite E. apply (N (sw i (f_piv s) j)). unfold sw. destruct (Z.eqb_spec j i); destruct (Z.eqb_spec j (f_piv s)); lia. }
      destruct (blk_T MR (i * kdim) (fun c => f_p s (swb kdim i (f_piv s) c)) W kdim Mk V) as (_ & TT & G2 & T2 & TM & TB & TL & MB & TW); auto; try lia.
      set (M'R := M' : Z -> Z -> R) in *.
      assert (E : forall r c, (0 <= r < nrow)%Z -> (0 <= c < ncol)%Z -> M'R r c = TT r c).
      { intros r c Hr Hc. unfold M'R, M'. destruct (Z.lt_ge_cases c (i * kdim + kdim)) as [L|L]; [rewrite blkupd_out by auto; symmetry; apply TM; auto|].
        destruct (Z.lt_ge_cases r (i * kdim)) as [L2|L2]; [rewrite blkupd_out by auto; rewrite TB by auto; apply MB; auto|].
        rewrite blkupd_R by auto. pose proof (TW (r - i * kdim)%Z c ltac:(lia) ltac:(lia)) as E. replace (i * kdim + (r - i * kdim))%Z with r in E by lia. rewrite E. rewrite (MB r c) by auto. f_equal. apply sumR_ext. intros a Ha. f_equal.
        apply ip_ext; auto. }
      split; [apply (gram_ext TT M'R); auto|]. split.
      { replace ((i + 1) * kdim)%Z with (i * kdim + kdim)%Z by lia. apply (triang_ext TT M'R); auto; lia. }
      split.
      { apply (renormk_inv i MR M'R bnR); auto; try lia. intros c Hc. rewrite <- TL by auto. unfold tail. apply sumR_ext. intros r Hr. rewrite E by lia. reflexivity. }
      set (bn'R := bn' : Z -> R). pose proof (fpiv_max bn'R (i + 1) nblk ltac:(lia) _ eq_refl) as (X1 & X2 & X3). split; [exact X2|]. intros HH; now destruct HH.
Qed.
End Blk.
