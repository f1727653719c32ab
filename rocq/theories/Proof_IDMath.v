(** Householder reflections and inner products over the reals. *)
From Coq Require Import ZArith QArith List Lia Bool Permutation Reals Qreals Lra.
From Verif Require Import Base CRing FNum Proof_IDMem.
Import ListNotations.
Open Scope R_scope.

Notation sumR lo hi f := (@rsum Rring lo hi f).
(** Inner product of two vectors of length n. *)
Definition ip (n : Z) (x y : Z -> R) : R := sumR 0%Z n (fun k => x k * y k).

Lemma Rdot_ip n x y : Rdot (map x (zrange 0 n)) (map y (zrange 0 n)) = ip n x y.
Proof.
  unfold Rdot, ip, rsum, lsum. induction (zrange 0 n) as [|k l IH]; [reflexivity|]. cbn [map combine fold_right fst snd]. cbn in IH |- *. rewrite IH. reflexivity.
Qed.
Lemma Q2R_0 : Q2R 0 = 0. Proof. unfold Q2R. cbn. lra. Qed.
Lemma Q2R_1 : Q2R 1 = 1. Proof. unfold Q2R. cbn. lra. Qed.
Lemma Q2R_2 : Q2R 2 = 2. Proof. unfold Q2R. cbn. lra. Qed.
Lemma Q2R_m1 : Q2R (-1) = -1. Proof. unfold Q2R. cbn. lra. Qed.

Lemma sumR_ext lo hi (f g : Z -> R) : (forall k, (lo <= k < hi)%Z -> f k = g k) -> sumR lo hi f = sumR lo hi g.
Proof. apply (@rsum_ext Rring). Qed.
Lemma sumR_add lo hi (f g : Z -> R) : sumR lo hi (fun k => f k + g k) = sumR lo hi f + sumR lo hi g.
Proof. apply (@rsum_add Rring). Qed.
Lemma sumR_mul_l lo hi c (f : Z -> R) : sumR lo hi (fun k => c * f k) = c * sumR lo hi f.
Proof. apply (@rsum_mul_l Rring). Qed.
Lemma sumR_mul_r lo hi c (f : Z -> R) : sumR lo hi (fun k => f k * c) = sumR lo hi f * c.
Proof. apply (@rsum_mul_r Rring). Qed.
Lemma sumR_sub lo hi (f g : Z -> R) : sumR lo hi (fun k => f k - g k) = sumR lo hi f - sumR lo hi g.
Proof.
  rewrite (sumR_ext lo hi _ (fun k => f k + (-1) * g k)) by (intros; lra). rewrite sumR_add, sumR_mul_l. lra.
Qed.
Lemma sumR_zero lo hi (f : Z -> R) : (forall k, (lo <= k < hi)%Z -> f k = 0) -> sumR lo hi f = 0.
Proof. apply (@rsum_zero Rring). Qed.
Lemma sumR_split lo mid hi (f : Z -> R) : (lo <= mid <= hi)%Z -> sumR lo hi f = sumR lo mid f + sumR mid hi f.
Proof. apply (@rsum_split Rring). Qed.
Lemma sumR_one lo (f : Z -> R) : sumR lo (lo + 1)%Z f = f lo.
Proof. apply (@rsum_one Rring). Qed.
Lemma sumR_first lo hi (f : Z -> R) : (lo < hi)%Z -> sumR lo hi f = f lo + sumR (lo + 1)%Z hi f.
Proof. intros. rewrite (sumR_split lo (lo + 1) hi) by lia. now rewrite sumR_one. Qed.
Lemma sumR_empty lo hi (f : Z -> R) : (hi <= lo)%Z -> sumR lo hi f = 0.
Proof. apply (@rsum_empty Rring). Qed.
Lemma sumR_shift lo hi d (f : Z -> R) : sumR (lo + d)%Z (hi + d)%Z f = sumR lo hi (fun k => f (k + d)%Z).
Proof. apply (@rsum_shift Rring). Qed.
Lemma sumR_swap lo hi lo' hi' (f : Z -> Z -> R) : sumR lo hi (fun i => sumR lo' hi' (fun j => f i j)) = sumR lo' hi' (fun j => sumR lo hi (fun i => f i j)).
Proof. apply (@rsum_swap Rring). Qed.
Lemma sumR_snoc lo hi (f : Z -> R) : (lo <= hi)%Z -> sumR lo (hi + 1)%Z f = sumR lo hi f + f hi.
Proof. apply (@rsum_snoc Rring). Qed.
Lemma sumR_nonneg lo hi (f : Z -> R) : (forall k, (lo <= k < hi)%Z -> 0 <= f k) -> 0 <= sumR lo hi f.
Proof.
  intros H. unfold rsum. assert (G : forall l, (forall k, In k l -> 0 <= f k) -> 0 <= @lsum Rring Z f l).
  { induction l as [|k l IH]; intros Hl; [cbn; lra|]. rewrite (@lsum_cons Rring). cbn. specialize (Hl k (or_introl eq_refl)) as H1. assert (0 <= @lsum Rring Z f l) by (apply IH; intros; apply Hl; now right). cbn in *. lra. }
  apply G. intros k Hk. apply In_zrange in Hk. auto.
Qed.
Lemma sumR_ge_term lo hi (f : Z -> R) k : (lo <= k < hi)%Z -> (forall j, (lo <= j < hi)%Z -> 0 <= f j) -> f k <= sumR lo hi f.
Proof.
  intros Hk H. rewrite (sumR_split lo k hi) by lia. rewrite (sumR_first k hi) by lia.
  assert (0 <= sumR lo k f) by (apply sumR_nonneg; intros; apply H; lia). assert (0 <= sumR (k + 1) hi f) by (apply sumR_nonneg; intros; apply H; lia). lra.
Qed.

Lemma ip_sym n x y : ip n x y = ip n y x.
Proof. apply sumR_ext. intros. apply Rmult_comm. Qed.
Lemma ip_nonneg n x : 0 <= ip n x x.
Proof. apply sumR_nonneg. intros. nra. Qed.
Lemma ip_ext n x y x' y' : (forall k, (0 <= k < n)%Z -> x k = x' k) -> (forall k, (0 <= k < n)%Z -> y k = y' k) -> ip n x y = ip n x' y'.
Proof. intros H1 H2. apply sumR_ext. intros k Hk. now rewrite H1, H2. Qed.
Lemma ip_sub_l n x y z a : ip n (fun k => x k - a * y k) z = ip n x z - a * ip n y z.
Proof. unfold ip. rewrite <- sumR_mul_l, <- sumR_sub. apply sumR_ext. intros. lra. Qed.
Lemma ip_sub_r n x y z a : ip n z (fun k => x k - a * y k) = ip n z x - a * ip n z y.
Proof. rewrite ip_sym, ip_sub_l. now rewrite (ip_sym n x), (ip_sym n y). Qed.

(** Reflecting with a unit vector keeps inner products. *)
Lemma reflect_ip n v x y : ip n v v = 1 -> ip n (fun k => x k - 2 * ip n v x * v k) (fun k => y k - 2 * ip n v y * v k) = ip n x y.
Proof. intros Hv. rewrite ip_sub_l, !ip_sub_r. rewrite (ip_sym n x v), Hv. lra. Qed.

(** The vector the code computes is a unit vector and reflects x to a multiple
    of the first unit vector; it is not divided by zero. *)
Lemma house_math (x : Z -> R) n : (1 <= n)%Z -> 0 < ip n x x ->
  exists inv, @hinv Rnum x n = Some inv /\ let v := fun k => @hraw Rnum x n k * inv in
    ip n v v = 1 /\
    forall k, (0 <= k < n)%Z -> x k - 2 * ip n v x * v k = if (k =? 0)%Z then (0 - @hsign Rnum x) * @hnorm Rnum x n else 0.
Proof.
  intros Hn Hp. set (s := @hsign Rnum x). set (N := @hnorm Rnum x n).
  assert (HN : N = sqrt (ip n x x)). { unfold N, hnorm. cbn. unfold Rnrm2. now rewrite Rdot_ip. }
  assert (HN2 : N * N = ip n x x) by (rewrite HN; apply sqrt_sqrt; lra).
  assert (HN0 : 0 < N) by (rewrite HN; apply sqrt_lt_R0; auto).
  assert (Hs : s * s = 1 /\ 0 <= s * x 0%Z).
  { unfold s, hsign. cbn. unfold Rltb. rewrite Q2R_0. destruct (Rlt_dec 0 (x 0%Z)); rewrite ?Q2R_1, ?Q2R_m1; split; nra. }
  destruct Hs as [Hs1 Hs2].
  set (h := @hraw Rnum x n).
  assert (Hh0 : h 0%Z = x 0%Z + s * N) by reflexivity.
  assert (Hh : forall k, (1 <= k)%Z -> h k = x k). { intros k Hk. unfold h, hraw. destruct (Z.eqb_spec k 0); [lia|reflexivity]. }
  assert (Ehx : ip n h x = N * N + s * N * x 0%Z).
  { rewrite HN2. unfold ip. rewrite (sumR_first 0 n) by lia. rewrite (sumR_first 0 n (fun k => x k * x k)) by lia. rewrite Hh0.
    rewrite (sumR_ext (0 + 1) n (fun k => h k * x k) (fun k => x k * x k)); [|intros k Hk; rewrite Hh by lia; reflexivity]. lra. }
  assert (Ehh : ip n h h = 2 * ip n h x).
  { rewrite Ehx. assert (E : ip n h h = ip n x x - x 0%Z * x 0%Z + h 0%Z * h 0%Z).
    { unfold ip. rewrite (sumR_first 0 n) by lia. rewrite (sumR_first 0 n (fun k => x k * x k)) by lia.
      rewrite (sumR_ext (0 + 1) n (fun k => h k * h k) (fun k => x k * x k)); [|intros k Hk; rewrite Hh by lia; reflexivity]. lra. }
    rewrite E, Hh0, <- HN2. nra. }
  assert (Hhp : 0 < ip n h h). { rewrite Ehh, Ehx. nra. }
  set (n2 := sqrt (ip n h h)).
  assert (Hn2 : n2 * n2 = ip n h h) by (apply sqrt_sqrt; lra).
  assert (Hn0 : 0 < n2) by (apply sqrt_lt_R0; auto).
  exists (1 / n2). split.
  { unfold hinv. cbn. unfold Rnrm2. fold h. rewrite Rdot_ip. fold n2. rewrite Q2R_1. destruct (Req_EM_T n2 0); [lra|reflexivity]. }
  intros v.
  assert (Ev : forall y, ip n v y = ip n h y * (1 / n2)).
  { intros y. unfold ip, v. rewrite <- sumR_mul_r. apply sumR_ext. intros. fold h. cbn. lra. }
  assert (D : 1 / n2 * n2 = 1) by (field; lra).
  split.
  - rewrite Ev, ip_sym, Ev. rewrite <- Hn2. replace (n2 * n2 * (1 / n2) * (1 / n2)) with ((1 / n2 * n2) * (1 / n2 * n2)) by ring. rewrite D. ring.
  - intros k Hk. rewrite Ev. unfold v. fold h.
    replace (x k - 2 * (ip n h x * (1 / n2)) * (h k * (1 / n2))) with (x k - (2 * ip n h x) * h k * (1 / n2) * (1 / n2)) by ring.
    rewrite <- Ehh, <- Hn2. replace (x k - n2 * n2 * h k * (1 / n2) * (1 / n2)) with (x k - h k * ((1 / n2 * n2) * (1 / n2 * n2))) by ring.
    rewrite D. destruct (Z.eqb_spec k 0) as [->|]; [rewrite Hh0; ring|rewrite Hh by lia; ring].
Qed.

(** The pivot search finds the maximum. *)
Lemma fpiv_max (cn : Z -> R) lo hi : (lo <= hi)%Z -> forall pv : Z * R, pv = @fpiv Rnum cn lo hi ->
  0 <= snd pv /\ (forall c, (lo <= c < hi)%Z -> cn c <= snd pv) /\ (0 < snd pv -> snd pv = cn (fst pv) /\ (lo <= fst pv < hi)%Z).
Proof.
  intros Hl pv ->. set (f := fun (s : Z * R) j => if Rltb (snd s) (cn j) then (j, cn j) else s).
  assert (G : forall l (s : Z * R), 0 <= snd s -> (0 < snd s -> snd s = cn (fst s) /\ (lo <= fst s < hi)%Z) -> (forall j, In j l -> (lo <= j < hi)%Z) -> forall pv, pv = fold_left f l s ->
    snd s <= snd pv /\ (forall c, In c l -> cn c <= snd pv) /\ (0 < snd pv -> snd pv = cn (fst pv) /\ (lo <= fst pv < hi)%Z)).
  { induction l as [|j l IH]; intros s H0 H1 H2 pv ->; cbn [fold_left].
    - split; [lra|]. split; [intros c []|auto].
    - destruct (Rlt_dec (snd s) (cn j)) as [L|L].
      + assert (f s j = (j, cn j)) as -> by (unfold f, Rltb; destruct (Rlt_dec (snd s) (cn j)); [reflexivity|contradiction]).
        destruct (IH (j, cn j)) with (pv := fold_left f l (j, cn j)) as (A & B & C); cbn [fst snd] in *; [lra|intros; split; [reflexivity|apply H2; now left]|intros; apply H2; now right|reflexivity|].
        split; [lra|]. split; [|exact C]. intros c [<-|Hc]; auto.
      + assert (f s j = s) as -> by (unfold f, Rltb; destruct (Rlt_dec (snd s) (cn j)); [contradiction|reflexivity]).
        destruct (IH s H0 H1) with (pv := fold_left f l s) as (A & B & C); [intros; apply H2; now right|reflexivity|].
        split; [exact A|]. split; [|exact C]. intros c [<-|Hc]; [lra|auto]. }
  change (@fpiv Rnum cn lo hi) with (fold_left f (zrange lo hi) (lo, Q2R 0)). rewrite Q2R_0.
  destruct (G (zrange lo hi) (lo, 0)) with (pv := fold_left f (zrange lo hi) (lo, 0)) as (A & B & C); cbn [fst snd].
  - lra.
  - intros; exfalso; lra.
  - intros j Hj. now apply In_zrange in Hj.
  - reflexivity.
  - split; [exact A|]. split; [|exact C]. intros c Hc. apply B. apply In_zrange. lia.
Qed.
