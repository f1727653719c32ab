(** Invariant of the pivoted QR over the reals: column inner products are those
    of the permuted input, the first columns are triangular, the norms are those
    of the remaining parts. *)
From Coq Require Import ZArith QArith List Lia Bool Permutation Reals Qreals Lra.
From Verif Require Import Base CRing FNum Model_ID Proof_IDMem Proof_IDQR Proof_IDIndex Proof_IDStruct Proof_IDMath.
Import ListNotations.
Open Scope R_scope.

Definition tail (nrow : Z) (M : Z -> Z -> R) (i c : Z) : R := sumR i nrow (fun r => M r c * M r c).

Section Inv.
Variables (dbl : bool) (nrow ncol : Z) (A : Z -> Z -> R) (sn : R).

Definition gram (M : Z -> Z -> R) (p : Z -> Z) : Prop :=
  forall c c', (0 <= c < ncol)%Z -> (0 <= c' < ncol)%Z -> ip nrow (fun r => M r c) (fun r => M r c') = ip nrow (fun r => A r (p c)) (fun r => A r (p c')).
Definition triang (i : Z) (M : Z -> Z -> R) : Prop :=
  forall c, (0 <= c < i)%Z -> M c c <> 0 /\ forall r, (c < r < nrow)%Z -> M r c = 0.
Definition norms (i : Z) (M : Z -> Z -> R) (cn : Z -> R) : Prop :=
  forall c, (i <= c < ncol)%Z -> cn c = sqrt (tail nrow M i c) \/ (cn c = 0 /\ sqrt (tail nrow M i c) < sn).

Lemma sum_tail (M : Z -> Z -> R) i c c' : (0 <= i <= nrow)%Z -> sumR i nrow (fun r => M r c * M r c') = ip (nrow - i) (fun k => M (i + k)%Z c) (fun k => M (i + k)%Z c').
Proof.
  intros Hi. unfold ip. pose proof (sumR_shift 0 (nrow - i) i (fun r => M r c * M r c')) as E. replace (0 + i)%Z with i in E by lia. replace (nrow - i + i)%Z with nrow in E by lia.
  rewrite E. apply sumR_ext. intros k Hk. now rewrite (Z.add_comm k i).
Qed.
Lemma ip_split (M : Z -> Z -> R) i c c' : (0 <= i <= nrow)%Z ->
  ip nrow (fun r => M r c) (fun r => M r c') = sumR 0%Z i (fun r => M r c * M r c') + ip (nrow - i) (fun k => M (i + k)%Z c) (fun k => M (i + k)%Z c').
Proof. intros Hi. unfold ip at 1. rewrite (sumR_split 0 i nrow) by lia. rewrite (sum_tail M i c c' Hi). reflexivity. Qed.

Lemma tail_nonneg M i c : 0 <= tail nrow M i c.
Proof. apply sumR_nonneg. intros. nra. Qed.

Lemma swap_inv i piv M p cn : (0 <= i < ncol)%Z -> (i <= piv < ncol)%Z -> perm_on ncol p -> gram M p -> triang i M -> norms i M cn ->
  perm_on ncol (fun c => p (sw i piv c)) /\ gram (fun r c => M r (sw i piv c)) (fun c => p (sw i piv c)) /\ triang i (fun r c => M r (sw i piv c)) /\ norms i (fun r c => M r (sw i piv c)) (fun c => cn (sw i piv c)).
Proof.
  intros Hi Hp P G T N. split; [apply perm_sw; auto; lia|]. split; [|split].
  - intros c c' Hc Hc'. apply G; apply sw_range; auto; lia.
  - intros c Hc. assert (sw i piv c = c) as -> by (unfold sw; destruct (Z.eqb_spec c i); destruct (Z.eqb_spec c piv); lia). apply T; auto.
  - intros c Hc. apply (N (sw i piv c)). unfold sw. destruct (Z.eqb_spec c i); destruct (Z.eqb_spec c piv); lia.
Qed.

(** The reflected matrix. *)
Lemma reflect_inv i M p v d : (0 <= i < nrow)%Z -> (i < ncol)%Z -> gram M p -> triang i M -> ip (nrow - i) v v = 1 -> d <> 0 ->
  (forall k, (0 <= k < nrow - i)%Z -> M (i + k)%Z i - 2 * ip (nrow - i) v (fun k => M (i + k)%Z i) * v k = if (k =? 0)%Z then d else 0) ->
  let M' : Z -> Z -> R := @reflected Rnum nrow M i v d in
  gram M' p /\ triang (i + 1) M' /\ (forall c, (i <= c < ncol)%Z -> tail nrow M' i c = tail nrow M i c).
Proof.
  intros Hi Hic G T Hv Hd0 Hx M'. set (n := (nrow - i)%Z) in *.
  assert (L : forall r c, (c < i \/ r < i)%Z -> M' r c = M r c).
  { intros r c H. unfold M', reflected. destruct (Z.ltb_spec c i); destruct (Z.ltb_spec r i); cbn [orb]; auto; lia. }
  assert (Rf : forall c k, (i <= c)%Z -> (0 <= k < n)%Z -> M' (i + k)%Z c = M (i + k)%Z c - 2 * ip n v (fun k => M (i + k)%Z c) * v k).
  { intros c k Hc Hk. unfold M', reflected. destruct (Z.ltb_spec c i); [lia|]. destruct (Z.ltb_spec (i + k) i); [lia|]. cbn [orb].
    destruct (Z.eqb_spec c i) as [->|].
    - rewrite Hx by auto. destruct (Z.eqb_spec (i + k) i); destruct (Z.eqb_spec k 0); try lia; auto. cbn. apply Q2R_0.
    - replace (i + k - i)%Z with k by lia. fold n. change (M (i + k)%Z c - Q2R 2 * Rdot (map v (zrange 0 n)) (map (fun k => M (i + k)%Z c) (zrange 0 n)) * v k = M (i + k)%Z c - 2 * ip n v (fun k => M (i + k)%Z c) * v k). rewrite Q2R_2, Rdot_ip. reflexivity. }
  assert (Z0 : forall c k, (0 <= c < i)%Z -> (0 <= k < n)%Z -> M (i + k)%Z c = 0). { intros c k Hc Hk. apply (T c Hc). lia. }
  assert (Z0' : forall c k, (0 <= c < i)%Z -> (0 <= k < n)%Z -> M' (i + k)%Z c = 0). { intros c k Hc Hk. rewrite L by lia. auto. }
  assert (Tip : forall c c', (0 <= c)%Z -> (0 <= c')%Z -> ip n (fun k => M' (i + k)%Z c) (fun k => M' (i + k)%Z c') = ip n (fun k => M (i + k)%Z c) (fun k => M (i + k)%Z c')).
  { intros c c' Hc Hc'. destruct (Z.lt_ge_cases c i) as [L1|L1].
    { unfold ip. rewrite !sumR_zero; auto; intros k Hk; [rewrite Z0 by lia|rewrite Z0' by lia]; lra. }
    destruct (Z.lt_ge_cases c' i) as [L2|L2].
    { unfold ip. rewrite !sumR_zero; auto; intros k Hk; [rewrite (Z0 c') by lia|rewrite (Z0' c') by lia]; lra. }
    rewrite <- (reflect_ip n v (fun k => M (i + k)%Z c) (fun k => M (i + k)%Z c') Hv). apply ip_ext; intros k Hk; apply Rf; auto. }
  split; [|split].
  - intros c c' Hc Hc'. rewrite <- G by auto. rewrite (ip_split M' i c c'), (ip_split M i c c') by lia. fold n. rewrite Tip by lia. f_equal.
    apply sumR_ext. intros r Hr. rewrite !L by lia. reflexivity.
  - intros c Hc. destruct (Z.eq_dec c i) as [->|].
    + assert (Ci : forall k, (0 <= k < n)%Z -> M' (i + k)%Z i = if (k =? 0)%Z then d else 0) by (intros k Hk; rewrite Rf by (auto; lia); apply Hx; auto).
      split.
      * pose proof (Ci 0%Z ltac:(lia)) as C0. rewrite Z.add_0_r in C0. rewrite C0. cbn [Z.eqb]. auto.
      * intros r Hr. pose proof (Ci (r - i)%Z ltac:(lia)) as C0. replace (i + (r - i))%Z with r in C0 by lia. rewrite C0. destruct (Z.eqb_spec (r - i) 0); [lia|auto].
    + destruct (T c ltac:(lia)) as [T1 T2]. split; [rewrite L by lia; auto|]. intros r Hr. rewrite L by lia. auto.
  - intros c Hc. unfold tail. rewrite !sum_tail by lia. apply Tip; lia.
Qed.

Lemma renorm_inv i M M' cn : (0 <= i < nrow)%Z -> 0 < sn -> norms i M cn -> (forall c, (i <= c < ncol)%Z -> tail nrow M' i c = tail nrow M i c) ->
  norms (i + 1) M' (fun c => if (c <=? i)%Z then cn c else @renorm Rnum dbl nrow sn M' cn i c).
Proof.
  intros Hi Hs N HT c Hc. destruct (Z.leb_spec c i); [lia|].
  assert (E : tail nrow M' i c = M' i c * M' i c + tail nrow M' (i + 1) c) by (unfold tail; apply sumR_first; lia).
  pose proof (tail_nonneg M' (i + 1) c) as P1.
  assert (Le : sqrt (tail nrow M' (i + 1) c) <= sqrt (tail nrow M' i c)) by (apply sqrt_le_1_alt; nra).
  set (t := cn c * cn c - M' i c * M' i c).
  assert (Er : @renorm Rnum dbl nrow sn M' cn i c = (if Rlt_dec (cn c) sn then 0 else
      if Rleb t (@fast_thr Rnum dbl) then sqrt (ip (nrow - i - 1) (fun k => M' (i + 1 + k)%Z c) (fun k => M' (i + 1 + k)%Z c)) else sqrt t)).
  { change (@renorm Rnum dbl nrow sn M' cn i c) with (if Rltb (cn c) sn then Q2R 0 else if Rleb t (@fast_thr Rnum dbl) then sqrt (Rdot (map (fun k => M' (i + 1 + k)%Z c) (zrange 0 (nrow - i - 1))) (map (fun k => M' (i + 1 + k)%Z c) (zrange 0 (nrow - i - 1)))) else sqrt t).
    rewrite Rdot_ip, Q2R_0. unfold Rltb. destruct (Rlt_dec (cn c) sn); reflexivity. }
  rewrite Er. rewrite HT in * by lia.
  destruct (Rlt_dec (cn c) sn) as [L|L].
  - right. split; [reflexivity|]. destruct (N c ltac:(lia)) as [Ec|[Ec1 Ec2]]; [rewrite Ec in L|]; lra.
  - left. destruct (N c ltac:(lia)) as [Ec|[Ec1 Ec2]]; [|lra].
    assert (Tm : t = tail nrow M' (i + 1) c). { unfold t. rewrite Ec. rewrite sqrt_sqrt by (apply tail_nonneg). lra. }
    rewrite Tm. match goal with |- context [if ?b then _ else _] => destruct b end; [|reflexivity].
    unfold tail. rewrite sum_tail by lia. replace (nrow - (i + 1))%Z with (nrow - i - 1)%Z by lia. reflexivity.
Qed.

(** ** The loop *)
Variables (stop_rank : Z).
Definition qinv (i : Z) (s : @fst_ Rnum) : Prop :=
  (* still running at step i, or stopped at rank k <= i *)
  let k := if (f_rank s =? -1)%Z then i else f_rank s in
  let np : R := f_np s in
  let cn : Z -> R := f_cn s in
  (0 <= k <= i)%Z /\ (k <= Z.min nrow ncol)%Z /\ (k <= Z.max 0 stop_rank)%Z /\ perm_on ncol (f_p s) /\ gram (f_M s) (f_p s) /\ triang k (f_M s) /\ norms k (f_M s) cn /\
  (forall c, (k <= c < ncol)%Z -> cn c <= np) /\ (0 < np -> np = cn (f_piv s) /\ (k <= f_piv s < ncol)%Z) /\
  (f_rank s <> (-1)%Z -> np < sn \/ (stop_rank <= k)%Z).

Lemma qinv_step i s : 0 < sn -> (0 <= i < Z.min nrow ncol)%Z -> qinv i s -> exists s', @fq_step Rnum dbl nrow ncol stop_rank sn i s = Some s' /\ qinv (i + 1) s'.
Proof.
  intros Hs Hi (K1 & K2 & K3 & P & G & T & N & Mx & Pv & St). set (np := f_np s : R) in *. set (cn0 := f_cn s : Z -> R) in *. unfold fq_step. revert K1 K2 K3 T N Mx Pv St. destruct (Z.eqb_spec (f_rank s) (-1)) as [Er|Er]; intros K1 K2 K3 T N Mx Pv St; cbn [negb].
  2:{ exists s. split; auto. unfold qinv. destruct (Z.eqb_spec (f_rank s) (-1)); [contradiction|]. repeat (split; [assumption || lia|]). assumption. }
  change (@flt Rnum (f_np s) sn) with (Rltb np sn). destruct (Rltb np sn || (stop_rank <=? i)%Z) eqn:Estop.
  { eexists. split; [reflexivity|]. unfold qinv. cbn [f_M f_p f_cn f_piv f_np f_rank]. destruct (Z.eqb_spec i (-1)); [lia|]. split; [lia|]. split; [lia|]. split; [exact K3|].
    repeat (split; [assumption|]). intros _. apply orb_true_iff in Estop as [E|E].
    - left. unfold Rltb in E. destruct (Rlt_dec np sn); [auto|discriminate].
    - right. lia. }
  apply orb_false_iff in Estop as [E1 E2]. unfold Rltb in E1. destruct (Rlt_dec np sn) as [|Hge]; [discriminate|].
  assert (Hnp : 0 < np) by lra. destruct (Pv Hnp) as [Epv Rpv].
  destruct (swap_inv i (f_piv s) (f_M s) (f_p s) cn0 ltac:(lia) Rpv P G T N) as (P1 & G1 & T1 & N1). cbv zeta.
  set (M := (fun r c => f_M s r (sw i (f_piv s) c)) : Z -> Z -> R) in *. set (cn := (fun c => cn0 (sw i (f_piv s) c)) : Z -> R) in *.
  change (fun k : Z => f_M s (i + k)%Z (sw i (f_piv s) i)) with (fun k => M (i + k)%Z i). set (x := fun k => M (i + k)%Z i).
  (* the pivot column is not zero *)
  assert (Ecn : cn i = np). { unfold cn, sw. rewrite Z.eqb_refl. congruence. }
  assert (Hx : 0 < ip (nrow - i) x x).
  { destruct (N1 i ltac:(lia)) as [En|[En _]]; [|rewrite Ecn in En; lra].
    unfold tail in En. rewrite sum_tail in En by lia. fold x in En. rewrite Ecn in En.
    destruct (Rle_or_lt (ip (nrow - i) x x) 0) as [L|L]; auto. exfalso. rewrite (sqrt_neg_0 _ L) in En. lra. }
  destruct (house_math x (nrow - i) ltac:(lia) Hx) as (inv & Einv & Hv & Hk). rewrite Einv. cbn [bind].
  set (v := fun k : Z => @hraw Rnum x (nrow - i) k * inv) in *. set (d := (0 - @hsign Rnum x) * @hnorm Rnum x (nrow - i)).
  assert (Hd : d <> 0).
  { assert (Hn : 0 < @hnorm Rnum x (nrow - i)). { change (0 < sqrt (Rdot (map x (zrange 0 (nrow - i))) (map x (zrange 0 (nrow - i))))). rewrite Rdot_ip. apply sqrt_lt_R0. auto. }
    unfold d. assert (@hsign Rnum x = 1 \/ @hsign Rnum x = -1) as [E|E]; [|rewrite E; nra|rewrite E; nra].
    unfold hsign. destruct (flt _ _); [left; apply Q2R_1|right; apply Q2R_m1]. }
  destruct (reflect_inv i M (fun c => f_p s (sw i (f_piv s) c)) v d ltac:(lia) ltac:(lia) G1 T1 Hv Hd Hk) as (G2 & T2 & TL).
  assert (Ed : @fmul Rnum (@fsub Rnum (@flit Rnum 0%Q) (@hsign Rnum x)) (@hnorm Rnum x (nrow - i)) = d). { cbn. now rewrite Q2R_0. }
  rewrite Ed. change (fun k : Z => @fmul Rnum (@hraw Rnum x (nrow - i) k) inv) with v.
  set (M' := @reflected Rnum nrow M i v d) in *.
  pose proof (renorm_inv i M M' cn ltac:(lia) Hs N1 TL) as N2.
  set (cn' := (fun c => if (c <=? i)%Z then cn c else @renorm Rnum dbl nrow sn M' cn i c) : Z -> R) in *.
  eexists. split; [reflexivity|]. unfold qinv. cbn [f_M f_p f_cn f_piv f_np f_rank]. rewrite Z.eqb_refl.
  pose proof (fpiv_max cn' (i + 1) ncol ltac:(lia) _ eq_refl) as (X1 & X2 & X3).
  split; [lia|]. split; [lia|]. split; [apply Z.leb_gt in E2; lia|]. split; [exact P1|]. split; [exact G2|]. split; [exact T2|]. split; [exact N2|]. split; [exact X2|]. split; [exact X3|]. intros HH; now destruct HH.
Qed.

Lemma qinv_run : 0 < sn -> (0 <= nrow)%Z -> (0 <= ncol)%Z -> forall s, qinv 0 s ->
  exists s', zfor 0 (Z.min nrow ncol) (@fq_step Rnum dbl nrow ncol stop_rank sn) s = Some s' /\ qinv (Z.min nrow ncol) s'.
Proof.
  intros Hs Hn Hc s H0. destruct (zfor_inv qinv 0 (Z.min nrow ncol) (@fq_step Rnum dbl nrow ncol stop_rank sn) s) as (s' & E & H); try lia; auto.
  - intros i t Hi H. apply qinv_step; auto.
  - eauto.
Qed.
Lemma qinv_init : (0 <= nrow)%Z -> (0 <= ncol)%Z -> qinv 0 (@fq_init Rnum nrow ncol A).
Proof.
  intros Hn Hc. unfold qinv, fq_init. cbn [f_M f_p f_cn f_piv f_np f_rank]. rewrite Z.eqb_refl.
  set (cn := (fun c : Z => @fnrm2 Rnum (@colv Rnum A 0 c nrow)) : Z -> R).
  pose proof (fpiv_max cn 0 ncol Hc _ eq_refl) as (X1 & X2 & X3).
  split; [lia|]. split; [lia|]. split; [lia|]. split; [split; auto|]. split; [intros c c' _ _; reflexivity|]. split; [intros c HH; lia|]. split.
  { intros c HH. left. change (cn c) with (sqrt (Rdot (map (fun k => A (0 + k)%Z c) (zrange 0 nrow)) (map (fun k => A (0 + k)%Z c) (zrange 0 nrow)))). rewrite Rdot_ip. unfold tail. rewrite sum_tail by lia. rewrite Z.sub_0_r. reflexivity. }
  split; [exact X2|]. split; [exact X3|]. intros HH; now destruct HH.
Qed.
End Inv.
