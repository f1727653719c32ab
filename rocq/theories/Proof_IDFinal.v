(** The pieces of H2P_ID_compress put together, for any arithmetic. *)
From Coq Require Import ZArith QArith List Lia Bool Permutation.
From Verif Require Import Base Mem FNum Model_Utils Model_Dense Model_CSR Model_Build Model_ID Spec_Utils Spec_Dense Spec_ID Proof_Utils Proof_IDMem Proof_IDQR Proof_IDIndex Proof_IDSolve Proof_IDQRk Proof_IDStruct.
Import ListNotations.
Open Scope Z_scope.

(** ** A sorted enumeration of whole groups *)
Section Groups.
Variables (kdim k : Z) (f : Z -> Z).
Hypothesis Hk : 0 < kdim.
Hypothesis Hinc : forall c c', 0 <= c < c' -> c' < k * kdim -> f c < f c'.
Hypothesis Hgrp : forall c t, 0 <= c < k * kdim -> 0 <= t < kdim -> exists c', 0 <= c' < k * kdim /\ f c' = f c / kdim * kdim + t.

Lemma f_inj c c' : 0 <= c < k * kdim -> 0 <= c' < k * kdim -> f c = f c' -> c = c'.
Proof. intros H1 H2 E. destruct (Z.lt_trichotomy c c') as [L|[L|L]]; auto; [pose proof (Hinc c c' ltac:(lia) ltac:(lia))|pose proof (Hinc c' c ltac:(lia) ltac:(lia))]; lia. Qed.
Lemma f_le c c' : 0 <= c < k * kdim -> 0 <= c' < k * kdim -> f c <= f c' -> c <= c'.
Proof. intros H1 H2 E. destruct (Z.le_gt_cases c c'); auto. pose proof (Hinc c' c ltac:(lia) ltac:(lia)). lia. Qed.

Lemma grp_sorted : forall b, 0 <= b < k -> f (b * kdim) = f (b * kdim) / kdim * kdim /\ forall t, 0 <= t < kdim -> f (b * kdim + t) = f (b * kdim) + t.
Proof.
  intros b Hb. pose proof (proj1 Hb) as Hb0. revert Hb. pattern b. apply Zlt_0_ind; [|assumption]. clear b Hb0. intros b IH _ Hb.
  assert (In0 : 0 <= b * kdim + 0 < k * kdim) by (apply (blk_in kdim k b 0); lia). rewrite Z.add_0_r in In0.
  set (v := f (b * kdim)) in *. set (v0 := v / kdim * kdim).
  pose proof (Z.div_mod v kdim ltac:(lia)) as DM. pose proof (Z.mod_pos_bound v kdim Hk) as MB.
  assert (E0 : v = v0).
  { destruct (Hgrp (b * kdim) 0 ltac:(lia) ltac:(lia)) as (c & Hc & Ec). fold v v0 in Ec. rewrite Z.add_0_r in Ec.
    assert (Lc : c <= b * kdim). { apply f_le; auto. fold v. unfold v0 in Ec. lia. }
    destruct (Z.eq_dec c (b * kdim)) as [->|Ne]; [unfold v; lia|]. exfalso.
    set (b' := c / kdim). pose proof (Z.div_mod c kdim ltac:(lia)) as DC. fold b' in DC. pose proof (Z.mod_pos_bound c kdim Hk) as MC.
    assert (Hb' : 0 <= b' < b). { unfold b'. split; [apply Z.div_pos; lia|apply Z.div_lt_upper_bound; lia]. }
    destruct (IH b' Hb' ltac:(lia)) as [I1 I2].
    pose proof (I2 (c mod kdim) MC) as I3. replace (b' * kdim + c mod kdim) with c in I3 by lia.
    assert (c mod kdim = 0).
    { assert (f c mod kdim = 0) by (rewrite Ec; unfold v0; apply Z.mod_mul; lia). rewrite I3, I1 in H. rewrite Z.add_comm, Z.mod_add, Z.mod_small in H by lia. auto. }
    rewrite H, Z.add_0_r in I3. pose proof (I2 (v mod kdim) MB) as I4.
    assert (f (b' * kdim + v mod kdim) = v) by (unfold v0 in Ec; lia).
    assert (b' * kdim + v mod kdim = b * kdim).
    { apply f_inj; [apply (blk_in kdim k b' (v mod kdim)); lia|lia|auto]. }
    assert ((b' + 1) * kdim <= b * kdim) by (apply Z.mul_le_mono_nonneg_r; lia). lia. }
  split; [exact E0|]. intros t Ht. pose proof (proj1 Ht) as Ht0. revert Ht. pattern t. apply Zlt_0_ind; [|assumption]. clear t Ht0. intros t IHt _ Ht.
  destruct (Z.eq_dec t 0) as [->|Nt]; [rewrite !Z.add_0_r; reflexivity|].
  pose proof (IHt (t - 1) ltac:(lia) ltac:(lia)) as Ip.
  destruct (Hgrp (b * kdim) t ltac:(lia) ltac:(lia)) as (c & Hc & Ec). fold v v0 in Ec. rewrite <- E0 in Ec.
  pose proof (blk_in kdim k b t Hk Hb Ht). pose proof (blk_in kdim k b (t - 1) Hk Hb ltac:(lia)).
  assert (Gc : b * kdim + t <= c). { destruct (Z.le_gt_cases (b * kdim + t) c); auto. assert (c <= b * kdim + (t - 1)) by lia. destruct (Z.eq_dec c (b * kdim + (t - 1))); [subst c; lia|]. pose proof (Hinc c (b * kdim + (t - 1)) ltac:(lia) ltac:(lia)). lia. }
  assert (f (b * kdim + t) <= f c) by (destruct (Z.eq_dec c (b * kdim + t)); [subst c; lia|pose proof (Hinc (b * kdim + t) c ltac:(lia) ltac:(lia)); lia]).
  pose proof (Hinc (b * kdim + (t - 1)) (b * kdim + t) ltac:(lia) ltac:(lia)). lia.
Qed.
End Groups.

Section Fin.
Context {F : fnum}.

(** Where the factorisation comes from. *)
Definition origin (dbl : bool) (stp : @stop F) (kdim m n nblk : Z) (A M : Z -> Z -> F) (p : Z -> Z) (r : Z) : Prop :=
  let '(tol_rank, tol_norm, rel) := stop_params stp kdim (Z.min m n) in
  (kdim = 1 /\ exists s, fq_run dbl m n rel tol_rank tol_norm A = Some s /\ M = f_M s /\ p = f_p s /\ r = final_rank m n s) \/
  (1 < kdim /\ exists s, fk_reach dbl kdim m n nblk (Z.min (Z.min m n / kdim) (Z.quot tol_rank kdim)) (stop_norm dbl rel m tol_norm (f_np (fk_init kdim m nblk A))) A (Z.min m n / kdim) s /\
     M = f_M s /\ p = f_p s /\ r = final_rank_k kdim m n s).

Lemma origin_struct dbl (stp : @stop F) kdim m n nblk A M p r : 0 < kdim -> 0 <= m -> 0 <= nblk -> n = nblk * kdim -> origin dbl stp kdim m n nblk A M p r ->
  blocked kdim nblk p /\ (exists k, r = k * kdim /\ 0 <= k) /\ r <= Z.min m n /\ rank_limit stp r /\ (r = 0 -> forall c, p c = c).
Proof.
  intros Hk Hm Hb Hn. unfold origin. destruct (stop_params stp kdim (Z.min m n)) as ((tol_rank & tol_norm) & rel) eqn:Ep.
  assert (Hn0 : 0 <= n) by (rewrite Hn; apply Z.mul_nonneg_nonneg; lia).
  assert (RL : forall r, r <= Z.max 0 tol_rank -> rank_limit stp r). { intros r' Hr'. destruct stp; cbn in *; auto. injection Ep as <- _ _. auto. }
  intros [(-> & s & E & -> & -> & ->)|(Hk1 & s & E & -> & -> & ->)].
  - destruct (fq_struct dbl m n rel tol_rank tol_norm A s Hm Hn0 E) as (P & R1 & R2 & Id). rewrite Z.mul_1_r in Hn. subst nblk.
    split; [apply blocked_one; auto|]. split; [exists (final_rank m n s); lia|]. split; [lia|]. split; [auto|auto].
  - destruct (fk_struct dbl m n kdim nblk _ _ A _ s Hk Hb Hn E) as (P & _ & (q & Eq & Q1 & Q2 & Q3) & _). change (final_rank_k kdim m n s = q * kdim) in Eq. rewrite Eq.
    split; auto. split; [exists q; lia|]. assert (q * kdim <= Z.min m n / kdim * kdim) by (apply Z.mul_le_mono_nonneg_r; lia). pose proof (Z.mul_div_le (Z.min m n) kdim Hk).
    split; [lia|]. split.
    { apply RL. destruct (Z.le_gt_cases tol_rank 0) as [L|L].
      - assert (Z.quot tol_rank kdim <= 0). { pose proof (Z.quot_le_mono tol_rank 0 kdim Hk L). rewrite Z.quot_0_l in H1 by lia. auto. } assert (q = 0) by lia. subst q. lia.
      - pose proof (Z.mul_quot_le tol_rank kdim ltac:(lia) ltac:(lia)). assert (0 <= Z.quot tol_rank kdim) by (apply Z.quot_pos; lia).
        assert (q * kdim <= Z.quot tol_rank kdim * kdim) by (apply Z.mul_le_mono_nonneg_r; lia). lia. }
    intros E0. apply Q3. apply (Z.mul_reg_r _ _ kdim); lia.
Qed.

Lemma id_qr_spec dbl (stp : @stop F) kdim m n nblk ldR ord0 ord (R : mem F) A (p : mem Z) : 0 < kdim -> 0 <= nblk -> n = nblk * kdim -> 0 <= m <= ldR -> (1 < kdim -> n * ldR <= zlen R) ->
  schedules kdim n m ord0 ord -> colmat R ldR m n A -> n <= zlen p ->
  (exists R' p' M pf r, id_qr dbl stp kdim m n ldR ord0 ord R p = Some (R', p', r) /\ zlen R' = zlen R /\ zlen p' = zlen p /\ colmat R' ldR m n M /\ holdsv p' n pf /\ origin dbl stp kdim m n nblk A M pf r) \/
  (id_qr dbl stp kdim m n ldR ord0 ord R p = None /\ ~ div_total F /\
     (kdim = 1 -> let '(tol_rank, tol_norm, rel) := stop_params stp kdim (Z.min m n) in fq_run dbl m n rel tol_rank tol_norm A = None)).
Proof.
  intros Hk Hb Hn Hm HR0 [O1 O2] HR Hp. unfold id_qr.
  assert (Hn0 : 0 <= n) by (rewrite Hn; apply Z.mul_nonneg_nonneg; lia).
  assert (OS := fun M p r => origin_struct dbl stp kdim m n nblk A M p r Hk ltac:(lia) Hb Hn). unfold origin in *.
  destruct (stop_params stp kdim (Z.min m n)) as ((tol_rank & tol_norm) & rel) eqn:Ep.
  assert (Fin : forall (p1 : mem Z) pf r, holdsv p1 n pf -> zlen p1 = zlen p -> (r = 0 -> forall c, pf c = c) ->
    exists p2, (if r =? 0 then zfor 0 n (fun i p => st p i i) p1 else Some p1) = Some p2 /\ zlen p2 = zlen p /\ holdsv p2 n pf).
  { intros p1 pf r H1 Z1 Id. destruct (Z.eqb_spec r 0) as [E0|E0]; [|eauto].
    destruct (zfor_cells 0 0 n (fun j => j) (fun j p => st p j j) p1) as (p2 & E2 & S2 & G2); auto; try lia. exists p2. split; auto.
    split; [rewrite (proj1 S2); auto|]. intros j Hj. rewrite Id by auto. specialize (G2 j Hj). cbn in G2. exact G2. }
  destruct (Z.eqb_spec kdim 1) as [E1|E1].
  - rewrite E1 in O2. rewrite Z.div_1_r in O2.
    pose proof (pivot_qr_sim dbl m n ldR rel tol_rank tol_norm ord0 ord R A p Hm Hn0 O1 ltac:(intros i Hi; apply O2; lia) HR Hp) as Sim.
    destruct (fq_run dbl m n rel tol_rank tol_norm A) as [s|] eqn:Er.
    + destruct Sim as (R' & p' & E & ZR & Zp & HM & HP). rewrite E. cbn [bind].
      assert (Org : (kdim = 1 /\ exists s0, Some s = Some s0 /\ f_M s = f_M s0 /\ f_p s = f_p s0 /\ final_rank m n s = final_rank m n s0)) by eauto 8.
      destruct (OS (f_M s) (f_p s) (final_rank m n s) (or_introl Org)) as (_ & _ & _ & _ & Id).
      destruct (Fin p' (f_p s) (final_rank m n s) HP Zp Id) as (p2 & E2 & Z2 & H2). rewrite E2. cbn [bind]. left. do 5 eexists. split; [reflexivity|]. eauto 10.
    + rewrite Sim. cbn [bind]. right. split; auto. split; auto. intros Ht. destruct (fq_total dbl m n rel tol_rank tol_norm A ltac:(lia) Hn0) as (s & Es); [|congruence].
      intros (a & b & E). destruct (Ht a b) as (c & Ec). congruence.
  - assert (Hk1 : 1 < kdim) by lia. assert (En : n / kdim = nblk) by (rewrite Hn; apply Z.div_mul; lia). rewrite En in O2.
    destruct (pivot_qr_kdim_sim dbl kdim m n ldR nblk rel tol_rank tol_norm ord0 ord R A p Hk Hb Hn Hm (HR0 Hk1) O1 ltac:(intros i Hi; apply O2; rewrite Z.min_comm; lia) HR Hp)
      as [(R' & p' & s & E & ZR & Zp & HM & HP & Re)|(E & (a & b & Eab))]; rewrite E; cbn [bind].
    + assert (Org : 1 < kdim /\ exists s0, fk_reach dbl kdim m n nblk (Z.min (Z.min m n / kdim) (tol_rank ÷ kdim)) (stop_norm dbl rel m tol_norm (f_np (fk_init kdim m nblk A))) A (Z.min m n / kdim) s0 /\
         f_M s = f_M s0 /\ f_p s = f_p s0 /\ final_rank_k kdim m n s = final_rank_k kdim m n s0) by eauto 8.
      destruct (OS (f_M s) (f_p s) (final_rank_k kdim m n s) (or_intror Org)) as (_ & _ & _ & _ & Id).
      destruct (Fin p' (f_p s) (final_rank_k kdim m n s) HP Zp Id) as (p2 & E2 & Z2 & H2). rewrite E2. cbn [bind]. left. do 5 eexists. split; [reflexivity|]. eauto 10.
    + right. split; auto. split; [|intros; lia]. intros Ht. destruct (Ht a b) as (c & Ec). congruence.
Qed.

Lemma id_points_spec kdim n r k (J : mem Z) f : 0 < kdim -> 1 <= n -> r = k * kdim -> 0 <= k -> r <= n -> holdsv J n f -> (forall b, 0 <= b < k -> 0 <= f (b * kdim)) ->
  exists J', id_points kdim r J = Some (J', k) /\ zlen J' = zlen J /\ holdsv J' k (fun b => f (b * kdim) / kdim).
Proof.
  intros Hk Hn -> Hk0 Hr HJ Hf. unfold id_points. assert (Eq : Z.quot (k * kdim) kdim = k) by (apply Z.quot_mul; lia).
  destruct (Z.ltb_spec 1 kdim) as [L|L].
  - rewrite (HJ 0) by lia. cbn [bind]. destruct (st_Some J 0 (Z.quot (f 0) kdim)) as (J1 & E1); [pose proof (ld_range _ _ _ (HJ 0 ltac:(lia))); lia|]. rewrite E1. cbn [bind]. rewrite Eq.
    match goal with |- context [zfor 1 k ?bd J1] =>
      destruct (zfor_inv (fun i (J' : mem Z) => zlen J' = zlen J /\ (forall b, 0 <= b < i -> b < k -> ld J' b = Some (f (b * kdim) / kdim)) /\ (forall c, i <= c < n -> ld J' c = Some (f c))) 1 (Z.max 1 k) bd J1) as (J2 & E2 & Z2 & G2 & _) end.
    + lia.
    + split; [apply (st_zlen _ _ _ _ E1)|]. split.
      * intros b Hb Hbk. assert (b = 0) by lia. subst b. rewrite (ld_st _ _ _ _ 0 E1), Z.eqb_refl. rewrite Z.mul_0_l. f_equal. apply Z.quot_div_nonneg; [|lia]. apply (Hf 0). lia.
      * intros c Hc. rewrite (ld_st _ _ _ _ c E1). destruct (Z.eqb_spec 0 c); [lia|]. apply HJ. lia.
    + intros i J' Hi (Z1 & G1 & G2). assert (i < k) by lia. assert (i * 1 <= i * kdim) by (apply Z.mul_le_mono_nonneg_l; lia). assert (0 <= i * kdim + 0 < k * kdim) by (apply (blk_in kdim k i 0); lia).
      rewrite (G2 (i * kdim)) by lia. cbn [bind]. destruct (st_Some J' i (Z.quot (f (i * kdim)) kdim)) as (J3 & E3); [rewrite Z1; pose proof (ld_range _ _ _ (HJ i ltac:(lia))); lia|].
      exists J3. split; auto. split; [rewrite (st_zlen _ _ _ _ E3); auto|]. split.
      * intros b Hb Hbk. rewrite (ld_st _ _ _ _ b E3). destruct (Z.eqb_spec i b) as [<-|]; [f_equal; apply Z.quot_div_nonneg; [apply Hf; lia|lia]|]. apply G1; lia.
      * intros c Hc. rewrite (ld_st _ _ _ _ c E3). destruct (Z.eqb_spec i c); [lia|]. apply G2. lia.
    + destruct (Z.le_gt_cases 1 k).
      * rewrite Z.max_r in E2 by lia. rewrite E2. cbn [bind]. exists J2. split; auto. split; auto. intros b Hb. apply G2; lia.
      * rewrite zfor_empty by lia. cbn [bind]. exists J1. split; [auto|]. split; [apply (st_zlen _ _ _ _ E1)|]. intros b Hb. lia.
  - assert (kdim = 1) by lia. subst kdim. exists J. split; [do 2 f_equal; lia|]. split; auto. intros b Hb. rewrite Z.mul_1_r, Z.div_1_r. apply HJ. lia.
Qed.

(** What H2P_ID_compress leaves, in terms of the factorisation. *)
Inductive id_out (dbl : bool) (stp : @stop F) (kdim m n nblk : Z) (a : Z -> Z -> F) (sk : list Z) (u : Z -> Z -> F) : Prop :=
| IdOut (M : Z -> Z -> F) (p s q : Z -> Z) (E : Z -> Z -> F) (r := zlen sk * kdim) :
  origin dbl stp kdim m n nblk (fun r c => a c r) M p r ->
  perm_on n p -> perm_on n s ->
  (forall c, r <= c < n -> s c = c) ->
  (forall c, 0 <= c < r -> 0 <= s c < r) ->
  (forall c, 0 <= c < n -> q (p (s c)) = c) ->
  (forall i, 0 <= i < n -> 0 <= q i < n) ->
  (forall k, 0 <= k < r -> skrow kdim sk k = p (s k)) ->
  (0 < zlen sk -> forall i k, 0 <= i < n -> 0 <= k < r -> u i k = U_entry r s q E i k) ->
  (forall k c, 0 <= k < r -> r <= c < n -> tri_row M r c (fun l => E l c) k) ->
  id_out dbl stp kdim m n nblk a sk u.

Lemma id_compress_spec dbl (stp : @stop F) kdim nblk n m want_U ord0 ord A J l a : 1 <= kdim -> 1 <= n -> n = nblk * kdim -> dm_holds A n m a -> (1 < kdim -> n * dm_ld A <= zlen (dm_data A)) ->
  iv_holds J l -> schedules kdim n m ord0 ord ->
  (forall M p r, origin dbl stp kdim m n nblk (fun r c => a c r) M p r -> forall k b, 0 <= k < r -> exists x, fdiv b (M k k) = Some x) ->
  (exists A' J' U sk u, id_compress dbl stp kdim want_U ord0 ord A J = Some (A', J', if want_U then Some U else None) /\
     iv_holds J' sk /\ increasing sk /\ (forall x, In x sk -> 0 <= x < nblk) /\ dm_holds U n (zlen sk * kdim) u /\ id_out dbl stp kdim m n nblk a sk u) \/
  (id_compress dbl stp kdim want_U ord0 ord A J = None /\ ~ div_total F /\
     (kdim = 1 -> let '(tol_rank, tol_norm, rel) := stop_params stp kdim (Z.min m n) in fq_run dbl m n rel tol_rank tol_norm (fun r c => a c r) = None)).
Proof.
  intros Hk Hn Enb (Aok & An & Am & Fit & HA) Hbuf HJ Hord Hdiv. unfold id_compress. rewrite An, Am.
  destruct (iv_set_capacity_spec J l n HJ) as (J1 & -> & HJ1 & Ecap). cbn [bind].
  assert (HR : colmat (dm_data A) (dm_ld A) m n (fun r c => a c r)) by (intros r c Hr Hc; apply HA; auto).
  destruct Fit as (F1 & F2 & _ & F3 & _). assert (Hnb : 0 <= nblk) by (apply (Z.mul_le_mono_pos_r _ _ kdim); lia).
  assert (Zj : zlen (iv_data J1) = iv_cap J1) by (destruct HJ1; auto).
  destruct (id_qr_spec dbl stp kdim m n nblk (dm_ld A) ord0 ord (dm_data A) (fun r c => a c r) (iv_data J1) ltac:(lia) Hnb Enb ltac:(lia) Hbuf Hord HR ltac:(lia))
    as [(R' & p' & M & p & r & E & ZR & Zp & HM & HP & Org)|(E & Hd & Hq)]; rewrite E; cbn [bind]; [|right; auto].
  left. destruct (origin_struct dbl stp kdim m n nblk _ M p r ltac:(lia) ltac:(lia) Hnb Enb Org) as (Bl & (k & -> & Hk0) & Hmn & Hlim & _).
  pose proof (blocked_perm kdim nblk p ltac:(lia) Bl) as Pp. rewrite <- Enb in Pp.
  assert (Hrr : 0 <= k * kdim) by (apply Z.mul_nonneg_nonneg; lia).
  destruct (id_index_spec n (k * kdim) p' p ltac:(lia) ltac:(lia) HP Pp) as (J2 & i0 & p1 & s & q & -> & ZJ & HJ2 & Hi0 & Hp1 & Zp1 & Ps & Shi & Slo & Inc & Qinv & Qr). cbn [bind].
  assert (GS : forall b, 0 <= b < k -> p (s (b * kdim)) = p (s (b * kdim)) / kdim * kdim /\ forall t, 0 <= t < kdim -> p (s (b * kdim + t)) = p (s (b * kdim)) + t).
  { apply (grp_sorted kdim k (fun c => p (s c))); [lia|auto|]. intros c t Hc Ht.
    destruct Bl as (g & Pg & Hg). pose proof (Slo c Hc) as Sc. assert (0 <= s c < nblk * kdim) by lia.
    assert (Hsb : 0 <= s c / kdim < k) by (apply blk_lt; lia).
    (* position of p (s c) / kdim * kdim + t *)
    set (d := s c / kdim * kdim + t). assert (Hd : 0 <= d < k * kdim) by (apply blk_in; lia).
    destruct (perm_on_surj (k * kdim) s d ltac:(split; [auto|intros c1 c2 H1 H2; apply Ps; lia]) Hd) as (c' & Hc' & Ec').
    exists c'. split; auto. rewrite Ec'. rewrite (Hg d) by lia. unfold d. destruct (blk_divmod kdim (s c / kdim) t Ht) as [-> ->].
    rewrite (Hg (s c)) by auto. pose proof (Z.mod_pos_bound (s c) kdim ltac:(lia)) as MB. destruct (blk_divmod kdim (g (s c / kdim)) (s c mod kdim) MB) as [-> _]. reflexivity. }
  assert (Nn : forall b, 0 <= b < k -> 0 <= p (s (b * kdim)) < n).
  { intros b Hb. apply Pp. assert (0 <= b * kdim + 0 < k * kdim) by (apply (blk_in kdim k b 0); lia). pose proof (Slo (b * kdim) ltac:(lia)). lia. }
  destruct (id_points_spec kdim n (k * kdim) k J2 (fun c => p (s c)) ltac:(lia) Hn eq_refl Hk0 ltac:(lia) HJ2 ltac:(intros; apply Nn; auto)) as (J3 & E3 & Z3 & H3).
  set (sk := map (fun b => p (s (b * kdim)) / kdim) (zrange 0 k)).
  assert (Zsk : zlen sk = k) by (unfold sk; rewrite zlen_map, zlen_zrange; lia).
  assert (Nsk : forall b, 0 <= b < k -> getz sk b = Some (p (s (b * kdim)) / kdim)).
  { intros b Hb. unfold sk. rewrite getz_map, getz_zrange by lia. reflexivity. }
  assert (Isk : iv_holds (mkIV (iv_cap J1) k J3) sk).
  { unfold iv_holds. cbn [iv_cap iv_data iv_len]. rewrite Zsk. split; [lia|]. split; auto. split.
    - assert (k * 1 <= k * kdim) by (apply Z.mul_le_mono_nonneg_l; lia). lia.
    - intros b Hb. rewrite Nsk by auto. apply H3. auto. }
  assert (Row : forall c, 0 <= c < k * kdim -> skrow kdim sk c = p (s c)).
  { intros c Hc. unfold skrow. pose proof (blk_lt kdim k c ltac:(lia) Hc) as Hb. rewrite (nthz_eq _ _ _ (Nsk _ Hb)). destruct (GS _ Hb) as [G1 G2].
    rewrite <- G1. rewrite <- G2 by (apply Z.mod_pos_bound; lia). do 2 f_equal. pose proof (Z.div_mod c kdim ltac:(lia)). lia. }
  assert (Isk1 : increasing sk).
  { intros b b' Hb Hb'. rewrite Zsk in Hb'. rewrite (nthz_eq _ _ _ (Nsk b ltac:(lia))), (nthz_eq _ _ _ (Nsk b' ltac:(lia))).
    destruct (GS b ltac:(lia)) as [G1 _]. destruct (GS b' ltac:(lia)) as [G2 _].
    assert (b * kdim < b' * kdim) by (apply Z.mul_lt_mono_pos_r; lia). assert (0 <= b * kdim) by (apply Z.mul_nonneg_nonneg; lia). assert (0 <= b' * kdim + 0 < k * kdim) by (apply (blk_in kdim k b' 0); lia).
    pose proof (Inc (b * kdim) (b' * kdim) ltac:(lia) ltac:(lia)). apply (Z.mul_lt_mono_pos_r kdim); lia. }
  assert (Isk2 : forall x, In x sk -> 0 <= x < nblk).
  { intros x Hx. apply In_getz in Hx as (b & Ex). pose proof (getz_range _ _ _ Ex) as Rg. rewrite Zsk in Rg. rewrite Nsk in Ex by lia. injection Ex as <-. apply blk_lt; [lia|]. rewrite <- Enb. apply Nn. lia. }
  assert (Fin : forall U u E, dm_holds U n (k * kdim) u -> (0 < k -> forall i c, 0 <= i < n -> 0 <= c < k * kdim -> u i c = U_entry (k * kdim) s q E i c) ->
     (forall t c, 0 <= t < k * kdim -> k * kdim <= c < n -> tri_row M (k * kdim) c (fun l => E l c) t) ->
     exists A' J' U' sk' u', Some (mkDM (k * kdim) n (dm_ld A) (dm_size A) R', mkIV (iv_cap J1) k J3, if want_U then Some U else None) = Some (A', J', if want_U then Some U' else None) /\
     iv_holds J' sk' /\ increasing sk' /\ (forall x, In x sk' -> 0 <= x < nblk) /\ dm_holds U' n (zlen sk' * kdim) u' /\ id_out dbl stp kdim m n nblk a sk' u').
  { intros U u E0 HU Hu HE. do 2 eexists. exists U, sk, u. split; [reflexivity|]. split; auto. split; auto. split; auto. split; [rewrite Zsk; auto|].
    apply (IdOut dbl stp kdim m n nblk a sk u M p s q E0); cbv zeta; rewrite ?Zsk; auto. }
  assert (Em : mkDM (k * kdim) n (dm_ld A) (dm_size A) R' = mkDM (k * kdim) n (dm_ld A) (dm_size A) R') by reflexivity.
  assert (HU0 : exists U u E, (if negb want_U then Some None else if k * kdim =? 0 then Some (Some (mkDM n 0 0 0 [])) else U <- id_U n (k * kdim) (dm_ld A) R' i0 p1; Some (Some U)) = Some (if want_U then Some U else None) /\
     dm_holds U n (k * kdim) u /\ (0 < k -> forall i c, 0 <= i < n -> 0 <= c < k * kdim -> u i c = U_entry (k * kdim) s q E i c) /\
     (forall t c, 0 <= t < k * kdim -> k * kdim <= c < n -> tri_row M (k * kdim) c (fun l => E l c) t)).
  { destruct (Z.eqb_spec (k * kdim) 0) as [E0|E0].
    - exists (mkDM n 0 0 0 []), (fun _ _ => flit 0%Q), (fun _ _ => flit 0%Q). split; [destruct want_U; reflexivity|]. rewrite E0. split; [|split; [|lia]].
      + split; [reflexivity|]. split; [reflexivity|]. split; [reflexivity|]. split; [|lia]. unfold fits. cbn [dm_ld dm_data]. split; [lia|]. split; [lia|]. split; [lia|]. split; [lia|]. lia.
      + intros Hk'. exfalso. assert (0 < k * kdim) by (apply Z.mul_pos_pos; lia). lia.
    - destruct (id_U_spec n (k * kdim) (dm_ld A) m R' i0 p1 M s q HM ltac:(lia) ltac:(lia) ltac:(lia) Hi0 Hp1 Slo Qr (Hdiv M p (k * kdim) Org)) as (U & E1 & EU & HU & HE).
      exists U, (U_entry (k * kdim) s q E1), E1. split; [rewrite EU; destruct want_U; reflexivity|]. auto. }
  destruct HU0 as (U & u & E0 & EU & HU & Hu & HE). rewrite EU. cbn [bind]. rewrite E3. cbn [bind]. apply (Fin U u E0 HU Hu HE).
Qed.

Lemma id_out_identity dbl (stp : @stop F) kdim m n nblk a sk u : 1 <= kdim -> 0 <= zlen sk * kdim <= n -> id_out dbl stp kdim m n nblk a sk u ->
  forall k k', 0 <= k < zlen sk * kdim -> 0 <= k' < zlen sk * kdim -> u (skrow kdim sk k) k' = if k =? k' then flit 1%Q else flit 0%Q.
Proof.
  intros Hk Hr [M p s q E r Org Pp Ps Hi Lo Inv Qr Row Hu Tri] k k' H1 H2. unfold r in *. clear r. rewrite Row by auto.
  assert (0 < zlen sk). { pose proof (zlen_nonneg sk). destruct (Z.eq_dec (zlen sk) 0) as [E0|]; [rewrite E0 in H1; lia|lia]. }
  assert (0 <= s k < n) by (apply Ps; lia). rewrite Hu; auto; [|apply Pp; auto]. unfold U_entry. rewrite Inv by lia. destruct (Z.ltb_spec k (zlen sk * kdim)); [reflexivity|lia].
Qed.
End Fin.
