(** Proofs for Model_UJ.v: what the decompositions of the proxy blocks deliver. *)
From Coq Require Import ZArith QArith List Lia Bool Permutation Reals Qreals Lra.
From Verif Require Import Base Mem Num CRing FNum Conc Model_Utils Spec_Utils Proof_Utils Model_Dense Spec_Dense Proof_Dense Model_Partition Spec_Tree Spec_Pairs Spec_Matvec
  Model_Build Spec_Build Proof_Build Model_ID Spec_ID Proof_IDQR Proof_IDQRk Proof_IDMath Proof_IDFinal Proof_IDResid Props_ID Model_UJ Spec_UJ Proof_UJ Proof_UJNode Proof_UJSweep Proof_UJDet.
Import ListNotations.
Open Scope Z_scope.

(** In an arithmetic with total division. *)
Lemma total_delivers {F : num} {E : fnum} (kern : list F -> list F -> Z -> Z -> E) (c : uctx F E) n_node minlevel : div_total E -> 1 <= c_kdim c ->
  id_delivers kern c n_node minlevel (fun i ps sk u => zlen sk <= Z.min (zlen ps) (n_proxy (c_pp c) (lev (c_t c) i)) /\ rank_limit (c_stop c) (zlen sk * c_kdim c)) False.
Proof.
  intros Hd Hk i ps A J l Hi Hl Hp Hown n m HA Eld Hsz HJ. right.
  destruct (C24_skeleton E (c_dbl c) (c_stop c) (c_kdim c) (zlen ps) n m true (zrange 0 n) (seq_ord c n) A J l (proxy_block kern c ps i)) as (A' & J' & U & sk & u & E1 & E2 & E3 & E4 & E5 & E6); auto.
  - unfold n. assert (1 * 1 <= zlen ps * c_kdim c) by (apply Z.mul_le_mono_nonneg; lia). lia.
  - intros _. now rewrite Eld.
  - apply seq_schedules.
  - exists A', J', U, sk, u. split; auto. split; auto. split; auto. split; auto. split; auto. unfold n, m in E5. rewrite Z.mul_min_distr_nonneg_r in E5 by lia. apply (Z.mul_le_mono_pos_r _ _ (c_kdim c)); lia.
Qed.

Section Real.
Context {F : num}.
Variable kern : list F -> list F -> Z -> Z -> R.
Variable c : uctx F Rnum.
Variables n_node minlevel : Z.
Notation kdim := (c_kdim c).
Notation block := (@proxy_block F Rnum kern c).
Hypothesis Hk : 1 <= kdim.
Hypothesis V : visible kern c n_node minlevel.

Lemma block_point ps i j m : 0 <= j -> grp_norm kdim m (block ps i) j = grp_norm kdim m (block [nthz ps j] i) 0.
Proof.
  intros Hj. unfold grp_norm. f_equal. rewrite !Rsum_sumR. apply sumR_ext. intros t Ht. rewrite !Rsum_sumR. apply sumR_ext. intros l _.
  assert (E : block ps i (j * kdim + t) l = block [nthz ps j] i (0 * kdim + t) l); [|now rewrite E].
  unfold proxy_block. replace (j * kdim + t) with (t + j * kdim) by lia. rewrite Z.mul_0_l, Z.add_0_l, Z.div_add, Z.mod_add, !(Z.div_small t), Z.add_0_l by lia. reflexivity.
Qed.

Lemma tol_scale dbl stp m g mu : (0 < g)%R -> (g <= mu)%R -> 1 <= m -> (tolerance dbl stp kdim m g <= g)%R -> (0 < tolerance dbl stp kdim m mu <= mu)%R.
Proof.
  intros Hg Hmu Hm. assert (Hlo : (0 < sqrt (IZR m) * Q2R (if dbl then 1 # 10 ^ 15 else 1 # 10 ^ 6))%R).
  { apply Rmult_lt_0_compat; [apply sqrt_lt_R0; apply (IZR_lt 0); lia|]. destruct dbl; (apply Rmult_lt_0_compat; [apply IZR_lt; reflexivity|apply Rinv_0_lt_compat; apply IZR_lt; reflexivity]). }
  set (lo := (sqrt (IZR m) * Q2R (if dbl then 1 # 10 ^ 15 else 1 # 10 ^ 6))%R) in *.
  assert (S : forall x, (Rmax lo x * g <= g -> 0 < Rmax lo x * mu <= mu)%R).
  { intros x Hx. pose proof (Rmax_l lo x). assert (Rmax lo x <= 1)%R by (apply (Rmult_le_reg_r g); lra).
    split; [apply Rmult_lt_0_compat; lra|]. rewrite <- (Rmult_1_l mu) at 2. apply Rmult_le_compat_r; lra. }
  unfold tolerance. fold lo. destruct stp as [q|tol|tol]; auto. intros Hx. pose proof (Rmax_l lo tol). lra.
Qed.

Lemma real_delivers : id_delivers (E := Rnum) kern c n_node minlevel (fun i ps sk u => accurate kern c i ps sk u /\ sk <> []) (1 < kdim).
Proof.
  intros i ps A J l Hi Hl Hp Hown n m HA Eld Hsz HJ.
  set (a := block ps i : Z -> Z -> R) in *. assert (Hm0 : 0 <= m) by (destruct HA as (_ & _ & _ & (_ & X & _) & _); exact X).
  pose proof (initk_max kdim (zlen ps) m a Hm0 ltac:(lia)) as Hmu. set (mu := (f_np (@fk_init Rnum kdim m (zlen ps) (fun r c => a c r))) : R) in *.
  destruct V as [V1 V2]. destruct (getz_in ps 0 ltac:(lia)) as [p0 Ep0]. destruct (V2 i p0 Hi Hl (Hown p0 (getz_In _ _ _ Ep0))) as [Hg Hgt]. fold m in Hg, Hgt.
  assert (Hg0 : (grp_norm kdim m (block [p0] i) 0 <= mu)%R). { pose proof (block_point ps i 0 m ltac:(lia)) as B. rewrite (nthz_eq _ _ _ Ep0) in B. rewrite <- B. apply Hmu. lia. }
  assert (Hm : 1 <= m). { destruct (Z.eq_dec m 0) as [E0|]; [|lia]. exfalso. revert Hg. rewrite E0. unfold grp_norm. replace (Rsum 0 kdim _) with 0%R; [rewrite sqrt_0; lra|]. symmetry. rewrite Rsum_sumR. apply sumR_zero. intros t _. apply sumR_empty. lia. }
  destruct (tol_scale (c_dbl c) (c_stop c) m _ mu Hg Hg0 Hm Hgt) as [T1 T2].
  assert (Hn : 1 <= n) by (unfold n; assert (1 * 1 <= zlen ps * kdim) by (apply Z.mul_le_mono_nonneg; lia); lia).
  assert (Hsch : schedules kdim n m (zrange 0 n) (seq_ord c n)) by apply seq_schedules.
  assert (Hbuf : 1 < kdim -> n * dm_ld A <= zlen (dm_data A)) by (intros _; now rewrite Eld).
  assert (Hc : (id_compress (c_dbl c) (c_stop c) kdim true (zrange 0 n) (seq_ord c n) A J = None /\ 1 < kdim) \/ (kdim = 1 \/ id_compress (c_dbl c) (c_stop c) kdim true (zrange 0 n) (seq_ord c n) A J <> None)).
  { destruct (Z.eq_dec kdim 1); [auto|]. destruct (id_compress (c_dbl c) (c_stop c) kdim true (zrange 0 n) (seq_ord c n) A J); [right; right; discriminate|]. left. split; auto. lia. }
  destruct Hc as [Hc|Hc]; [auto|]. right.
  destruct (C25_residual (c_dbl c) (c_stop c) kdim (zlen ps) n m true (zrange 0 n) (seq_ord c n) A J l a mu Hk Hn eq_refl HA Hbuf HJ Hsch Hmu T1 Hc) as (A' & J' & U & sk & u & E1 & E2 & E3 & E4 & E5 & E6).
  assert (Hacc : forall j, 0 <= j < zlen ps -> match c_stop c with QR_RANK q => zlen sk < Z.min (Z.min m n / kdim) (Z.quot q kdim) | _ => True end ->
    (grp_norm kdim m (resid kdim sk a u) j < tolerance (c_dbl c) (c_stop c) kdim m mu)%R).
  { intros j Hj Hq. assert (Hdv : (kdim | m)) by (exists (n_proxy (c_pp c) (lev (c_t c) i)); reflexivity). destruct (c_stop c) as [q|tol|tol]; [apply E6; auto|apply E6; auto|apply E6; auto]. }
  exists A', J', U, sk, u. split; auto. split; auto. split; auto. split; auto. split.
  - split; [exact E5|]. intros mu' Hmu' j Hj Hq. fold m n a in Hmu', Hq |- *. rewrite <- (max_norm_unique kdim (zlen ps) m a mu mu'); auto; eapply max_norm_nonneg; eauto.
  - intros ->. destruct Hmu as [M1 [M2|(j & Hj & M2)]]; [lra|].
    assert (Er : grp_norm kdim m (resid kdim [] a u) j = grp_norm kdim m a j).
    { unfold grp_norm. f_equal. rewrite !Rsum_sumR. apply sumR_ext. intros t _. rewrite !Rsum_sumR. apply sumR_ext. intros k _.
      assert (E0 : forall r, resid kdim [] a u r k = a r k); [|rewrite E0; reflexivity]. intros r. unfold resid. replace (Rsum 0 (zlen [] * kdim) _) with 0%R by reflexivity. lra. }
    assert (X : (grp_norm kdim m (resid kdim [] a u) j < tolerance (c_dbl c) (c_stop c) kdim m mu)%R).
    { apply Hacc; auto. destruct (c_stop c) as [q|tol|tol]; auto. change (zlen []) with 0. assert (1 <= Z.quot q kdim) by (apply Z.quot_le_lower_bound; lia).
      assert (Enp : 1 <= n_proxy (c_pp c) (lev (c_t c) i)). { destruct (Z.le_gt_cases (n_proxy (c_pp c) (lev (c_t c) i)) 0); [|lia]. unfold m in Hm. assert (n_proxy (c_pp c) (lev (c_t c) i) * kdim <= 0 * kdim) by (apply Z.mul_le_mono_nonneg_r; lia). lia. }
      assert (Z.min m n / kdim = Z.min (n_proxy (c_pp c) (lev (c_t c) i)) (zlen ps)) by (unfold m, n; rewrite Z.mul_min_distr_nonneg_r, Z.div_mul; lia). lia. }
    rewrite Er in X. lra.
Qed.
End Real.

(** With what determines the outcome. *)
Lemma det_delivers {F : num} {E : fnum} (kern : list F -> list F -> Z -> Z -> E) (c : uctx F E) n_node minlevel : div_total E -> 1 <= c_kdim c ->
  id_delivers kern c n_node minlevel (fun i ps sk u => id_out (c_dbl c) (c_stop c) (c_kdim c) (Z.max 0 (n_proxy (c_pp c) (lev (c_t c) i) * c_kdim c)) (zlen ps * c_kdim c) (zlen ps) (proxy_block kern c ps i) sk u) False.
Proof.
  intros Hd Hk i ps A J l Hi Hl Hp Hown n m HA Eld Hsz HJ. right. assert (Hm : 0 <= m) by (destruct HA as (_ & _ & _ & (_ & X & _) & _); auto). fold m n. rewrite Z.max_r by auto.
  assert (Hn : 1 <= n) by (unfold n; assert (1 * 1 <= zlen ps * c_kdim c) by (apply Z.mul_le_mono_nonneg; lia); lia).
  destruct (id_compress_spec (c_dbl c) (c_stop c) (c_kdim c) (zlen ps) n m true (zrange 0 n) (seq_ord c n) A J l (proxy_block kern c ps i) Hk Hn eq_refl HA) as [(A' & J' & U & sk & u & E1 & E2 & E3 & E4 & E5 & E6)|(_ & X & _)]; auto.
  - intros _. now rewrite Eld.
  - apply seq_schedules.
  - exists A', J', U, sk, u. split; auto. split; auto. split; auto. split; auto. split; auto. split; auto.
    pose proof (zlen_nonneg sk). apply (id_out_identity (c_dbl c) (c_stop c) (c_kdim c) m n (zlen ps) (proxy_block kern c ps i) sk u); auto. split; [apply Z.mul_nonneg_nonneg; lia|].
    destruct E6 as [M p s q E0 r Org _ _ _ _ _ _ _ _ _]. destruct (origin_struct (c_dbl c) (c_stop c) (c_kdim c) m n (zlen ps) _ M p r ltac:(lia) Hm ltac:(lia) eq_refl Org) as (_ & _ & B1 & _). lia.
  - contradiction.
Qed.
Lemma det_Q {F : num} {E : fnum} (kern : list F -> list F -> Z -> Z -> E) (c : uctx F E) n_node max_level n_leaf minlevel : uj_input c n_node max_level n_leaf minlevel ->
  forall i ps sk u sk' u', 0 <= i < n_node -> increasing sk -> increasing sk' ->
  id_out (c_dbl c) (c_stop c) (c_kdim c) (Z.max 0 (n_proxy (c_pp c) (lev (c_t c) i) * c_kdim c)) (zlen ps * c_kdim c) (zlen ps) (proxy_block kern c ps i) sk u ->
  id_out (c_dbl c) (c_stop c) (c_kdim c) (Z.max 0 (n_proxy (c_pp c) (lev (c_t c) i) * c_kdim c)) (zlen ps * c_kdim c) (zlen ps) (proxy_block kern c ps i) sk' u' ->
  sk = sk' /\ forall r q, 0 <= r < zlen ps * c_kdim c -> 0 <= q < zlen sk * c_kdim c -> u r q = u' r q.
Proof.
  intros UI i ps sk u sk' u' Hi H1 H2 O1 O2. assert (Hk : 1 <= c_kdim c) by apply UI. pose proof (zlen_nonneg ps). eapply id_out_det; [exact Hk| | |reflexivity|exact H1|exact H2|exact O1|exact O2]; lia.
Qed.

(** ** Cauchy-Schwarz *)
Lemma cauchy_schwarz n x y : (ip n x y * ip n x y <= ip n x x * ip n y y)%R.
Proof.
  pose proof (ip_nonneg n x) as Px. pose proof (ip_nonneg n y) as Py.
  destruct (Req_dec (ip n y y) 0) as [E0|N0].
  - assert (E1 : ip n x y = 0%R).
    { apply sumR_zero. intros k Hk. assert (Y : (y k * y k <= ip n y y)%R) by (apply (sumR_ge_term 0 n (fun k => y k * y k)%R k Hk); intros; nra).
      assert (y k = 0%R) by nra. nra. }
    rewrite E1, E0. lra.
  - set (t := (ip n x y / ip n y y)%R). pose proof (ip_nonneg n (fun k => x k - t * y k)%R) as P. rewrite ip_sub_l, !ip_sub_r, (ip_sym n y x) in P.
    assert (Et : (t * ip n y y = ip n x y)%R) by (unfold t; field; auto). 
    assert (P' : (0 <= ip n x x - t * ip n x y)%R) by nra.
    assert (M : (0 <= (ip n x x - t * ip n x y) * ip n y y)%R) by (apply Rmult_le_pos; auto).
    replace ((ip n x x - t * ip n x y) * ip n y y)%R with (ip n x x * ip n y y - ip n x y * (t * ip n y y))%R in M by ring. rewrite Et in M. lra.
Qed.

Lemma group_bound kdim m (g : Z -> Z -> R) w j : (sqrt (Rsum 0 kdim (fun t => Rsum 0 m (fun l => g (j * kdim + t)%Z l * w l) * Rsum 0 m (fun l => g (j * kdim + t)%Z l * w l))) <= grp_norm kdim m g j * sqrt (Rsum 0 m (fun l => w l * w l)))%R.
Proof.
  unfold grp_norm. rewrite <- sqrt_mult.
  - apply sqrt_le_1_alt. rewrite !Rsum_sumR, <- sumR_mul_r.
    assert (X : forall f h, (forall k, 0 <= k < kdim -> (f k <= h k)%R) -> (sumR 0 kdim f <= sumR 0 kdim h)%R).
    { intros f h H. assert (0 <= sumR 0 kdim (fun k => h k - f k))%R by (apply sumR_nonneg; intros k Hk; specialize (H k Hk); lra). rewrite sumR_sub in H0. lra. }
    apply X. intros t _. rewrite !Rsum_sumR. apply cauchy_schwarz.
  - rewrite Rsum_sumR. apply sumR_nonneg. intros t _. rewrite Rsum_sumR. apply (ip_nonneg m (g (j * kdim + t))).
  - rewrite Rsum_sumR. apply (ip_nonneg m w).
Qed.

(** What the residual of the proxy block says about any field the proxy points
    can produce. *)
Lemma field_resid {F : num} (kern : list F -> list F -> Z -> Z -> R) (c : uctx F Rnum) i ps sk u (w : Z -> R) (y : Z -> Z -> R) j t :
  let kdim := c_kdim c in let m := n_proxy (c_pp c) (lev (c_t c) i) * kdim in
  1 <= kdim -> increasing sk -> (forall x, In x sk -> 0 <= x < zlen ps) ->
  (forall p t, In p ps -> 0 <= t < kdim -> y p t = Rsum 0 m (fun l => @proxy_block F Rnum kern c [p] i t l * w l)%R) ->
  0 <= j < zlen ps -> 0 <= t < kdim ->
  (y (nthz ps j) t - Rsum 0 (zlen sk * kdim) (fun k => u (j * kdim + t)%Z k * y (nthz ps (nthz sk (k / kdim))) (k mod kdim)%Z) =
   Rsum 0 m (fun l => resid kdim sk (@proxy_block F Rnum kern c ps i) u (j * kdim + t)%Z l * w l))%R.
Proof.
  intros kdim m Hk Inc Hsk Hy Hj Ht.
  assert (Bp : forall j t l, 0 <= j -> 0 <= t < kdim -> @proxy_block F Rnum kern c ps i (j * kdim + t) l = @proxy_block F Rnum kern c [nthz ps j] i t l).
  { intros j' t' l Hj' Ht'. unfold proxy_block. fold kdim. replace (j' * kdim + t') with (t' + j' * kdim) by lia. rewrite Z.div_add, Z.mod_add, !(Z.div_small t'), Z.add_0_l by lia. reflexivity. }
  rewrite Hy; [|apply (getz_In ps j), getz_nthz; auto|auto]. rewrite !Rsum_sumR. unfold resid.
  rewrite (sumR_ext 0 m (fun l => (_ - _) * w l)%R (fun l => @proxy_block F Rnum kern c [nthz ps j] i t l * w l - Rsum 0 (zlen sk * kdim) (fun k => u (j * kdim + t)%Z k * @proxy_block F Rnum kern c ps i (skrow kdim sk k) l) * w l)%R).
  2:{ intros l _. rewrite Bp by lia. ring. }
  rewrite sumR_sub. f_equal.
  rewrite (sumR_ext 0 (zlen sk * kdim) _ (fun k => sumR 0 m (fun l => u (j * kdim + t)%Z k * @proxy_block F Rnum kern c ps i (skrow kdim sk k) l * w l)%R)).
  - rewrite sumR_swap. apply sumR_ext. intros l _. apply sumR_mul_r.
  - intros k Hk'. assert (B : 0 <= k / kdim < zlen sk) by (split; [apply Z.div_pos; lia|apply Z.div_lt_upper_bound; lia]). pose proof (Z.mod_pos_bound k kdim ltac:(lia)).
    assert (Bs : 0 <= nthz sk (k / kdim) < zlen ps) by (apply Hsk; apply (getz_In sk (k / kdim)), getz_nthz; auto).
    rewrite Hy; [|apply (getz_In ps (nthz sk (k / kdim))), getz_nthz; auto|auto]. rewrite Rsum_sumR, <- sumR_mul_l. apply sumR_ext. intros l _. unfold skrow. rewrite Bp by lia. ring.
Qed.
