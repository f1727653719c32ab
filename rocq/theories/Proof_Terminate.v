(** Termination of the bisection, exact boxes, and the coincident-points case. *)
From Coq Require Import ZArith QArith Qabs Qround Lqa List Lia Bool Permutation.
From Verif Require Import Base Mem Num Spec_Utils Proof_Utils Proof_Bucket Model_Partition Proof_Partition Proof_Bisect Proof_RootBox Spec_Tree Spec_Partition Proof_TreeArray Proof_TreeArray2 Proof_BuildTree.
Import ListNotations.
Open Scope Z_scope.

(** Any arithmetic. *)
Section Gen.
Context {F : num}.

Lemma width_halved k : forall w : F, width k w = halved k w.
Proof.
  assert (S : forall k (w : F), width (S k) w = nadd (nmul (nlit (1#2)) (width k w)) (nlit (e10 2 12))).
  { intros k0. induction k0; intros w; auto. cbn [width] in *. rewrite IHk0. reflexivity. }
  induction k; intros w; auto. rewrite S. cbn [halved]. now rewrite IHk.
Qed.

Lemma build_of_partition fuel rnd pt_dim xpt_dim n_point (coord0 : mem F) mlp mls rbox root p :
  points_ok pt_dim xpt_dim n_point coord0 rbox ->
  partition fuel rnd pt_dim xpt_dim n_point coord0 mlp mls rbox = Some (Some (root, p)) ->
  exists t, build_tree fuel rnd pt_dim xpt_dim n_point coord0 mlp mls rbox = Some (Some t).
Proof.
  intros Hok E.
  destruct (build_tree_spec fuel rnd pt_dim xpt_dim n_point coord0 mlp mls rbox Hok (fun _ _ => True)) as (r & Er & _); auto.
  unfold build_tree in Er |- *. rewrite E in *. cbn [bind] in *.
  destruct (tree_arrays _ _ _ _); cbn [bind] in *; [eauto|discriminate].
Qed.

Lemma term_gen fuel k rnd pt_dim xpt_dim n_point (coord0 : mem F) mlp mls rbox :
  points_ok pt_dim xpt_dim n_point coord0 rbox ->
  (forall b, match rbox with Some b' => b = b' | None => root_box rnd coord0 n_point 0 (n_point - 1) pt_dim = Some b end ->
     exists w, ld b pt_dim = Some w /\ nle (halved k w) mls = true) ->
  (k < fuel)%nat -> exists t, build_tree fuel rnd pt_dim xpt_dim n_point coord0 mlp mls rbox = Some (Some t).
Proof.
  intros Hok Hw Hk. pose proof Hok as ([H1 H2] & H3 & Hc0 & Hrb).
  destruct (partition_start fuel rnd pt_dim xpt_dim n_point coord0 mlp mls rbox Hok (fun _ _ => True)) as (bx & p0 & E & Pre & Gc & Gi & _ & _ & _ & Rb); auto.
  assert (Hbx : exists w, ld bx pt_dim = Some w /\ nle (halved k w) mls = true).
  { apply Hw. destruct rbox; auto. destruct Pre as (Hc & _). rewrite <- Rb. f_equal. 
    apply getz_ext; [destruct Hc as [Zc _], Hc0 as [Z0 _]; lia|].
    intros q Hq. destruct Hc as [Zc Lc], Hc0 as [Z0 L0]. specialize (Gc q ltac:(lia)). destruct (Lc q ltac:(lia)) as [v Ev]. rewrite Ev in Gc. symmetry in Gc.
    apply ld_getz in Ev. apply ld_getz in Gc. congruence. }
  destruct Hbx as (w & Ew & Hw').
  destruct (bisect_terminates pt_dim xpt_dim n_point ltac:(lia) ltac:(lia) mls (leaf_points pt_dim mlp) (fun _ _ => True) ltac:(auto) ltac:(auto)
    (fun _ => True) ltac:(auto) k fuel 0 0 (n_point - 1) bx p0 Hk Pre I) as (t & p' & Et).
  - intros b coord s e Hb _ Hs He _. unfold small. specialize (Hb 0 ltac:(lia)). rewrite !Z.add_0_r in Hb. rewrite Hb. unfold widths. rewrite Z.add_0_r.
    unfold vd at 1. rewrite Ew, width_halved, Hw'. apply orb_true_r.
  - unfold bis in Et. rewrite Et in E. eapply build_of_partition; eauto.
Qed.

End Gen.

(** Exact arithmetic. *)
Lemma halvedQ k : forall w : Q, (@halved Qnum k w == (w - e10 4 12) / inject_Z (2 ^ Z.of_nat k) + e10 4 12)%Q.
Proof.
  induction k; intros w.
  - cbn [halved]. change (2 ^ Z.of_nat 0)%Z with 1%Z. unfold e10. change (10 ^ 12)%positive with 1000000000000%positive. field.
  - cbn [halved nadd nmul nlit Qnum]. rewrite IHk. rewrite Nat2Z.inj_succ, Z.pow_succ_r by lia. rewrite inject_Z_mult.
    unfold e10. change (10 ^ 12)%positive with 1000000000000%positive. field. unfold Qeq; simpl. pose proof (Z.pow_pos_nonneg 2 (Z.of_nat k)). lia.
Qed.

Lemma small_pow (w d : Q) : (0 < d)%Q -> exists k0, forall k, (k0 <= k)%nat -> (w / inject_Z (2 ^ Z.of_nat k) < d)%Q.
Proof.
  intros Hd. 
  assert (exists n : Z, (0 <= n)%Z /\ (w / d < inject_Z n)%Q) as (n & Hn & Hw).
  { exists (Z.max 0 (Qceiling (w / d) + 1)). split; [lia|]. eapply Qle_lt_trans; [apply Qle_ceiling|].
    rewrite <- Zlt_Qlt. lia. }
  exists (Z.to_nat n). intros k Hk.
  assert (Hp : (n < 2 ^ Z.of_nat k)%Z). { apply Z.le_lt_trans with (Z.of_nat k); [lia|]. apply Z.pow_gt_lin_r; lia. }
  assert (Hp0 : (0 < inject_Z (2 ^ Z.of_nat k))%Q). { change 0%Q with (inject_Z 0). rewrite <- Zlt_Qlt. lia. }
  apply Qlt_shift_div_r; auto.
  assert (Hw2 : (w / d < inject_Z (2 ^ Z.of_nat k))%Q). { eapply Qlt_trans; [exact Hw|]. rewrite <- Zlt_Qlt. lia. }
  apply (Qmult_lt_r _ _ d Hd) in Hw2. rewrite (Qmult_comm d). setoid_replace (w / d * d)%Q with w in Hw2; auto. field. lra.
Qed.

Lemma halved_small (w d : Q) : (0 < d)%Q -> exists k0, forall k, (k0 <= k)%nat -> (@halved Qnum k w < d + e10 4 12)%Q.
Proof.
  intros Hd. destruct (small_pow (w - e10 4 12) d Hd) as [k0 H]. exists k0. intros k Hk. rewrite halvedQ. specialize (H k Hk).
  change (ncar Qnum) with Q. lra.
Qed.

Lemma root_box_width rnd pt_dim xpt_dim n_point (coord0 : mem Qnum) rbox b : points_ok pt_dim xpt_dim n_point coord0 rbox ->
  match rbox with Some b' => b = b' | None => root_box rnd coord0 n_point 0 (n_point - 1) pt_dim = Some b end -> box_init pt_dim b.
Proof.
  intros ([H1 H2] & H3 & Hc0 & Hrb) E. destruct rbox; [subst; auto|].
  destruct (root_box_ok pt_dim xpt_dim n_point H1 H2 H3 coord0 Hc0 (fun _ _ => True)) with (rnd := rnd) as (b' & c & semi & E' & I & _); auto.
  assert (b = b') by congruence. now subst.
Qed.

Lemma term_size rnd pt_dim xpt_dim n_point (coord0 : mem Qnum) mlp (mls : Q) rbox :
  points_ok pt_dim xpt_dim n_point coord0 rbox -> (e10 4 12 < mls)%Q ->
  exists fuel0, forall fuel, (fuel0 <= fuel)%nat -> exists t, build_tree fuel rnd pt_dim xpt_dim n_point coord0 mlp mls rbox = Some (Some t).
Proof.
  intros Hok Hm.
  assert (exists w : Q, forall b, match rbox with Some b' => b = b' | None => root_box rnd coord0 n_point 0 (n_point - 1) pt_dim = Some b end -> ld b pt_dim = Some w) as (w & Hw).
  { pose proof Hok as ([H1 H2] & H3 & Hc0 & Hrb). destruct rbox as [b'|].
    - exists (vd b' pt_dim). intros b ->. apply (@box_vd Qnum pt_dim); auto. lia.
    - destruct (root_box_ok pt_dim xpt_dim n_point H1 H2 H3 coord0 Hc0 (fun _ _ => True)) with (rnd := rnd) as (b' & c & semi & E' & I & _); auto.
      exists (vd b' pt_dim). intros b Eb. assert (b = b') by congruence. subst. apply (@box_vd Qnum pt_dim); auto. lia. }
  destruct (halved_small w (mls - e10 4 12)) as [k Hk]; [lra|]. exists (S k). intros fuel Hf. apply term_gen with (k := k); auto.
  intros b Hb. exists w. split; auto. cbn [nle Qnum]. apply Qle_bool_iff. specialize (Hk k (Nat.le_refl k)). change (ncar Qnum) with Q in *. lra.
Qed.

Section Q.
Context (pt_dim xpt_dim n_point : Z).
Hypothesis Hd : 1 <= pt_dim.
Hypothesis Hxd : pt_dim <= xpt_dim.

Lemma spread_moved cap d tau (p p' : pstate Qnum) : permutes 0 (n_point - 1) tau -> moved xpt_dim n_point tau p p' ->
  spread pt_dim n_point cap d (p_coord p) -> spread pt_dim n_point cap d (p_coord p').
Proof.
  intros T (_ & M & _) S l Nd Hr Hl.
  assert (exists l', map tau l' = l /\ forall q, In q l' -> 0 <= q < n_point) as (l' & El & Hl').
  { clear Nd Hl. induction l as [|a l IH]; [exists []; split; auto; intros ? []|].
    destruct IH as (l' & E & H); [intros; apply Hr; now right|].
    pose proof (Hr a (or_introl eq_refl)). destruct (permutes_surj _ _ _ T a ltac:(lia)) as (k & Hk & Ek).
    exists (k :: l'). split; [simpl; congruence|]. intros q [<-|Hq]; auto. lia. }
  destruct (S l') as (q & q' & j & x & x' & Hq & Hq' & Hj & Ex & Ex' & D).
  - apply (NoDup_map_inv tau). congruence.
  - auto.
  - rewrite <- El, zlen_map in Hl. auto.
  - exists (tau q), (tau q'), j, x, x'. rewrite <- El. unfold ld in *. rewrite !M by (auto; lia).
    repeat (split; [solve [auto using in_map]|]). auto.
Qed.

Lemma term_spread fuel0 rnd (coord0 : mem Qnum) mlp (mls d : Q) rbox :
  points_ok pt_dim xpt_dim n_point coord0 rbox -> box_given_ok pt_dim n_point coord0 rbox ->
  (e10 4 12 < d)%Q -> spread pt_dim n_point (leaf_points pt_dim mlp) d coord0 ->
  (forall b, match rbox with Some b' => b = b' | None => root_box rnd coord0 n_point 0 (n_point - 1) pt_dim = Some b end ->
    forall j, 0 <= j < pt_dim -> (@halved Qnum fuel0 (vd b (pt_dim + j)) < d)%Q) ->
  forall fuel, (fuel0 < fuel)%nat -> exists t, build_tree fuel rnd pt_dim xpt_dim n_point coord0 mlp mls rbox = Some (Some t).
Proof.
  intros Hok Hgiven Hd4 Hs Hw fuel Hf. pose proof Hok as ([H1 H2] & H3 & Hc0 & Hrb).
  destruct (partition_start fuel rnd pt_dim xpt_dim n_point coord0 mlp mls rbox Hok (inboxQ pt_dim)) as (bx & p0 & E & Pre & Gc & Gi & _ & _ & _ & Rb).
  { intros coord b Hc Hcc Hb q Hq. destruct rbox as [b'|].
    - subst b'. intros j Hj. destruct (Hgiven q j Hq Hj) as (c & w & x & E1 & E2 & E3 & L1 & L2).
      assert (Ex : ptof coord n_point q j = x). { unfold ptof, vd. rewrite Hcc by nia. rewrite E3. reflexivity. }
      unfold vd. rewrite E1, E2, Ex. auto.
    - destruct (root_boxQ pt_dim xpt_dim n_point coord rnd H1 H2 H3 Hc) as (b' & Eb & _ & X). assert (b = b') by congruence. subst. auto. }
  assert (Hco : p_coord p0 = coord0).
  { destruct Pre as (Hc & _). apply getz_ext; [destruct Hc as [Zc _], Hc0 as [Z0 _]; lia|].
    intros q Hq. destruct Hc as [Zc Lc], Hc0 as [Z0 L0]. specialize (Gc q ltac:(lia)). destruct (Lc q ltac:(lia)) as [v Ev]. rewrite Ev in Gc. symmetry in Gc.
    apply ld_getz in Ev. apply ld_getz in Gc. congruence. }
  rewrite Hco in Rb. specialize (Hw bx Rb).
  destruct (@bisect_terminates Qnum pt_dim xpt_dim n_point ltac:(lia) ltac:(lia) mls (leaf_points pt_dim mlp) (inboxQ pt_dim) (inboxQ_ext pt_dim)
    (fun b b' x _ _ => inboxQ_sub pt_dim b b' x H1) (fun c => spread pt_dim n_point (leaf_points pt_dim mlp) d c) ltac:(intros; eapply spread_moved; eauto)
    fuel0 fuel 0 0 (n_point - 1) bx p0 Hf Pre) as (t & p' & Et).
  - rewrite Hco. exact Hs.
  - intros b coord s e Hb HS Hse He Hin. unfold small. destruct (Z.leb_spec (e - s + 1) (leaf_points pt_dim mlp)); auto. exfalso.
    destruct (HS (zrange s (e + 1))) as (q & q' & j & x & x' & Hq & Hq' & Hj & Ex & Ex' & D).
    + apply NoDup_zrange.
    + intros q Hq. apply In_zrange in Hq. lia.
    + rewrite zlen_zrange by lia. lia.
    + apply In_zrange in Hq, Hq'. destruct (Hin q ltac:(lia) j Hj) as [X1 X2]. destruct (Hin q' ltac:(lia) j Hj) as [Y1 Y2].
      unfold ptof, vd at 2 in X1. unfold ptof, vd at 1 in X2. unfold ptof, vd at 2 in Y1. unfold ptof, vd at 1 in Y2.
      rewrite Ex in X1, X2. rewrite Ex' in Y1, Y2. rewrite Hb in X2, Y2 by auto. specialize (Hw j Hj). unfold widths in *. rewrite width_halved in X2, Y2.
      change (ncar Qnum) with Q in *. lra.
  - unfold bis in Et. rewrite Et in E. eapply build_of_partition; eauto.
Qed.

Lemma term_spread2 rnd (coord0 : mem Qnum) mlp (mls d : Q) rbox :
  points_ok pt_dim xpt_dim n_point coord0 rbox -> box_given_ok pt_dim n_point coord0 rbox ->
  (e10 4 12 < d)%Q -> spread pt_dim n_point (leaf_points pt_dim mlp) d coord0 ->
  exists fuel0, forall fuel, (fuel0 <= fuel)%nat -> exists t, build_tree fuel rnd pt_dim xpt_dim n_point coord0 mlp mls rbox = Some (Some t).
Proof.
  intros Hok Hg Hd4 Hs. pose proof Hok as ([H1 H2] & H3 & Hc0 & Hrb).
  assert (exists b0 : mem Qnum, forall b, match rbox with Some b' => b = b' | None => root_box rnd coord0 n_point 0 (n_point - 1) pt_dim = Some b end -> b = b0) as (b0 & Hb0).
  { destruct rbox as [b'|]; [exists b'; auto|].
    destruct (root_box_ok pt_dim xpt_dim n_point H1 H2 H3 coord0 Hc0 (fun _ _ => True)) with (rnd := rnd) as (b' & c & semi & E' & I & _); auto.
    exists b'. intros b Eb. congruence. }
  assert (exists k0, forall k, (k0 <= k)%nat -> forall j, 0 <= j < pt_dim -> (@halved Qnum k (vd b0 (pt_dim + j)) < d)%Q) as (k0 & Hk0).
  { assert (forall m, 0 <= m -> exists k0, forall k, (k0 <= k)%nat -> forall j, 0 <= j < m -> (@halved Qnum k (vd b0 (pt_dim + j)) < d)%Q) as X.
    { apply natlike_ind; [exists 0%nat; intros; lia|]. intros m Hm (k1 & IH). destruct (halved_small (vd b0 (pt_dim + m)) (d - e10 4 12)) as [k2 Hk2]; [lra|].
      exists (Nat.max k1 k2). intros k Hk j Hj. destruct (Z.eq_dec j m) as [->|].
      - specialize (Hk2 k ltac:(lia)). change (ncar Qnum) with Q in *. lra.
      - apply IH; lia. }
    apply X. lia. }
  exists (S k0). intros fuel Hf. eapply term_spread with (fuel0 := k0); eauto. intros b Hb. rewrite (Hb0 b Hb). apply Hk0. lia.
Qed.

Lemma coincident_diverges rnd (coord0 : mem Qnum) mlp (mls : Q) :
  points_ok pt_dim xpt_dim n_point coord0 None -> (mls < e10 4 12)%Q -> leaf_points pt_dim mlp < n_point ->
  (forall q j, 0 <= q < n_point -> 0 <= j < pt_dim -> ld coord0 (j * n_point + q) = ld coord0 (j * n_point + 0)) ->
  forall fuel, build_tree fuel rnd pt_dim xpt_dim n_point coord0 mlp mls None = Some None.
Proof.
  intros Hok Hm Hn Heq fuel. pose proof Hok as ([H1 H2] & H3 & Hc0 & Hrb).
  destruct (partition_start fuel rnd pt_dim xpt_dim n_point coord0 mlp mls None Hok (fun _ _ => True)) as (bx & p0 & E & Pre & Gc & Gi & _ & _ & _ & Rb); auto.
  destruct Pre as (Hc & Hz & Hb & _ & _ & _).
  unfold build_tree. rewrite E.
  rewrite (@bisect_coincident Qnum pt_dim xpt_dim n_point H1 H2 mls (leaf_points pt_dim mlp) (fun w : Q => (e10 4 12 < w)%Q)); auto; try lia.
  - intros w Hw. cbn [nadd nmul nlit Qnum]. unfold e10 in *. change (10 ^ 12)%positive with 1000000000000%positive in *. change (ncar Qnum) with Q in *. lra.
  - intros w Hw. cbn [nle Qnum]. apply not_true_iff_false. rewrite Qle_bool_iff. change (ncar Qnum) with Q in *. lra.
  - destruct (root_box_ok pt_dim xpt_dim n_point H1 H2 H3 (p_coord p0) Hc Qle Qle_refl Qle_trans Qmax_l Qmax_r rnd) as (b' & c & semi & E' & I & M & B).
    assert (bx = b') by congruence. subst b'. destruct (B 0 ltac:(lia)) as [_ Bw]. rewrite Z.add_0_r in Bw. rewrite Bw.
    specialize (M 0 0 ltac:(lia) ltac:(lia)). cbn [nabs nsub Qnum] in M.
    assert (0 <= semi)%Q. { eapply Qle_trans; [|exact M]. apply Qabs_nonneg. }
    cbn [nadd nmul nlit Qnum]. unfold e10. change (10 ^ 12)%positive with 1000000000000%positive. change (10 ^ 8)%positive with 100000000%positive.
    change (ncar Qnum) with Q in *. clear - H. lra.
  - intros q q' j Hq Hq' Hj. unfold ptof, vd. rewrite !Gc by nia. rewrite (Heq q), (Heq q') by lia. reflexivity.
Qed.

End Q.
