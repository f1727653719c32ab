(** Proofs about the proxy points on box surfaces. *)
From Coq Require Import ZArith Reals List Lia Lra Bool.
From Verif Require Import Base Mem Model_Dense Model_Nys Proof_BJLeaf Proof_FSAIKnn Model_PPSurf Spec_PPSurf.
Import ListNotations.
Open Scope Z_scope.

Definition nR (P : list R) (r : Z) : R := match getz P r with Some a => a | None => 0%R end.

Lemma idx_inj npt r k r' k' : 0 <= k < npt -> 0 <= k' < npt -> r * npt + k = r' * npt + k' -> r = r' /\ k = k'.
Proof. intros H1 H2 E. assert (r = r') by nia. subst. lia. Qed.

Lemma put_point_spec npt k : 0 <= k < npt -> forall P r0 (d : mem R), 0 <= r0 -> (r0 + zlen P) * npt <= zlen d ->
  exists d', put_point npt k r0 P d = Some d' /\ zlen d' = zlen d /\
    forall r k', 0 <= r -> 0 <= k' < npt -> ld d' (r * npt + k') =
      if (k' =? k) && (r0 <=? r) && (r <? r0 + zlen P) then Some (nR P (r - r0)) else ld d (r * npt + k').
Proof.
  intros Hk. induction P as [|a P IH]; intros r0 d Hr Hz; cbn [put_point].
  - exists d. split; auto. split; auto. intros r k' Hr' Hk'. change (zlen (@nil R)) with 0.
    destruct (Z.leb_spec r0 r), (Z.ltb_spec r (r0 + 0)); rewrite ?andb_false_r; auto; lia.
  - rewrite zlen_cons in Hz. pose proof (zlen_nonneg P).
    destruct (st_Some d (r0 * npt + k) a) as [d1 E1]; [nia|]. rewrite E1. cbn [bind].
    destruct (IH (r0 + 1) d1) as (d' & E & Zd & L); [lia|rewrite (st_zlen _ _ _ _ E1); lia|].
    exists d'. split; auto. split. { now rewrite Zd, (st_zlen _ _ _ _ E1). }
    intros r k' Hr' Hk'. rewrite L, (ld_st _ _ _ _ _ E1), zlen_cons by auto.
    destruct (Z.eqb_spec k' k) as [->|N]; cbn [andb].
    + destruct (Z.eqb_spec (r0 * npt + k) (r * npt + k)) as [Q|Q].
      * apply idx_inj in Q; auto. destruct Q as [<- _].
        destruct (Z.leb_spec (r0 + 1) r0), (Z.leb_spec r0 r0), (Z.ltb_spec r0 (r0 + (zlen P + 1))); cbn [andb]; try lia.
        f_equal. unfold nR. rewrite Z.sub_diag, getz_0. reflexivity.
      * assert (r <> r0) by (intros ->; lia).
        destruct (Z.leb_spec (r0 + 1) r), (Z.leb_spec r0 r), (Z.ltb_spec r (r0 + (zlen P + 1))), (Z.ltb_spec r (r0 + 1 + zlen P)); cbn [andb]; auto; try lia.
        f_equal. unfold nR. rewrite (getz_cons a P (r - r0)) by lia. now replace (r - r0 - 1) with (r - (r0 + 1)) by lia.
    + destruct (Z.eqb_spec (r0 * npt + k) (r * npt + k')) as [Q|Q]; auto. apply idx_inj in Q; auto. lia.
Qed.

Section Fix.
Variables (dim npt : Z).
Hypothesis (Hdim : 0 <= dim).
Definition hL (d : mem R) (L : list (list R)) : Prop :=
  forall r k P, 0 <= r < dim -> getz L k = Some P -> ld d (r * npt + k) = Some (nR P r).

Lemma put_points_spec : forall Ps L (d : mem R), hL d L -> (forall P, In P Ps -> zlen P = dim) -> zlen L + zlen Ps <= npt -> dim * npt <= zlen d ->
  exists d', put_points npt (zlen L) Ps d = Some d' /\ zlen d' = zlen d /\ hL d' (L ++ Ps).
Proof.
  induction Ps as [|P Ps IH]; intros L d HL HP Hn Hz; cbn [put_points].
  - exists d. rewrite app_nil_r. auto.
  - rewrite zlen_cons in Hn. pose proof (zlen_nonneg Ps). pose proof (zlen_nonneg L).
    assert (HPd : zlen P = dim) by (apply HP; now left).
    destruct (put_point_spec npt (zlen L) ltac:(lia) P 0 d) as (d1 & E1 & Z1 & L1); [lia|rewrite HPd; lia|].
    rewrite E1. cbn [bind].
    destruct (IH (L ++ [P]) d1) as (d' & E & Zd & H'); auto.
    + intros r k Q Hr Hk. pose proof (getz_range _ _ _ Hk) as Hk'. rewrite zlen_app in Hk'. change (zlen [P]) with 1 in Hk'.
      rewrite L1, HPd by lia. destruct (Z.eqb_spec k (zlen L)) as [->|N].
      * rewrite getz_app2 in Hk by lia. rewrite Z.sub_diag, getz_0 in Hk. injection Hk as <-.
        destruct (Z.leb_spec 0 r), (Z.ltb_spec r (0 + dim)); cbn [andb]; try lia. now rewrite Z.sub_0_r.
      * cbn [andb]. rewrite getz_app1 in Hk by lia. auto.
    + intros Q HQ. apply HP. now right.
    + rewrite zlen_app. change (zlen [P]) with 1. lia.
    + lia.
    + rewrite zlen_app in E. change (zlen [P]) with 1 in E. exists d'. split; auto. split; [congruence|]. now rewrite <- app_assoc in H'.
Qed.
End Fix.

Lemma zlen_flat {A B} (f : A -> list B) c : (forall x, zlen (f x) = c) -> forall l, zlen (flat_map f l) = zlen l * c.
Proof. intros H. induction l as [|x l IH]; [reflexivity|]. cbn [flat_map]. rewrite zlen_app, zlen_cons, H, IH. lia. Qed.
Lemma flat_snoc {B} (f : Z -> list B) n : 0 <= n -> flat_map f (zrange 0 (n + 1)) = flat_map f (zrange 0 n) ++ f n.
Proof. intros H. rewrite zrange_snoc, flat_map_app by lia. cbn [flat_map]. now rewrite app_nil_r. Qed.

Section Unit.
Variables (m : Z) (h : R).
Hypothesis (Hm : 0 <= m).
Definition gv (i : Z) : R := (-1 + IZR i * h)%R.
Definition row3 (i n : Z) := flat_map (fun j => faces3 (gv (i + 1)) (gv (j + 1))) (zrange 0 n).
Definition L3 (n : Z) := flat_map (fun i => row3 i m) (zrange 0 n).
Definition L2 (n : Z) := flat_map (fun i => faces2 (gv (i + 1))) (zrange 0 n).
Lemma gv_next i : (gv i + h = gv (i + 1))%R. Proof. unfold gv. rewrite plus_IZR. ring. Qed.
Lemma gv_0 : gv 0 = (-1)%R. Proof. unfold gv. ring. Qed.
Lemma row3_len i n : 0 <= n -> zlen (row3 i n) = n * 6.
Proof. intros H. unfold row3. rewrite (zlen_flat _ 6) by reflexivity. rewrite zlen_zrange; lia. Qed.
Lemma L3_len n : 0 <= n -> zlen (L3 n) = n * (m * 6).
Proof. intros H. unfold L3. rewrite (zlen_flat _ (m * 6)) by (intros; now apply row3_len). rewrite zlen_zrange; lia. Qed.
Lemma L2_len n : 0 <= n -> zlen (L2 n) = n * 4.
Proof. intros H. unfold L2. rewrite (zlen_flat _ 4) by reflexivity. rewrite zlen_zrange; lia. Qed.

Lemma unit3_spec (d : mem R) npt : npt = m * m * 6 -> 3 * npt <= zlen d ->
  exists d', unit_points3 m npt h d = Some d' /\ zlen d' = zlen d /\ hL 3 npt d' (L3 m).
Proof.
  intros En Hz. unfold unit_points3.
  match goal with |- context [zfor 0 m ?body ?s0] => destruct (zfor_inv (fun i (s : mem R * Z * R) => zlen (fst (fst s)) = zlen d /\
    hL 3 npt (fst (fst s)) (L3 i) /\ snd (fst s) = zlen (L3 i) /\ snd s = gv i) 0 m body s0) as (s & E & I1 & I2 & I3 & I4) end; auto.
  - cbn [fst snd]. split; auto. split; [intros r k P _ H; apply getz_range in H; rewrite L3_len in H by lia; lia|]. split; [reflexivity|]. now rewrite gv_0.
  - intros i ((d1 & index) & hi) Hi (I1 & I2 & I3 & I4). cbn [fst snd] in *. subst index hi. cbv beta zeta. rewrite gv_next.
    match goal with |- context [zfor 0 m ?body ?s0] => destruct (zfor_inv (fun j (s : mem R * Z * R) => zlen (fst (fst s)) = zlen d /\
      hL 3 npt (fst (fst s)) (L3 i ++ row3 i j) /\ snd (fst s) = zlen (L3 i ++ row3 i j) /\ snd s = gv j) 0 m body s0) as (s & E & J1 & J2 & J3 & J4) end; auto.
    + cbn [fst snd]. unfold row3. cbn. rewrite app_nil_r. split; auto. split; auto. split; auto. now rewrite gv_0.
    + intros j ((d2 & index) & hj) Hj (J1 & J2 & J3 & J4). cbn [fst snd] in *. subst index hj. cbv beta zeta. rewrite gv_next.
      destruct (put_points_spec 3 npt (faces3 (gv (i + 1)) (gv (j + 1))) (L3 i ++ row3 i j) d2) as (d3 & E3 & Z3 & H3); auto.
      { intros P HP. cbn in HP. repeat (destruct HP as [<-|HP]; [reflexivity|]). destruct HP. }
      { rewrite zlen_app, L3_len, row3_len by lia. change (zlen (faces3 (gv (i + 1)) (gv (j + 1)))) with 6. nia. }
      { lia. }
      rewrite E3. cbn [bind]. eexists. split; [reflexivity|]. cbn [fst snd].
      replace (row3 i (j + 1)) with (row3 i j ++ faces3 (gv (i + 1)) (gv (j + 1))) by (unfold row3; now rewrite flat_snoc by lia). rewrite app_assoc. split; [lia|]. split; auto. split; auto.
      rewrite (zlen_app (L3 i ++ row3 i j)). reflexivity.
    + destruct s as ((d2 & index) & hj). rewrite E. cbn [bind]. eexists. split; [reflexivity|]. cbn [fst snd] in *.
      replace (L3 (i + 1)) with (L3 i ++ row3 i m) by (unfold L3; now rewrite flat_snoc by lia). auto.
  - rewrite E. cbn [bind]. eexists. split; [reflexivity|]. auto.
Qed.

Lemma unit2_spec (d : mem R) npt : npt = m * 4 -> 2 * npt <= zlen d ->
  exists d', unit_points2 m npt h d = Some d' /\ zlen d' = zlen d /\ hL 2 npt d' (L2 m).
Proof.
  intros En Hz. unfold unit_points2.
  match goal with |- context [zfor 0 m ?body ?s0] => destruct (zfor_inv (fun i (s : mem R * Z * R) => zlen (fst (fst s)) = zlen d /\
    hL 2 npt (fst (fst s)) (L2 i) /\ snd (fst s) = zlen (L2 i) /\ snd s = gv i) 0 m body s0) as (s & E & I1 & I2 & I3 & I4) end; auto.
  - cbn [fst snd]. split; auto. split; [intros r k P _ H; apply getz_range in H; rewrite L2_len in H by lia; lia|]. split; [reflexivity|]. now rewrite gv_0.
  - intros i ((d1 & index) & hi) Hi (I1 & I2 & I3 & I4). cbn [fst snd] in *. subst index hi. cbv beta zeta. rewrite gv_next.
    destruct (put_points_spec 2 npt (faces2 (gv (i + 1))) (L2 i) d1) as (d3 & E3 & Z3 & H3); auto.
    { intros P HP. cbn in HP. repeat (destruct HP as [<-|HP]; [reflexivity|]). destruct HP. }
    { rewrite L2_len by lia. change (zlen (faces2 (gv (i + 1)))) with 4. nia. }
    { lia. }
    rewrite E3. cbn [bind]. eexists. split; [reflexivity|]. cbn [fst snd].
    replace (L2 (i + 1)) with (L2 i ++ faces2 (gv (i + 1))) by (unfold L2; now rewrite flat_snoc by lia). split; [lia|]. split; auto. split; auto. rewrite (zlen_app (L2 i)). reflexivity.
  - rewrite E. cbn [bind]. eexists. split; [reflexivity|]. auto.
Qed.
End Unit.

(** The unit points lie on the box [-1, 1]^d and cover the grids of all sides. *)
Definition good (dim m : Z) (L : list (list R)) : Prop :=
  (forall P, In P L -> on_box dim 1 (nR P)) /\
  forall ax s c, 0 <= ax < dim -> (s = 1 \/ s = -1)%R -> (forall r, 0 <= r < dim -> 0 <= c r < m) ->
    exists P, In P L /\ forall r, 0 <= r < dim -> nR P r = grid_point m ax s 1 c r.

Lemma nr30 a b c : nR [a; b; c] 0 = a. Proof. reflexivity. Qed.
Lemma nr31 a b c : nR [a; b; c] 1 = b. Proof. reflexivity. Qed.
Lemma nr32 a b c : nR [a; b; c] 2 = c. Proof. reflexivity. Qed.
Lemma nr20 a b : nR [a; b] 0 = a. Proof. reflexivity. Qed.
Lemma nr21 a b : nR [a; b] 1 = b. Proof. reflexivity. Qed.
Ltac nrs := rewrite ?nr30, ?nr31, ?nr32, ?nr20, ?nr21.
Section Geo.
Variables (m : Z).
Hypothesis (Hm : 1 <= m).
Let h := (2 / IZR (m + 1))%R.
Lemma gv_range i : 0 <= i < m -> (-1 <= gv h (i + 1) <= 1)%R.
Proof.
  intros Hi. unfold gv, h. assert (H0 : (0 < IZR (m + 1))%R) by (apply IZR_lt; lia).
  assert (H1 : (0 <= IZR (i + 1))%R) by (apply IZR_le; lia). assert (H2 : (IZR (i + 1) <= IZR (m + 1))%R) by (apply IZR_le; lia).
  assert (H3 : (0 <= IZR (i + 1) / IZR (m + 1) <= 1)%R).
  { split; [apply Rmult_le_pos; [auto|left; now apply Rinv_0_lt_compat]|].
    apply (Rmult_le_reg_r (IZR (m + 1))); auto. unfold Rdiv. rewrite Rmult_assoc, Rinv_l by lra. lra. }
  replace (IZR (i + 1) * (2 / IZR (m + 1)))%R with (2 * (IZR (i + 1) / IZR (m + 1)))%R by (unfold Rdiv; ring). lra.
Qed.
Lemma grid_gv (c : Z -> Z) (r : Z) : (1 * (-1 + 2 * IZR (c r + 1) / IZR (m + 1)))%R = gv h (c r + 1).
Proof. unfold gv, h, Rdiv. ring. Qed.

Lemma good3 : good 3 m (L3 m h m).
Proof.
  split.
  - intros P HP. unfold L3 in HP. apply in_flat_map in HP. destruct HP as (i & Hi & HP). unfold row3 in HP. apply in_flat_map in HP. destruct HP as (j & Hj & HP).
    apply In_zrange in Hi, Hj. pose proof (gv_range i ltac:(lia)) as Gi. pose proof (gv_range j ltac:(lia)) as Gj.
    cbn in HP. destruct HP as [<-|[<-|[<-|[<-|[<-|[<-|[]]]]]]].
    1, 2: split; [exists 2; split; [lia|nrs; first [left; lra | right; lra]]|].
    3, 4: split; [exists 1; split; [lia|nrs; first [left; lra | right; lra]]|].
    5, 6: split; [exists 0; split; [lia|nrs; first [left; lra | right; lra]]|].
    all: intros r Hr; assert (Q : r = 0 \/ r = 1 \/ r = 2) by lia; destruct Q as [->|[->| ->]]; nrs; lra.
  - intros ax s c Ha Hs Hc.
    assert (In3 : forall i j P, 0 <= i < m -> 0 <= j < m -> In P (faces3 (gv h (i + 1)) (gv h (j + 1))) -> In P (L3 m h m)).
    { intros i j P Hi Hj HP. unfold L3. apply in_flat_map. exists i. split; [apply In_zrange; lia|]. unfold row3. apply in_flat_map. exists j. split; [apply In_zrange; lia|auto]. }
    pose proof (Hc 0 ltac:(lia)). pose proof (Hc 1 ltac:(lia)). pose proof (Hc 2 ltac:(lia)).
    assert (Q : ax = 0 \/ ax = 1 \/ ax = 2) by lia. destruct Q as [->|[->| ->]]; destruct Hs as [->| ->].
    1: exists [1; gv h (c 1 + 1)%Z; gv h (c 2 + 1)%Z]%R. 2: exists [-1; gv h (c 1 + 1)%Z; gv h (c 2 + 1)%Z]%R.
    3: exists [gv h (c 0 + 1)%Z; 1; gv h (c 2 + 1)%Z]%R. 4: exists [gv h (c 0 + 1)%Z; -1; gv h (c 2 + 1)%Z]%R.
    5: exists [gv h (c 0 + 1)%Z; gv h (c 1 + 1)%Z; 1]%R. 6: exists [gv h (c 0 + 1)%Z; gv h (c 1 + 1)%Z; -1]%R.
    1, 2: split; [apply (In3 (c 1) (c 2)); auto; cbn; tauto|].
    3, 4: split; [apply (In3 (c 0) (c 2)); auto; cbn; tauto|].
    5, 6: split; [apply (In3 (c 0) (c 1)); auto; cbn; tauto|].
    all: intros r Hr; assert (Q : r = 0 \/ r = 1 \/ r = 2) by lia; destruct Q as [->|[->| ->]]; unfold grid_point; cbn [Z.eqb Pos.eqb]; rewrite ?grid_gv; nrs; try reflexivity; cbv [Z.eqb Pos.eqb]; ring.
Qed.

Lemma good2 : good 2 m (L2 h m).
Proof.
  split.
  - intros P HP. unfold L2 in HP. apply in_flat_map in HP. destruct HP as (i & Hi & HP).
    apply In_zrange in Hi. pose proof (gv_range i ltac:(lia)) as Gi.
    cbn in HP. destruct HP as [<-|[<-|[<-|[<-|[]]]]].
    1, 2: split; [exists 1; split; [lia|nrs; first [left; lra | right; lra]]|].
    3, 4: split; [exists 0; split; [lia|nrs; first [left; lra | right; lra]]|].
    all: intros r Hr; assert (Q : r = 0 \/ r = 1) by lia; destruct Q as [->| ->]; nrs; lra.
  - intros ax s c Ha Hs Hc.
    assert (In2 : forall i P, 0 <= i < m -> In P (faces2 (gv h (i + 1))) -> In P (L2 h m)).
    { intros i P Hi HP. unfold L2. apply in_flat_map. exists i. split; [apply In_zrange; lia|auto]. }
    pose proof (Hc 0 ltac:(lia)). pose proof (Hc 1 ltac:(lia)).
    assert (Q : ax = 0 \/ ax = 1) by lia. destruct Q as [->| ->]; destruct Hs as [->| ->].
    1: exists [1; gv h (c 1 + 1)%Z]%R. 2: exists [-1; gv h (c 1 + 1)%Z]%R. 3: exists [gv h (c 0 + 1)%Z; 1]%R. 4: exists [gv h (c 0 + 1)%Z; -1]%R.
    1, 2: split; [apply (In2 (c 1)); auto; cbn; tauto|].
    3, 4: split; [apply (In2 (c 0)); auto; cbn; tauto|].
    all: intros r Hr; assert (Q : r = 0 \/ r = 1) by lia; destruct Q as [->| ->]; unfold grid_point; cbn [Z.eqb Pos.eqb]; rewrite ?grid_gv; nrs; try reflexivity; cbv [Z.eqb Pos.eqb]; ring.
Qed.
End Geo.

Lemma ceil_spec x : (x <= IZR (ceil x))%R /\ (IZR (ceil x) - 1 < x)%R.
Proof. unfold ceil. destruct (base_Int_part (- x)) as [A B]. rewrite opp_IZR. lra. Qed.

Lemma axis3 min_npt : 1 <= min_npt -> let m := ceil (sqrt (IZR min_npt / 6)) in 1 <= m /\ min_npt <= m * m * 6 /\ 6 * ((m - 1) * (m - 1)) < min_npt.
Proof.
  intros Hn m. destruct (ceil_spec (sqrt (IZR min_npt / 6))) as [A B]. fold m in A, B.
  assert (H0 : (0 < IZR min_npt / 6)%R). { assert (0 < IZR min_npt)%R by (apply IZR_lt; lia). lra. }
  pose proof (sqrt_lt_R0 _ H0) as H1. pose proof (sqrt_sqrt (IZR min_npt / 6) ltac:(lra)) as H2. set (q := sqrt (IZR min_npt / 6)) in *.
  assert (M1 : 0 < m) by (apply lt_IZR; lra). assert (M1R : (1 <= IZR m)%R) by (apply IZR_le; lia).
  split; [lia|]. split.
  - apply le_IZR. rewrite !mult_IZR. nra.
  - apply lt_IZR. rewrite !mult_IZR, minus_IZR. nra.
Qed.

(** The scaling loop of one level. *)
Lemma scale_spec (unit : mem R) sz a (d : mem R) : 0 <= sz -> zlen d = sz -> (forall c, 0 <= c < sz -> exists v, ld unit c = Some v) ->
  exists d', zfor 0 sz (fun i d => v <- ld unit i; st d i (a * v)%R) d = Some d' /\ zlen d' = sz /\
    forall c v, 0 <= c < sz -> ld unit c = Some v -> ld d' c = Some (a * v)%R.
Proof.
  intros Hs Hz HU.
  destruct (zfor_inv (fun i (d' : mem R) => zlen d' = sz /\ forall c v, 0 <= c < i -> ld unit c = Some v -> ld d' c = Some (a * v)%R) 0 sz
    (fun i d => v <- ld unit i; st d i (a * v)%R) d) as (d' & E & Z1 & L); auto.
  - split; auto. intros; lia.
  - intros i d' Hi (Z1 & L). destruct (HU i Hi) as [v Ev]. rewrite Ev. cbn [bind].
    destruct (st_Some d' i (a * v)%R) as [d2 E2]; [lia|]. exists d2. split; auto. split. { now rewrite (st_zlen _ _ _ _ E2). }
    intros c w Hc Hw. rewrite (ld_st _ _ _ _ c E2). destruct (Z.eqb_spec i c); [subst; congruence|apply L; auto; lia].
  - exists d'. auto.
Qed.

Definition box_half (max_L : R) (level : Z) : R := ((1 + 2 * alpha_H2) * (max_L / 2 ^ Z.to_nat level) / 2)%R.

(** The levels, given the unit points. *)
Lemma levels_spec dim xpt m npt L (unit : mem R) max_level min_level max_L : 0 <= dim -> dim <= xpt -> 0 <= npt -> npt = zlen L -> good dim m L ->
  (forall r k P, 0 <= r < xpt -> getz L k = Some P -> ld unit (r * npt + k) = Some (if r <? dim then nR P r else 0%R)) ->
  0 <= min_level <= max_level + 1 -> (0 < max_L)%R ->
  exists pp, (pow <- zfor 0 min_level (fun _ p => Some (p * 2)%R) (1 / 2)%R;
  '(pp, _) <- zfor min_level (max_level + 1) (fun level (s : mem (dmat R) * R) => let '(pp, pow) := s in
    let pow := (pow * 2)%R in
    let M := dm_init xpt npt in
    w <- Rdiv_opt max_L pow;
    let box_width := (w * (1 / 2))%R in
    let adm_width := ((1 + 2 * alpha_H2) * box_width)%R in
    d <- zfor 0 (xpt * npt) (fun i d => v <- ld unit i; st d i (adm_width * v)%R) (dm_data M);
    pp <- st pp level (dm_set_data M d); Some (pp, pow)) (alloc (max_level + 1), pow);
  Some (Some pp)) = Some (Some pp) /\ zlen pp = max_level + 1 /\
  (forall level, 0 <= level < min_level -> getz pp level = Some None) /\
  forall level, min_level <= level <= max_level -> exists M P, ld pp level = Some M /\ point_matrix M xpt npt P /\
    let a := box_half max_L level in
    (forall k, 0 <= k < npt -> on_box dim a (P k) /\ forall r, dim <= r < xpt -> P k r = 0%R) /\
    forall ax s c, 0 <= ax < dim -> (s = 1 \/ s = -1)%R -> (forall r, 0 <= r < dim -> 0 <= c r < m) ->
      exists k, 0 <= k < npt /\ forall r, 0 <= r < dim -> P k r = grid_point m ax s a c r.
Proof.
  intros Hd Hx Hn En (G1 & G2) HU Hl HL.
  destruct (zfor_inv (fun i (p : R) => p = (1 / 2 * 2 ^ Z.to_nat i)%R) 0 min_level (fun _ p => Some (p * 2)%R) (1 / 2)%R) as (pw & E & ->); try lia.
  { change (Z.to_nat 0) with 0%nat. rewrite pow_O. lra. }
  { intros i p Hi ->. eexists. split; [reflexivity|]. rewrite Z2Nat.inj_add by lia. change (Z.to_nat 1) with 1%nat. rewrite pow_add. cbn [pow]. lra. }
  rewrite E. cbn [bind].
  set (Pt := fun level k r => (box_half max_L level * (if r <? dim then match getz L k with Some P => nR P r | None => 0 end else 0))%R).
  match goal with |- context [zfor min_level (max_level + 1) ?body ?s0] => destruct (zfor_inv (fun lv (s : mem (dmat R) * R) => zlen (fst s) = max_level + 1 /\ snd s = (1 / 2 * 2 ^ Z.to_nat lv)%R /\
    (forall level, 0 <= level < min_level -> getz (fst s) level = Some None) /\
    forall level, min_level <= level < lv -> exists M, ld (fst s) level = Some M /\ point_matrix M xpt npt (Pt level)) min_level (max_level + 1) body s0) as (s & E2 & I1 & _ & I2 & I3) end; try lia.
  - cbn [fst snd]. split; [apply zlen_alloc; lia|]. split; auto. split; [|intros; lia]. intros level Hlv. unfold alloc. apply getz_arr. lia.
  - intros lv (pp & pw) Hlv (I1 & I2 & I3 & I4). cbn [fst snd] in *. cbv beta zeta.
    assert (Epow : (pw * 2 = 2 ^ Z.to_nat lv)%R) by (rewrite I2; lra).
    assert (Hpos : (0 < 2 ^ Z.to_nat lv)%R) by (apply pow_lt; lra).
    unfold Rdiv_opt. destruct (Req_EM_T (pw * 2) 0) as [Q|_]; [lra|]. cbn [bind]. rewrite Epow.
    assert (Hsz : 0 <= xpt * npt) by nia.
    destruct (scale_spec unit (xpt * npt) ((1 + 2 * alpha_H2) * (max_L / 2 ^ Z.to_nat lv * (1 / 2)))%R (dm_data (dm_init xpt npt))) as (d & Ed & Zd & Ld); auto.
    { unfold dm_init. cbn [dm_data]. rewrite zlen_alloc; lia. }
    { intros c Hc. assert (Hn0 : 0 < npt) by nia. destruct (getz_in L (c mod npt)) as [P HP]; [rewrite <- En; apply Z.mod_pos_bound; lia|].
      exists (if c / npt <? dim then nR P (c / npt) else 0%R). rewrite <- (HU (c / npt) (c mod npt) P); auto.
      - f_equal. rewrite Z.mul_comm. apply Z.div_mod. lia.
      - split; [apply Z.div_pos; lia|apply Z.div_lt_upper_bound; lia]. }
    rewrite Ed. cbn [bind]. match goal with |- context [st pp lv ?M] => destruct (st_Some pp lv M) as [pp' Ep] end; [lia|]. rewrite Ep. cbn [bind].
    eexists. split; [reflexivity|]. cbn [fst snd]. split. { now rewrite (st_zlen _ _ _ _ Ep). } split.
    { rewrite Z2Nat.inj_add by lia. change (Z.to_nat 1) with 1%nat. rewrite pow_add. cbn [pow]. lra. } split.
    + intros level Hlevel. rewrite (getz_st _ _ _ _ level Ep). destruct (Z.eqb_spec lv level); [lia|auto].
    + intros level Hlevel. rewrite (ld_st _ _ _ _ level Ep). destruct (Z.eqb_spec lv level) as [<-|N]; [|apply I4; lia].
      eexists. split; [reflexivity|]. unfold point_matrix, dm_set_data, dm_init. cbn [dm_nrow dm_ncol dm_ld dm_data].
      split; [lia|]. split; [lia|]. split; [lia|]. intros r k Hr Hk. destruct (getz_in L k) as [P HP]; [lia|].
      rewrite (Ld (r * npt + k) (if r <? dim then nR P r else 0%R)); [|nia|apply HU; auto].
      f_equal. unfold Pt, box_half. rewrite HP. destruct (r <? dim); unfold Rdiv; ring.
  - rewrite E2. cbn [bind]. destruct s as (pp & pw). cbn [fst snd] in *. exists pp. split; auto. split; auto. split; auto.
    intros level Hlv. destruct (I3 level ltac:(lia)) as (M & EM & PM). exists M, (Pt level). split; auto. split; auto.
    assert (Ha : (0 < box_half max_L level)%R).
    { unfold box_half, alpha_H2. assert (0 < max_L / 2 ^ Z.to_nat level)%R by (apply Rdiv_lt_0_compat; auto; apply pow_lt; lra). lra. }
    cbv zeta. unfold Pt. set (a := box_half max_L level) in *. split.
    + intros k Hk. destruct (getz_in L k) as [P HP]; [lia|]. rewrite HP. destruct (G1 P (getz_In _ _ _ HP)) as ((r0 & Hr0 & B1) & B2). split; [split|].
      * exists r0. split; auto. destruct (Z.ltb_spec r0 dim); [|lia]. destruct B1 as [-> | ->]; lra.
      * intros r Hr. destruct (Z.ltb_spec r dim); [|lia]. specialize (B2 r Hr). nra.
      * intros r Hr. destruct (Z.ltb_spec r dim); [lia|]. ring.
    + intros ax s c Hax Hs Hc. destruct (G2 ax s c Hax Hs Hc) as (P & HP & HG). destruct (In_getz _ _ HP) as (k & Hk). exists k.
      split; [rewrite En; eapply getz_range; eauto|]. intros r Hr. destruct (Z.ltb_spec r dim); [|lia]. rewrite Hk, HG by auto.
      unfold grid_point. destruct (r =? ax); ring.
Qed.
