(** The block version of the pivoted QR (Model_ID.pivot_qr_kdim) on abstract
    matrices, for any arithmetic. *)
From Coq Require Import ZArith QArith List Lia Bool Permutation.
From Verif Require Import Base Mem FNum Model_Utils Model_Dense Model_CSR Model_Build Model_ID Proof_IDMem Proof_IDQR Proof_IDIndex.
Import ListNotations.
Open Scope Z_scope.

(** A loop that either keeps an invariant or stops for a reason. *)
Lemma zfor_inv_or {St} (P : Z -> St -> Prop) (Bad : Prop) lo hi (body : Z -> St -> option St) s :
  lo <= hi -> P lo s ->
  (forall k t, lo <= k < hi -> P k t -> (exists t', body k t = Some t' /\ P (k + 1) t') \/ (body k t = None /\ Bad)) ->
  (exists s', zfor lo hi body s = Some s' /\ P hi s') \/ (zfor lo hi body s = None /\ Bad).
Proof.
  intros Hl. remember (Z.to_nat (hi - lo)) as n eqn:En. revert lo s Hl En. induction n as [|n IH]; intros lo s Hl En H0 Hs.
  - assert (lo = hi) by lia. subst. rewrite zfor_empty by lia. eauto.
  - rewrite (zfor_step lo hi) by lia. destruct (Hs lo s ltac:(lia) H0) as [(t & E & H1)|(E & B)]; rewrite E; cbn [bind]; [|right; auto].
    apply IH; auto; try lia. intros; apply Hs; auto; lia.
Qed.

(** Exchange of two blocks of kdim columns. *)
Definition swb (kdim i j c : Z) : Z := sw i j (c / kdim) * kdim + c mod kdim.

Lemma blk_of kdim c i : 0 < kdim -> (i * kdim <= c < i * kdim + kdim <-> c / kdim = i).
Proof.
  intros Hk. pose proof (Z.div_mod c kdim ltac:(lia)) as D. pose proof (Z.mod_pos_bound c kdim Hk) as B. split; intros H.
  - symmetry. apply (Z.div_unique c kdim i (c - i * kdim)); lia.
  - subst i. lia.
Qed.
Lemma swb_cases kdim i j c : 0 < kdim -> i <> j ->
  (i * kdim <= c < i * kdim + kdim /\ swb kdim i j c = c - i * kdim + j * kdim) \/
  (j * kdim <= c < j * kdim + kdim /\ swb kdim i j c = c - j * kdim + i * kdim) \/
  (~ (i * kdim <= c < i * kdim + kdim) /\ ~ (j * kdim <= c < j * kdim + kdim) /\ swb kdim i j c = c).
Proof.
  intros Hk Hij. rewrite !(blk_of kdim c) by auto. unfold swb, sw. pose proof (Z.div_mod c kdim ltac:(lia)) as D.
  destruct (Z.eqb_spec (c / kdim) i); [left; split; lia|]. right. destruct (Z.eqb_spec (c / kdim) j); [left; split; lia|]. right. lia.
Qed.
Lemma swb_id kdim i c : 0 < kdim -> swb kdim i i c = c.
Proof. intros Hk. unfold swb, sw. pose proof (Z.div_mod c kdim ltac:(lia)). destruct (Z.eqb_spec (c / kdim) i); lia. Qed.

Lemma blk_apart kdim i j : 0 < kdim -> i <> j -> i * kdim + kdim <= j * kdim \/ j * kdim + kdim <= i * kdim.
Proof.
  intros Hk Hij. destruct (Z.lt_ge_cases i j).
  - left. assert ((i + 1) * kdim <= j * kdim) by (apply Z.mul_le_mono_nonneg_r; lia). lia.
  - right. assert ((j + 1) * kdim <= i * kdim) by (apply Z.mul_le_mono_nonneg_r; lia). lia.
Qed.

Lemma swap_blk_holdsv {A} (m : mem A) kdim nblk f i j : 0 < kdim -> holdsv m (nblk * kdim) f -> 0 <= i < nblk -> 0 <= j < nblk -> i <> j ->
  exists m', swap_cells m (i * kdim) (j * kdim) kdim = Some m' /\ zlen m' = zlen m /\ holdsv m' (nblk * kdim) (fun k => f (swb kdim i j k)).
Proof.
  intros Hk H Hi Hj N. pose proof (blk_apart kdim i j Hk N) as D.
  assert ((i + 1) * kdim <= nblk * kdim) by (apply Z.mul_le_mono_nonneg_r; lia). assert ((j + 1) * kdim <= nblk * kdim) by (apply Z.mul_le_mono_nonneg_r; lia).
  assert (0 <= i * kdim) by (apply Z.mul_nonneg_nonneg; lia). assert (0 <= j * kdim) by (apply Z.mul_nonneg_nonneg; lia).
  pose proof (ld_range _ _ _ (H (i * kdim + kdim - 1) ltac:(lia))). pose proof (ld_range _ _ _ (H (j * kdim + kdim - 1) ltac:(lia))).
  destruct (swap_spec m (i * kdim) (j * kdim) kdim) as (m' & E & Zm & G); try lia. exists m'. split; auto. split; auto. intros k Hkk.
  unfold ld. rewrite G. destruct (swb_cases kdim i j k Hk N) as [(B & ->)|[(B & ->)|(B1 & B2 & ->)]].
  - destruct (Z.leb_spec (i * kdim) k); destruct (Z.ltb_spec k (i * kdim + kdim)); try lia. cbn [andb]. replace (j * kdim + (k - i * kdim)) with (k - i * kdim + j * kdim) by lia. apply H. lia.
  - destruct (Z.leb_spec (i * kdim) k); destruct (Z.ltb_spec k (i * kdim + kdim)); cbn [andb]; try lia; destruct (Z.leb_spec (j * kdim) k); destruct (Z.ltb_spec k (j * kdim + kdim)); cbn [andb]; try lia;
      replace (i * kdim + (k - j * kdim)) with (k - j * kdim + i * kdim) by lia; apply H; lia.
  - destruct (Z.leb_spec (i * kdim) k); destruct (Z.ltb_spec k (i * kdim + kdim)); cbn [andb]; try lia; destruct (Z.leb_spec (j * kdim) k); destruct (Z.ltb_spec k (j * kdim + kdim)); cbn [andb]; try lia; apply H; lia.
Qed.

Lemma swap_blk_cols {A} (R : mem A) ldR nrow kdim nblk M i j : 0 < kdim -> colmat R ldR nrow (nblk * kdim) M -> 0 <= nrow <= ldR -> nblk * kdim * ldR <= zlen R -> 0 <= i < nblk -> 0 <= j < nblk -> i <> j ->
  exists R', swap_cells R (i * kdim * ldR) (j * kdim * ldR) (ldR * kdim) = Some R' /\ zlen R' = zlen R /\ colmat R' ldR nrow (nblk * kdim) (fun r c => M r (swb kdim i j c)).
Proof.
  intros Hk H Hn HL Hi Hj N. pose proof (blk_apart kdim i j Hk N) as D.
  assert (Bi : forall a, 0 <= a < nblk -> 0 <= a * kdim * ldR /\ a * kdim * ldR + ldR * kdim <= nblk * kdim * ldR).
  { intros a Ha. assert (0 <= a * kdim) by (apply Z.mul_nonneg_nonneg; lia). split; [apply Z.mul_nonneg_nonneg; lia|].
    assert ((a + 1) * kdim <= nblk * kdim) by (apply Z.mul_le_mono_nonneg_r; lia). assert ((a + 1) * kdim * ldR <= nblk * kdim * ldR) by (apply Z.mul_le_mono_nonneg_r; lia). lia. }
  pose proof (Bi i Hi). pose proof (Bi j Hj).
  assert (D' : i * kdim * ldR + ldR * kdim <= j * kdim * ldR \/ j * kdim * ldR + ldR * kdim <= i * kdim * ldR).
  { destruct D as [D|D]; [left|right]; apply (Z.mul_le_mono_nonneg_r _ _ ldR) in D; lia. }
  destruct (swap_spec R (i * kdim * ldR) (j * kdim * ldR) (ldR * kdim)) as (R' & E & Zm & G); try lia; try (apply Z.mul_nonneg_nonneg; lia).
  exists R'. split; auto. split; auto. intros r c Hr Hc. unfold ld. rewrite G.
  assert (In1 : forall a, a * kdim <= c < a * kdim + kdim -> a * kdim * ldR <= c * ldR + r < a * kdim * ldR + ldR * kdim).
  { intros a Ha. assert (a * kdim * ldR <= c * ldR) by (apply Z.mul_le_mono_nonneg_r; lia). assert ((c + 1) * ldR <= (a * kdim + kdim) * ldR) by (apply Z.mul_le_mono_nonneg_r; lia). lia. }
  assert (Out1 : forall a, ~ (a * kdim <= c < a * kdim + kdim) -> ~ (a * kdim * ldR <= c * ldR + r < a * kdim * ldR + ldR * kdim)).
  { intros a Ha HH. apply Ha. destruct (Z.lt_ge_cases c (a * kdim)).
    - assert ((c + 1) * ldR <= a * kdim * ldR) by (apply Z.mul_le_mono_nonneg_r; lia). lia.
    - destruct (Z.lt_ge_cases c (a * kdim + kdim)); [lia|]. assert ((a * kdim + kdim) * ldR <= c * ldR) by (apply Z.mul_le_mono_nonneg_r; lia). lia. }
  assert (Bk : forall a, 0 <= a < nblk -> 0 <= a * kdim /\ a * kdim + kdim <= nblk * kdim).
  { intros a Ha. split; [apply Z.mul_nonneg_nonneg; lia|]. assert ((a + 1) * kdim <= nblk * kdim) by (apply Z.mul_le_mono_nonneg_r; lia). lia. }
  pose proof (Bk i Hi). pose proof (Bk j Hj).
  destruct (swb_cases kdim i j c Hk N) as [(B & ->)|[(B & ->)|(B1 & B2 & ->)]].
  - pose proof (In1 i B). destruct (Z.leb_spec (i * kdim * ldR) (c * ldR + r)); destruct (Z.ltb_spec (c * ldR + r) (i * kdim * ldR + ldR * kdim)); try lia. cbn [andb].
    replace (j * kdim * ldR + (c * ldR + r - i * kdim * ldR)) with ((c - i * kdim + j * kdim) * ldR + r) by lia. apply (H r (c - i * kdim + j * kdim)); lia.
  - assert (Ni : ~ (i * kdim <= c < i * kdim + kdim)) by lia. pose proof (Out1 i Ni). pose proof (In1 j B).
    destruct (Z.leb_spec (i * kdim * ldR) (c * ldR + r)); destruct (Z.ltb_spec (c * ldR + r) (i * kdim * ldR + ldR * kdim)); cbn [andb]; try lia;
    destruct (Z.leb_spec (j * kdim * ldR) (c * ldR + r)); destruct (Z.ltb_spec (c * ldR + r) (j * kdim * ldR + ldR * kdim)); cbn [andb]; try lia;
    replace (i * kdim * ldR + (c * ldR + r - j * kdim * ldR)) with ((c - j * kdim + i * kdim) * ldR + r) by lia; apply (H r (c - j * kdim + i * kdim)); lia.
  - pose proof (Out1 i B1). pose proof (Out1 j B2).
    destruct (Z.leb_spec (i * kdim * ldR) (c * ldR + r)); destruct (Z.ltb_spec (c * ldR + r) (i * kdim * ldR + ldR * kdim)); cbn [andb]; try lia;
    destruct (Z.leb_spec (j * kdim * ldR) (c * ldR + r)); destruct (Z.ltb_spec (c * ldR + r) (j * kdim * ldR + ldR * kdim)); cbn [andb]; try lia; apply (H r c); lia.
Qed.

Section QRk.
Context {F : fnum}.
Variables (dbl : bool) (kdim nrow ncol ldR : Z).

Definition fdiv_undef : Prop := exists a b : F, fdiv a b = None.

(** One Householder step inside the column block [B, B + kdim): the columns of
    the block right of ii are reflected, the others are left for later. *)
Definition blkref (M : Z -> Z -> F) (B ii : Z) (v : Z -> F) (d : F) (r c : Z) : F :=
  if c <? B + kdim then reflected nrow M ii v d r c else M r c.
(** The steps inside the block from M: after b of them the matrix is Mb and the
    Householder vectors, with leading zeros, are V 0 .. V (b-1). *)
Inductive hsteps (M : Z -> Z -> F) (B : Z) : Z -> (Z -> Z -> F) -> (Z -> Z -> F) -> Prop :=
| hs_0 V : hsteps M B 0 M V
| hs_S b Mb V inv : hsteps M B b Mb V -> 0 <= b < kdim ->
    let x := fun k => Mb (B + b + k) (B + b) in
    hinv x (nrow - (B + b)) = Some inv ->
    let v := fun k => fmul (hraw x (nrow - (B + b)) k) inv in
    let d := fmul (fsub (flit 0%Q) (hsign x)) (hnorm x (nrow - (B + b))) in
    hsteps M B (b + 1) (blkref Mb B (B + b) v d) (fun b' j => if b' =? b then (if j <? b then flit 0%Q else v (j - b)) else V b' j).

Lemma blk_house_spec (R : mem F) M i : 0 < kdim -> 0 <= i -> i * kdim + kdim <= nrow -> i * kdim + kdim <= ncol -> nrow <= ldR -> colmat R ldR nrow ncol M ->
  (exists R' V' Mk V, zfor (i * kdim) (i * kdim + kdim) (blk_house kdim nrow ldR i) (R, alloc (kdim * nrow)) = Some (R', V') /\ zlen R' = zlen R /\ zlen V' = kdim * nrow /\
     colmat R' ldR nrow ncol Mk /\ hsteps M (i * kdim) kdim Mk V /\ (forall b j, 0 <= b < kdim -> 0 <= j < nrow - i * kdim -> ld V' (b * (nrow - i * kdim) + j) = Some (V b j))) \/
  (zfor (i * kdim) (i * kdim + kdim) (blk_house kdim nrow ldR i) (R, alloc (kdim * nrow)) = None /\ fdiv_undef).
Proof.
  intros Hk Hi Hr Hc Hld HR. set (B := i * kdim). set (n := nrow - B). assert (HB : 0 <= B) by (apply Z.mul_nonneg_nonneg; lia).
  assert (Hkn : kdim * n <= kdim * nrow) by (apply Z.mul_le_mono_nonneg_l; unfold n; lia).
  destruct (zfor_inv_or (fun ii (x : mem F * mem F) => exists Mb V, zlen (fst x) = zlen R /\ zlen (snd x) = kdim * nrow /\ colmat (fst x) ldR nrow ncol Mb /\ hsteps M B (ii - B) Mb V /\
      (forall b j, 0 <= b < ii - B -> 0 <= j < n -> ld (snd x) (b * n + j) = Some (V b j))) fdiv_undef B (B + kdim) (blk_house kdim nrow ldR i) (R, alloc (kdim * nrow))) as [((R' & V') & E & Mk & V & Z1 & Z2 & H1 & H2 & H3)|[E Bd]]; try lia.
  - exists M, (fun _ _ => flit 0%Q). cbn [fst snd]. split; auto. split; [apply zlen_alloc; apply Z.mul_nonneg_nonneg; lia|]. split; auto. rewrite Z.sub_diag. split; [constructor|lia].
  - intros ii (R1 & V1) Hii (Mb & V & Z1 & Z2 & H1 & H2 & H3). cbn [fst snd] in *. unfold blk_house. fold B. fold n. cbv zeta. set (b := ii - B) in *.
    assert (Eii : B + b = ii) by (unfold b; lia).
    set (x := fun k => Mb (ii + k) ii).
    assert (Hx : forall k, 0 <= k < nrow - ii -> ld R1 (ii * ldR + ii + k) = Some (x k)).
    { intros k Hkk. replace (ii * ldR + ii + k) with (ii * ldR + (ii + k)) by lia. apply H1; lia. }
    pose proof (house_spec R1 (ii * ldR + ii) (nrow - ii) x ltac:(lia) Hx) as HS.
    destruct (hinv x (nrow - ii)) as [inv|] eqn:Einv.
    2:{ right. rewrite HS. split; [reflexivity|]. unfold hinv in Einv. red. eauto. }
    left. destruct HS as (R2 & E2 & S2 & G2). rewrite E2. cbn [bind].
    set (v := fun k => fmul (hraw x (nrow - ii) k) inv) in *. set (d := fmul (fsub (flit 0%Q) (hsign x)) (hnorm x (nrow - ii))).
    set (M' := blkref Mb B ii v d).
    (* the columns of the block to the right *)
    assert (A2 : forall r c, 0 <= r < nrow -> 0 <= c < ncol -> ld R2 (c * ldR + r) = Some (if (c =? ii) && (ii <=? r) then v (r - ii) else Mb r c)).
    { intros r c Hr0 Hc0. destruct (Z.eqb_spec c ii) as [->|N]; cbn [andb].
      - destruct (Z.leb_spec ii r); cbn [andb].
        + replace (ii * ldR + r) with (ii * ldR + ii + (r - ii)) by lia. apply G2. lia.
        + apply (colmat_out R1 R2 ldR nrow ncol Mb ii ii (nrow - ii) H1 ltac:(lia) ltac:(lia) Hld); auto; lia.
      - apply (colmat_out R1 R2 ldR nrow ncol Mb ii ii (nrow - ii) H1 ltac:(lia) ltac:(lia) Hld); auto; lia. }
    match goal with |- context [zfor 0 (kdim - b - 1) ?bd R2] =>
      destruct (zfor_inv (fun j (R3 : mem F) => zlen R3 = zlen R /\ forall r c, 0 <= r < nrow -> 0 <= c < ncol ->
        ld R3 (c * ldR + r) = Some (if (c =? ii) && (ii <=? r) then v (r - ii) else if (ii <? c) && (c <? ii + 1 + j) then reflected nrow Mb ii v d r c else Mb r c)) 0 (kdim - b - 1) bd R2) as (R3 & E3 & Z3 & A3); try lia end.
    { split; [rewrite (proj1 S2); auto|]. intros r c Hr0 Hc0. rewrite A2 by auto. destruct ((c =? ii) && (ii <=? r)); auto. destruct (Z.ltb_spec ii c); destruct (Z.ltb_spec c (ii + 1 + 0)); cbn [andb]; auto; lia. }
    { intros j R3 Hj (Z3 & A3). set (c := ii + 1 + j). assert (Hcc : ii < c < ncol) by (unfold c, b in *; lia).
      replace ((ii + 1) * ldR + ii + j * ldR) with (c * ldR + ii) by (unfold c; lia).
      destruct (reflect_spec R3 (ii * ldR + ii) (c * ldR + ii) (nrow - ii) v (fun k => Mb (ii + k) c)) as (R4 & E4 & S4 & G4); try lia.
      { destruct (cols_apart ldR nrow ii c ii (nrow - ii)); lia. }
      { intros k Hkk. replace (ii * ldR + ii + k) with (ii * ldR + (ii + k)) by lia. rewrite A3 by lia. rewrite Z.eqb_refl. destruct (Z.leb_spec ii (ii + k)); [|lia]. cbn [andb]. do 2 f_equal. lia. }
      { intros k Hkk. replace (c * ldR + ii + k) with (c * ldR + (ii + k)) by lia. rewrite A3 by lia. destruct (Z.eqb_spec c ii); [lia|]. cbn [andb]. unfold c at 2. rewrite Z.ltb_irrefl, andb_false_r. reflexivity. }
      exists R4. split; auto. split; [rewrite (proj1 S4); auto|]. intros r c' Hr0 Hc0.
      destruct (Z.eq_dec c' c) as [->|N].
      - destruct (Z.eqb_spec c ii); [lia|]. cbn [andb]. destruct (Z.ltb_spec ii c); [|lia]. destruct (Z.ltb_spec c (ii + 1 + (j + 1))); [|unfold c in *; lia]. cbn [andb]. destruct (Z.lt_ge_cases r ii).
        + rewrite (same_out_ld _ _ _ _ _ S4) by lia. rewrite A3 by lia. destruct (Z.eqb_spec c ii); [lia|]. cbn [andb]. unfold c at 2. rewrite Z.ltb_irrefl, andb_false_r. unfold reflected. destruct (Z.ltb_spec r ii); [|lia]. now rewrite orb_true_r.
        + replace (c * ldR + r) with (c * ldR + ii + (r - ii)) by lia. rewrite G4 by lia. unfold reflected. destruct (Z.ltb_spec c ii); [lia|]. destruct (Z.ltb_spec r ii); [lia|]. cbn [orb]. destruct (Z.eqb_spec c ii); [lia|]. replace (ii + (r - ii)) with r by lia. reflexivity.
      - rewrite (same_out_ld _ _ _ _ _ S4).
        2:{ intros HH. apply N. apply (cell_in ldR nrow c ii c' r (nrow - ii)); lia. }
        rewrite A3 by auto. destruct ((c' =? ii) && (ii <=? r)); auto. destruct (Z.ltb_spec ii c'); cbn [andb]; auto.
        destruct (Z.ltb_spec c' (ii + 1 + j)); destruct (Z.ltb_spec c' (ii + 1 + (j + 1))); auto; unfold c in *; lia. }
    rewrite E3. cbn [bind].
    (* V *)
    assert (Hbn : 0 <= b * n /\ b * n + n <= kdim * n).
    { split; [apply Z.mul_nonneg_nonneg; unfold n, b; lia|]. assert ((b + 1) * n <= kdim * n) by (apply Z.mul_le_mono_nonneg_r; unfold n, b; lia). lia. }
    destruct (zfor_cells (b * n) 0 b (fun _ => flit 0%Q) (fun j V => st V (b * n + j) (flit 0%Q)) V1) as (V2 & E4 & S4 & G4); auto; try (unfold n, b in *; lia).
    rewrite E4. cbn [bind].
    pose proof (ld_range _ _ _ (A3 (nrow - 1) ii ltac:(lia) ltac:(lia))). pose proof (ld_range _ _ _ (A3 ii ii ltac:(lia) ltac:(lia))).
    destruct (mcpy_spec V2 (b * n + b) R3 (ii * ldR + ii) (nrow - ii)) as (V3 & E5 & Z5 & G5); try (rewrite ?(proj1 S4); unfold n, b in *; lia).
    rewrite E5. cbn [bind].
    destruct (finish_col_spec R3 (ii * ldR + ii) (nrow - ii) (hsign x) (hnorm x (nrow - ii))) as (R5 & E6 & S6 & G6); try lia. rewrite E6. cbn [bind].
    exists (R5, V3). split; auto. cbn [fst snd].
    exists M', (fun b' j => if b' =? b then (if j <? b then flit 0%Q else v (j - b)) else V b' j).
    split; [rewrite (proj1 S6); auto|]. split; [rewrite Z5, (proj1 S4); auto|]. split; [|split].
    + intros r c Hr0 Hc0. destruct (Z.eq_dec c ii) as [->|N].
      * unfold M', blkref. destruct (Z.ltb_spec ii (B + kdim)); [|lia]. destruct (Z.lt_ge_cases r ii).
        -- rewrite (same_out_ld _ _ _ _ _ S6) by lia. rewrite A3 by lia. destruct (Z.leb_spec ii r); [lia|]. rewrite andb_false_r. rewrite Z.ltb_irrefl. cbn [andb]. unfold reflected. destruct (Z.ltb_spec r ii); [|lia]. now rewrite orb_true_r.
        -- replace (ii * ldR + r) with (ii * ldR + ii + (r - ii)) by lia. rewrite G6 by lia. unfold reflected. rewrite Z.ltb_irrefl. destruct (Z.ltb_spec r ii); [lia|]. cbn [orb]. rewrite Z.eqb_refl.
           destruct (Z.eqb_spec (r - ii) 0); destruct (Z.eqb_spec r ii); try lia; reflexivity.
      * rewrite (same_out_ld _ _ _ _ _ S6).
        2:{ intros HH. apply N. apply (cell_in ldR nrow ii ii c r (nrow - ii)); lia. }
        rewrite A3 by auto. destruct (Z.eqb_spec c ii); [lia|]. cbn [andb]. unfold M', blkref. replace (ii + 1 + (kdim - b - 1)) with (B + kdim) by (unfold b; lia).
        destruct (Z.ltb_spec ii c); destruct (Z.ltb_spec c (B + kdim)); cbn [andb]; auto; try lia. unfold reflected. destruct (Z.ltb_spec c ii); [|lia]. reflexivity.
    + replace (ii + 1 - B) with (b + 1) by (unfold b; lia).
      pose proof (hs_S M B b Mb V inv H2 ltac:(unfold b; lia)) as HS. cbv zeta in HS. rewrite Eii in HS. exact (HS Einv).
    + intros b' j Hb' Hj. unfold ld. rewrite G5. destruct (Z.eqb_spec b' b) as [->|N].
      * destruct (Z.ltb_spec j b).
        -- destruct (Z.leb_spec (b * n + b) (b * n + j)); [lia|]. cbn [andb]. specialize (G4 j ltac:(lia)). unfold ld in G4. rewrite G4. reflexivity.
        -- destruct (Z.leb_spec (b * n + b) (b * n + j)); [|lia]. destruct (Z.ltb_spec (b * n + j) (b * n + b + (nrow - ii))); [|unfold n, b in *; lia]. cbn [andb].
           pose proof (A3 (ii + (j - b)) ii ltac:(unfold n, b in *; lia) ltac:(lia)) as A3'. unfold ld in A3'. replace (ii * ldR + ii + (b * n + j - (b * n + b))) with (ii * ldR + (ii + (j - b))) by lia. rewrite A3'.
           rewrite Z.eqb_refl. destruct (Z.leb_spec ii (ii + (j - b))); [|lia]. cbn [andb]. do 2 f_equal. lia.
      * assert ((b' + 1) * n <= b * n) by (apply Z.mul_le_mono_nonneg_r; unfold n, b in *; lia).
        destruct (Z.leb_spec (b * n + b) (b' * n + j)); [unfold n, b in *; lia|]. cbn [andb]. fold (ld V2 (b' * n + j)). rewrite (same_out_ld _ _ _ _ _ S4) by lia. apply H3; unfold b in *; lia.
  - left. cbn [fst snd] in *. replace (B + kdim - B) with kdim in * by lia. exists R', V', Mk, V. split; auto.
  - right. auto.
Qed.

(** W of the block reflector, row by row (n: length of the vectors). *)
Definition wrel (n : Z) (V W : Z -> Z -> F) (b : Z) : Prop :=
  forall j, 0 <= j < n -> W b j = if b =? 0 then fmul (flit (-2)%Q) (V 0 j) else
    fmul (flit (-2)%Q) (fadd (V b j) (fdot (map (fun l => W l j) (zrange 0 b)) (map (fun l => fdot (map (V l) (zrange 0 n)) (map (V b) (zrange 0 n))) (zrange 0 b)))).

Lemma blk_W_spec n (Vm Wm VVm WVVm : mem F) V : 0 < kdim <= n -> (forall b j, 0 <= b < kdim -> 0 <= j < n -> ld Vm (b * n + j) = Some (V b j)) ->
  kdim * n <= zlen Wm -> n <= zlen VVm -> n <= zlen WVVm ->
  exists W' W, blk_W kdim n Vm Wm VVm WVVm = Some W' /\ (forall b j, 0 <= b < kdim -> 0 <= j < n -> ld W' (b * n + j) = Some (W b j)) /\ (forall b, 0 <= b < kdim -> wrel n V W b).
Proof.
  intros Hk HV ZW ZV ZWV. unfold blk_W.
  assert (Rw : forall b, 0 <= b < kdim -> 0 <= b * n /\ b * n + n <= kdim * n).
  { intros b Hb. split; [apply Z.mul_nonneg_nonneg; lia|]. assert ((b + 1) * n <= kdim * n) by (apply Z.mul_le_mono_nonneg_r; lia). lia. }
  pose proof (Rw 0 ltac:(lia)).
  destruct (zfor_cells 0 0 n (fun j => fmul (flit (-2)%Q) (V 0 j)) (fun j W => v <- ld Vm j; st W j (fmul (flit (-2)%Q) v)) Wm) as (W1 & E1 & S1 & G1); try lia.
  { intros j R1 Hj _. pose proof (HV 0 j ltac:(lia) Hj) as Hv. replace (0 * n + j) with j in Hv by lia. rewrite Hv. reflexivity. }
  rewrite E1. cbn [bind].
  match goal with |- context [zfor 1 kdim ?bd ?s0] =>
    destruct (zfor_inv (fun ii (s : mem F * mem F * mem F) => zlen (fst (fst s)) = zlen Wm /\ n <= zlen (snd (fst s)) /\ n <= zlen (snd s) /\
      exists W, (forall b j, 0 <= b < ii -> 0 <= j < n -> ld (fst (fst s)) (b * n + j) = Some (W b j)) /\ (forall b, 0 <= b < ii -> wrel n V W b)) 1 kdim bd s0) as (((W' & VV') & WVV') & E2 & Z2 & Z3 & Z4 & W & G2 & H2); try lia end.
  - cbn [fst snd]. split; [apply S1|]. do 2 (split; [lia|]). exists (fun b j => fmul (flit (-2)%Q) (V 0 j)). split.
    + intros b j Hb Hj. replace b with 0 by lia. apply G1. auto.
    + intros b Hb j Hj. replace b with 0 by lia. reflexivity.
  - intros ii ((W2 & VV2) & WVV2) Hii (Z2 & Z3 & Z4 & W & G2 & H2). cbn [fst snd] in *.
    set (vv := fun l => fdot (map (V l) (zrange 0 n)) (map (V ii) (zrange 0 n))).
    destruct (zfor_cells 0 0 ii vv (fun j VV => d <- dot Vm (j * n) Vm (ii * n) n; st VV j d) VV2) as (VV3 & E3 & S3 & G3); try lia.
    { intros j R1 Hj _. rewrite (dot_spec Vm Vm (j * n) (ii * n) n (V j) (V ii)) by (intros; apply HV; lia). reflexivity. }
    rewrite E3. cbn [bind].
    set (wv := fun r => fdot (map (fun l => W l r) (zrange 0 ii)) (map vv (zrange 0 ii))).
    destruct (zfor_cells 0 0 n wv (fun r WVV => x <- rds W2 r ii n; y <- rds VV3 0 ii 1; st WVV r (fdot x y)) WVV2) as (WVV3 & E4 & S4 & G4); try lia.
    { intros r R1 Hr _. rewrite (rds_spec W2 r ii n (fun l => W l r)) by (intros k Hkk; rewrite Z.add_comm; apply G2; lia). cbn [bind].
      rewrite (rds1_spec VV3 0 ii vv) by (intros k Hkk; apply G3; lia). reflexivity. }
    rewrite E4. cbn [bind]. pose proof (Rw ii ltac:(lia)).
    destruct (zfor_cells (ii * n) 0 n (fun j => fmul (flit (-2)%Q) (fadd (V ii j) (wv j))) (fun j W => v <- ld Vm (ii * n + j); w <- ld WVV3 j; st W (ii * n + j) (fmul (flit (-2)%Q) (fadd v w))) W2) as (W3 & E5 & S5 & G5); try lia.
    { intros j R1 Hj _. rewrite HV by lia. cbn [bind]. pose proof (G4 j Hj) as Gw. rewrite Z.add_0_l in Gw. rewrite Gw. reflexivity. }
    rewrite E5. cbn [bind]. exists (W3, VV3, WVV3). split; auto. cbn [fst snd]. split; [rewrite (proj1 S5); auto|]. split; [rewrite (proj1 S3); auto|]. split; [rewrite (proj1 S4); auto|].
    exists (fun b j => if b =? ii then fmul (flit (-2)%Q) (fadd (V ii j) (wv j)) else W b j). split.
    + intros b j Hb Hj. destruct (Z.eqb_spec b ii) as [->|N]; [apply G5; auto|]. assert ((b + 1) * n <= ii * n) by (apply Z.mul_le_mono_nonneg_r; lia).
      rewrite (same_out_ld _ _ _ _ _ S5) by lia. apply G2; lia.
    + assert (Ex : forall b j, b <= ii -> map (fun l => if l =? ii then fmul (flit (-2)%Q) (fadd (V ii j) (wv j)) else W l j) (zrange 0 b) = map (fun l => W l j) (zrange 0 b)).
      { intros b j Hb. apply map_ext_in. intros l Hl. apply In_zrange in Hl. destruct (Z.eqb_spec l ii); [lia|auto]. }
      intros b Hb j Hj. rewrite Ex by lia. destruct (Z.eqb_spec b ii) as [->|N]; [|apply H2; auto; lia]. destruct (Z.eqb_spec ii 0); [lia|reflexivity].
  - rewrite E2. cbn [bind fst]. exists W', W. cbn [fst snd] in *. auto.
Qed.

(** R += V (W^T R) on the columns from B + kdim on. *)
Definition blkupd (B : Z) (V W M : Z -> Z -> F) (r c : Z) : F :=
  if (c <? B + kdim) || (r <? B) then M r c else
  fadd (M r c) (fdot (map (fun a => V a (r - B)) (zrange 0 kdim)) (map (fun a => fdot (map (W a) (zrange 0 (nrow - B))) (map (fun j => M (B + j) c) (zrange 0 (nrow - B)))) (zrange 0 kdim))).

Lemma col_blk_pos n : 0 < n -> 0 < kdim -> 0 < col_blk dbl n kdim.
Proof. intros. unfold col_blk. destruct (Z.ltb_spec (128 * 1024 / (if dbl then 8 else 4) / (n * kdim * 3)) 2); lia. Qed.

Lemma blk_update_spec B (Vm Wm R WRm : mem F) V W M : 0 < kdim -> 0 <= B -> B + kdim <= nrow -> B + kdim <= ncol -> nrow <= ldR -> colmat R ldR nrow ncol M -> kdim * ncol <= zlen WRm ->
  (forall b j, 0 <= b < kdim -> 0 <= j < nrow - B -> ld Vm (b * (nrow - B) + j) = Some (V b j)) -> (forall b j, 0 <= b < kdim -> 0 <= j < nrow - B -> ld Wm (b * (nrow - B) + j) = Some (W b j)) ->
  exists R', blk_update dbl kdim (nrow - B) ldR ((B + kdim) * ldR + B) (ncol - (B + kdim)) Vm Wm R WRm = Some R' /\ zlen R' = zlen R /\ colmat R' ldR nrow ncol (blkupd B V W M).
Proof.
  intros Hk HB Hr Hc Hld HR ZWR HV HW. unfold blk_update. set (n := nrow - B) in *. set (bs := col_blk dbl n kdim). set (nc := ncol - (B + kdim)).
  assert (Hbs : 0 < bs) by (apply col_blk_pos; unfold n; lia).
  set (nt := (nc + bs - 1) / bs).
  assert (Hnt : 0 <= nt /\ nc <= nt * bs /\ (nt - 1) * bs < nc \/ nt = 0 /\ nc = 0).
  { unfold nt. pose proof (Z.div_mod (nc + bs - 1) bs ltac:(lia)) as D. pose proof (Z.mod_pos_bound (nc + bs - 1) bs Hbs). assert (0 <= nc) by (unfold nc; lia).
    assert (0 <= (nc + bs - 1) / bs) by (apply Z.div_pos; lia). destruct (Z.eq_dec nc 0); [right|left; lia]. split; auto. apply Z.div_small. lia. }
  set (M1 := fun t r c => if c <? B + kdim + t then blkupd B V W M r c else M r c).
  assert (X : exists s, zfor 0 nt (fun t (s : mem F * mem F) => let '(R, WR) := s in
    let c0 := t * bs in
    let nc := Z.min bs (nc - c0) in
    WR <- zfor 0 nc (fun c WR => zfor 0 kdim (fun a WR => d <- dot Wm (a * n) R ((B + kdim) * ldR + B + ldR * (c0 + c)) n; st WR (c * kdim + a) d) WR) WR;
    R <- zfor 0 nc (fun c R => zfor 0 n (fun r R =>
           x <- rds Vm r kdim n; y <- rds WR (c * kdim) kdim 1; v <- ld R ((B + kdim) * ldR + B + ldR * (c0 + c) + r);
           st R ((B + kdim) * ldR + B + ldR * (c0 + c) + r) (fadd v (fdot x y))) R) R;
    Some (R, WR)) (R, WRm) = Some s /\ zlen (fst s) = zlen R /\ colmat (fst s) ldR nrow ncol (M1 nc)).
  2:{ destruct X as (s & E & Z1 & G1). cbv zeta in E |- *. change (col_blk dbl n kdim) with bs. fold nt. rewrite E. cbn [bind]. exists (fst s). split; auto. split; auto. apply (colmat_ext _ _ _ _ _ _ G1).
      intros r c Hr0 Hc0. unfold M1, nc. destruct (Z.ltb_spec c (B + kdim + (ncol - (B + kdim)))); [auto|lia]. }
  destruct (zfor_inv (fun t (s : mem F * mem F) => zlen (fst s) = zlen R /\ zlen (snd s) = zlen WRm /\ colmat (fst s) ldR nrow ncol (M1 (Z.min nc (t * bs)))) 0 nt
   (fun t (s : mem F * mem F) => let '(R, WR) := s in
    let c0 := t * bs in
    let nc := Z.min bs (nc - c0) in
    WR <- zfor 0 nc (fun c WR => zfor 0 kdim (fun a WR => d <- dot Wm (a * n) R ((B + kdim) * ldR + B + ldR * (c0 + c)) n; st WR (c * kdim + a) d) WR) WR;
    R <- zfor 0 nc (fun c R => zfor 0 n (fun r R =>
           x <- rds Vm r kdim n; y <- rds WR (c * kdim) kdim 1; v <- ld R ((B + kdim) * ldR + B + ldR * (c0 + c) + r);
           st R ((B + kdim) * ldR + B + ldR * (c0 + c) + r) (fadd v (fdot x y))) R) R;
    Some (R, WR)) (R, WRm)) as ((R' & WR') & E & Z1 & Z2 & G); [lia| | |].
  - cbn [fst snd]. do 2 (split; [reflexivity|]). apply (colmat_ext _ _ _ _ _ _ HR). intros r c Hr0 Hc0. unfold M1, blkupd. destruct (Z.ltb_spec c (B + kdim + Z.min nc (0 * bs))); auto. destruct (Z.ltb_spec c (B + kdim)); [reflexivity|lia].
  - intros t (R1 & WR1) Ht (Z1 & Z2 & G). cbn [fst snd] in *.
    assert (Ht1 : 0 <= t * bs) by (apply Z.mul_nonneg_nonneg; lia). assert (Ht2 : t * bs <= (nt - 1) * bs) by (apply Z.mul_le_mono_nonneg_r; lia).
    assert (Ht3 : t * bs < nc) by lia.
    set (c0 := t * bs) in *. set (w := Z.min bs (nc - c0)). cbv zeta. replace (Z.min nc c0) with c0 in G by lia.
    assert (Hw : 0 < w /\ c0 + w <= nc /\ Z.min nc ((t + 1) * bs) = c0 + w) by (unfold w, c0 in *; lia).
    set (wr := fun c a => fdot (map (W a) (zrange 0 n)) (map (fun j => M (B + j) (B + kdim + c0 + c)) (zrange 0 n))).
    (* W^T R *)
    assert (Rw : forall c, 0 <= c < w -> 0 <= c * kdim /\ c * kdim + kdim <= zlen WR1).
    { intros c Hc0. split; [apply Z.mul_nonneg_nonneg; lia|]. assert ((c + 1) * kdim <= ncol * kdim) by (apply Z.mul_le_mono_nonneg_r; unfold nc in *; lia). lia. }
    match goal with |- context [zfor 0 w ?bd WR1] => destruct (zfor_inv (fun c (m : mem F) => zlen m = zlen WR1 /\ forall c' a, 0 <= c' < c -> 0 <= a < kdim -> ld m (c' * kdim + a) = Some (wr c' a)) 0 w bd WR1) as (WR2 & E2 & Z3 & G2); try lia end.
    { split; auto. lia. }
    { intros c m Hcc (Z3 & G2). pose proof (Rw c Hcc).
      destruct (zfor_cells (c * kdim) 0 kdim (wr c) (fun a WR => d <- dot Wm (a * n) R1 ((B + kdim) * ldR + B + ldR * (c0 + c)) n; st WR (c * kdim + a) d) m) as (m' & E3 & S3 & G3); try lia.
      { intros a m1 Ha _. rewrite (dot_spec Wm R1 (a * n) _ n (W a) (fun j => M (B + j) (B + kdim + c0 + c))); [reflexivity|intros; apply HW; lia|].
        intros j Hj. replace ((B + kdim) * ldR + B + ldR * (c0 + c) + j) with ((B + kdim + c0 + c) * ldR + (B + j)) by lia. rewrite G by (unfold nc, n in *; lia).
        unfold M1. destruct (Z.ltb_spec (B + kdim + c0 + c) (B + kdim + c0)); [lia|reflexivity]. }
      exists m'. split; auto. split; [rewrite (proj1 S3); auto|]. intros c' a Hc' Ha. destruct (Z.eq_dec c' c) as [->|N]; [apply G3; auto|].
      assert ((c' + 1) * kdim <= c * kdim) by (apply Z.mul_le_mono_nonneg_r; lia). rewrite (same_out_ld _ _ _ _ _ S3) by lia. apply G2; lia. }
    rewrite E2. cbn [bind].
    match goal with |- context [zfor 0 w ?bd R1] => destruct (zfor_inv (fun c (m : mem F) => zlen m = zlen R /\ colmat m ldR nrow ncol (M1 (c0 + c))) 0 w bd R1) as (R2 & E3 & Z4 & G3); try lia end.
    { split; auto. rewrite Z.add_0_r. auto. }
    { intros c m Hcc (Z4 & G3). set (cc := B + kdim + c0 + c).
      assert (Hcc2 : 0 <= cc < ncol) by (unfold cc, nc in *; lia).
      assert (Mc : forall r, M1 (c0 + c) r cc = M r cc) by (intros r; unfold M1, cc; destruct (Z.ltb_spec (B + kdim + c0 + c) (B + kdim + (c0 + c))); [lia|reflexivity]).
      pose proof (ld_range _ _ _ (G3 B cc ltac:(lia) Hcc2)). pose proof (ld_range _ _ _ (G3 (nrow - 1) cc ltac:(lia) Hcc2)).
      destruct (zfor_cells (cc * ldR + B) 0 n (fun j => blkupd B V W M (B + j) cc) (fun r R => x <- rds Vm r kdim n; y <- rds WR2 (c * kdim) kdim 1; v <- ld R ((B + kdim) * ldR + B + ldR * (c0 + c) + r);
           st R ((B + kdim) * ldR + B + ldR * (c0 + c) + r) (fadd v (fdot x y))) m) as (m' & E4 & S4 & G4); try (unfold n in *; lia).
      { intros j m1 Hj S. rewrite (rds_spec Vm j kdim n (fun a => V a j)) by (intros k Hkk; rewrite Z.add_comm; apply HV; lia). cbn [bind].
        rewrite (rds1_spec WR2 (c * kdim) kdim (wr c)) by (intros; apply G2; lia). cbn [bind].
        replace ((B + kdim) * ldR + B + ldR * (c0 + c) + j) with (cc * ldR + B + j) by (unfold cc; lia).
        rewrite (same_out_ld _ _ _ _ _ S) by lia. replace (cc * ldR + B + j) with (cc * ldR + (B + j)) at 1 by lia. rewrite G3 by (unfold n in *; lia). rewrite Mc. cbn [bind].
        unfold blkupd. destruct (Z.ltb_spec cc (B + kdim)); [unfold cc in *; lia|]. destruct (Z.ltb_spec (B + j) B); [lia|]. cbn [orb]. replace (B + j - B) with j by lia. reflexivity. }
      exists m'. split; auto. split; [rewrite (proj1 S4); auto|]. intros r c' Hr0 Hc0. rewrite Z.add_assoc. unfold M1. destruct (Z.eq_dec c' cc) as [->|N].
      - destruct (Z.ltb_spec cc (B + kdim + (c0 + c + 1))); [|unfold cc in *; lia]. destruct (Z.lt_ge_cases r B).
        + rewrite (same_out_ld _ _ _ _ _ S4) by lia. rewrite G3 by lia. rewrite Mc. unfold blkupd. destruct (Z.ltb_spec r B); [|lia]. now rewrite orb_true_r.
        + replace (cc * ldR + r) with (cc * ldR + B + (r - B)) by lia. rewrite G4 by (unfold n; lia). do 2 f_equal. lia.
      - rewrite (same_out_ld _ _ _ _ _ S4).
        2:{ intros HH. apply N. apply (cell_in ldR nrow cc B c' r n); unfold n in *; lia. }
        rewrite G3 by auto. unfold M1. destruct (Z.ltb_spec c' (B + kdim + (c0 + c))); destruct (Z.ltb_spec c' (B + kdim + (c0 + c + 1))); auto; unfold cc in *; lia. }
    rewrite E3. cbn [bind]. exists (R2, WR2). split; auto. cbn [fst snd]. split; auto. split; [lia|]. rewrite (proj2 (proj2 Hw)). exact G3.
  - exists (R', WR'). cbn [fst snd] in *. split; auto. split; auto. replace (Z.min nc (nt * bs)) with nc in G by lia. exact G.
Qed.

(** ** Block norms *)
Lemma zfor_fold {T} lo hi (body : Z -> T -> option T) (g : T -> Z -> T) t0 : lo <= hi -> (forall k t, lo <= k < hi -> body k t = Some (g t k)) -> zfor lo hi body t0 = Some (fold_left g (zrange lo hi) t0).
Proof.
  intros Hl Hb. destruct (zfor_inv (fun k t => t = fold_left g (zrange lo k) t0) lo hi body t0) as (t & E & ->); auto; try lia.
  - now rewrite zrange_empty by lia.
  - intros k t Hk ->. rewrite Hb by auto. eexists. split; [reflexivity|]. rewrite zrange_snoc by lia. now rewrite fold_left_app.
Qed.

Definition sumsq (f : Z -> F) (t0 : F) : F := fold_left (fun t k => fadd t (fmul (f k) (f k))) (zrange 0 kdim) t0.
Definition bnorm0 (cn : Z -> F) (j : Z) : F := fsqrt (sumsq (fun k => cn (kdim * j + k)) (flit 0%Q)).
Definition subsq (M : Z -> Z -> F) (B j : Z) (t0 : F) : F :=
  fold_left (fun t k0 => fold_left (fun t k1 => fsub t (fmul (M (B + k1) (j * kdim + k0)) (M (B + k1) (j * kdim + k0)))) (zrange 0 kdim) t) (zrange 0 kdim) t0.
Definition renormk (sn : F) (M : Z -> Z -> F) (bn : Z -> F) (i j : Z) : F :=
  if flt (bn j) sn then flit 0%Q else
  let tmp := subsq M (i * kdim) j (fmul (bn j) (bn j)) in
  if fle tmp (fast_thr dbl) then fsqrt (sumsq (fun k => fnrm2 (colv M ((i + 1) * kdim) (j * kdim + k) (nrow - (i + 1) * kdim))) (flit 0%Q)) else fsqrt tmp.

Lemma blk_norms_spec (bn : mem F) nblk cn : 0 < kdim -> 0 <= nblk -> holdsv bn (nblk * kdim) cn ->
  exists bn', blk_norms kdim nblk bn = Some (bn', fst (fpiv (bnorm0 cn) 0 nblk), snd (fpiv (bnorm0 cn) 0 nblk)) /\ zlen bn' = zlen bn /\ holdsv bn' nblk (bnorm0 cn).
Proof.
  intros Hk Hn H. unfold blk_norms.
  match goal with |- context [zfor 0 nblk ?bd ?s0] => destruct (zfor_inv (fun j (s : mem F * Z * F) => let '(b, piv, np) := s in zlen b = zlen bn /\ (forall c, j <= c < nblk * kdim -> ld b c = Some (cn c)) /\ (forall c, 0 <= c < j -> ld b c = Some (bnorm0 cn c)) /\ (piv, np) = fpiv (bnorm0 cn) 0 j) 0 nblk bd s0) as (((b & piv) & np) & E & Z1 & G1 & G2 & P); auto; try lia end.
  - split; auto. split; [intros; apply H; lia|]. split; [lia|]. reflexivity.
  - intros j ((b & piv) & np) Hj (Z1 & G1 & G2 & P).
    assert ((j + 1) * kdim <= nblk * kdim) by (apply Z.mul_le_mono_nonneg_r; lia). assert (j * 1 <= j * kdim) by (apply Z.mul_le_mono_nonneg_l; lia).
    rewrite (zfor_fold 0 kdim _ (fun t k => fadd t (fmul (cn (kdim * j + k)) (cn (kdim * j + k))))); try lia.
    2:{ intros k t Hkk. rewrite G1 by lia. reflexivity. }
    cbn [bind]. change (fold_left (fun t k => fadd t (fmul (cn (kdim * j + k)) (cn (kdim * j + k)))) (zrange 0 kdim) (flit 0%Q)) with (sumsq (fun k => cn (kdim * j + k)) (flit 0%Q)).
    change (fsqrt (sumsq (fun k => cn (kdim * j + k)) (flit 0%Q))) with (bnorm0 cn j).
    assert (0 <= j < zlen b). { pose proof (ld_range _ _ _ (G1 j ltac:(lia))). lia. }
    destruct (st_Some b j (bnorm0 cn j)) as (b2 & E2); [lia|]. rewrite E2. cbn [bind].
    eexists. split; [reflexivity|].
    assert (P2 : (if flt np (bnorm0 cn j) then (j, bnorm0 cn j) else (piv, np)) = fpiv (bnorm0 cn) 0 (j + 1)).
    { unfold fpiv in *. rewrite zrange_snoc by lia. rewrite fold_left_app. rewrite <- P. reflexivity. }
    assert (R1 : zlen b2 = zlen bn /\ (forall c, j + 1 <= c < nblk * kdim -> ld b2 c = Some (cn c)) /\ (forall c, 0 <= c < j + 1 -> ld b2 c = Some (bnorm0 cn c))).
    { split; [rewrite (st_zlen _ _ _ _ E2); auto|]. split; intros c Hc; rewrite (ld_st _ _ _ _ c E2); destruct (Z.eqb_spec j c); subst; auto; try lia; [apply G1|apply G2]; lia. }
    destruct R1 as (R1 & R2 & R3). destruct (flt np (bnorm0 cn j)); (split; [exact R1|]); (split; [exact R2|]); (split; [exact R3|exact P2]).
  - rewrite E. exists b. rewrite <- P. cbn [fst snd]. split; auto.
Qed.

Lemma blk_renorm_spec sn (R : mem F) M i (ord : list Z) (bn0 : mem F) nblk bn : 0 < kdim -> 0 <= i -> i * kdim + kdim <= nrow -> nrow <= ldR -> colmat R ldR nrow (nblk * kdim) M -> holdsv bn0 nblk bn ->
  Permutation ord (zrange (i + 1) nblk) ->
  exists bn', par_for ord (blk_renorm dbl kdim nrow ldR sn R i) bn0 = Some bn' /\ zlen bn' = zlen bn0 /\ holdsv bn' nblk (fun j => if j <=? i then bn j else renormk sn M bn i j).
Proof.
  intros Hk Hi Hr Hld HR Hb HP. assert (HB : 0 <= i * kdim) by (apply Z.mul_nonneg_nonneg; lia).
  set (dn := fun (done : list Z) j => if in_dec Z.eq_dec j done then true else false).
  destruct (par_for_inv (fun done (m : mem F) => zlen m = zlen bn0 /\ holdsv m nblk (fun j => if dn done j then renormk sn M bn i j else bn j)) ord (blk_renorm dbl kdim nrow ldR sn R i) bn0 []) as (bn' & E & Zb & G).
  - split; auto.
  - intros done j todo m Ed (Z1 & G). cbn [app] in Ed.
    assert (Hin : In j (zrange (i + 1) nblk)) by (apply (Permutation_in _ HP); rewrite Ed; apply in_or_app; right; now left). apply In_zrange in Hin.
    assert (Hnd : ~ In j done).
    { pose proof (Permutation_NoDup (Permutation_sym HP) (NoDup_zrange _ _)) as ND. rewrite Ed in ND. apply NoDup_remove_2 in ND. intros Hj. apply ND. apply in_or_app. now left. }
    assert (Dj : dn done j = false) by (unfold dn; destruct (in_dec Z.eq_dec j done); [contradiction|auto]).
    assert (Hjk : 0 <= j * kdim /\ j * kdim + kdim <= nblk * kdim).
    { split; [apply Z.mul_nonneg_nonneg; lia|]. assert ((j + 1) * kdim <= nblk * kdim) by (apply Z.mul_le_mono_nonneg_r; lia). lia. }
    unfold blk_renorm. pose proof (G j ltac:(lia)) as Gj. cbn beta in Gj. rewrite Dj in Gj. rewrite Gj. cbn [bind]. pose proof (ld_range _ _ _ Gj).
    destruct (st_Some m j (renormk sn M bn i j)) as (m2 & E2); [lia|].
    assert (Fin : zlen m2 = zlen bn0 /\ holdsv m2 nblk (fun j0 => if dn (done ++ [j]) j0 then renormk sn M bn i j0 else bn j0)).
    { split; [rewrite (st_zlen _ _ _ _ E2); auto|]. intros k Hkk. rewrite (ld_st _ _ _ _ k E2). destruct (Z.eqb_spec j k) as [<-|N].
      - assert (dn (done ++ [j]) j = true) as ->; auto. unfold dn. destruct (in_dec Z.eq_dec j (done ++ [j])) as [|HH]; auto. exfalso. apply HH. apply in_or_app. right. now left.
      - rewrite (G k Hkk). assert (dn (done ++ [j]) k = dn done k) as ->; auto. unfold dn. destruct (in_dec Z.eq_dec k (done ++ [j])) as [HH|HH]; destruct (in_dec Z.eq_dec k done) as [H'|H']; auto.
        + apply in_app_or in HH as [HH|[HH|[]]]; [contradiction|lia].
        + exfalso. apply HH. apply in_or_app. now left. }
    exists m2. split; [|exact Fin]. rewrite <- E2. unfold renormk. destruct (flt (bn j) sn); auto.
    rewrite (zfor_fold 0 kdim _ (fun t k0 => fold_left (fun t k1 => fsub t (fmul (M (i * kdim + k1) (j * kdim + k0)) (M (i * kdim + k1) (j * kdim + k0)))) (zrange 0 kdim) t)); try lia.
    2:{ intros k0 t Hk0. apply zfor_fold; [lia|]. intros k1 t1 Hk1. replace (i * kdim + j * kdim * ldR + k0 * ldR + k1) with ((j * kdim + k0) * ldR + (i * kdim + k1)) by lia. rewrite HR by lia. reflexivity. }
    cbn [bind]. cbv zeta. fold (subsq M (i * kdim) j (fmul (bn j) (bn j))). destruct (fle (subsq M (i * kdim) j (fmul (bn j) (bn j))) (fast_thr dbl)); auto.
    rewrite (zfor_fold 0 kdim _ (fun t k => fadd t (fmul (fnrm2 (colv M ((i + 1) * kdim) (j * kdim + k) (nrow - (i + 1) * kdim))) (fnrm2 (colv M ((i + 1) * kdim) (j * kdim + k) (nrow - (i + 1) * kdim)))))); try lia; auto.
    intros k t Hkk. rewrite (nrm2_spec R _ (nrow - (i + 1) * kdim) (fun l => M ((i + 1) * kdim + l) (j * kdim + k))); [reflexivity|].
    intros l Hl. replace ((j * kdim + k) * ldR + (i + 1) * kdim + l) with ((j * kdim + k) * ldR + ((i + 1) * kdim + l)) by lia. apply HR; lia.
  - exists bn'. cbn [app] in *. split; auto. split; auto. apply (holdsv_ext _ _ _ _ G). intros j Hj. unfold dn. destruct (in_dec Z.eq_dec j ord) as [H|H].
    + apply (Permutation_in _ HP) in H. apply In_zrange in H. destruct (Z.leb_spec j i); auto; lia.
    + destruct (Z.leb_spec j i); auto. exfalso. apply H. apply (Permutation_in _ (Permutation_sym HP)). apply In_zrange. lia.
Qed.

(** ** One step and the whole loop *)
Inductive fk_step (nblk stop_rank : Z) (sn : F) (i : Z) (s : @fst_ F) : @fst_ F -> Prop :=
| fk_done : f_rank s <> -1 -> fk_step nblk stop_rank sn i s s
| fk_stop : f_rank s = -1 -> flt (f_np s) sn || (stop_rank <=? i) = true -> fk_step nblk stop_rank sn i s (FSt (f_M s) (f_p s) (f_cn s) (f_piv s) (f_np s) (i * kdim))
| fk_blk Mk V W : f_rank s = -1 -> flt (f_np s) sn || (stop_rank <=? i) = false ->
    let M := fun r c => f_M s r (swb kdim i (f_piv s) c) in
    let bn := fun j => f_cn s (sw i (f_piv s) j) in
    hsteps M (i * kdim) kdim Mk V -> (forall b, 0 <= b < kdim -> wrel (nrow - i * kdim) V W b) ->
    let M' := blkupd (i * kdim) V W Mk in
    let bn' := fun j => if j <=? i then bn j else renormk sn M' bn i j in
    let pv := fpiv bn' (i + 1) nblk in
    fk_step nblk stop_rank sn i s (FSt M' (fun c => f_p s (swb kdim i (f_piv s) c)) bn' (fst pv) (snd pv) (-1)).

Definition qrelk (nblk Rn pn : Z) (i : Z) (m : qst) (s : @fst_ F) : Prop :=
  colmat (q_R m) ldR nrow (nblk * kdim) (f_M s) /\ holdsv (q_p m) (nblk * kdim) (f_p s) /\ holdsv (q_cn m) nblk (f_cn s) /\
  zlen (q_R m) = Rn /\ zlen (q_p m) = pn /\
  q_piv m = f_piv s /\ q_np m = f_np s /\ q_rank m = f_rank s /\ (i < nblk -> f_rank s = -1 -> i <= f_piv s < nblk).

Lemma qrk_step_sim nblk Rn pn stop_rank sn ord i m s : 0 < kdim -> ncol = nblk * kdim -> 0 <= i < nblk -> i * kdim + kdim <= nrow -> nrow <= ldR -> ncol * ldR <= Rn -> Permutation (ord i) (zrange (i + 1) nblk) -> qrelk nblk Rn pn i m s ->
  (exists m' s', qrk_step dbl kdim nrow ncol ldR stop_rank sn ord i m = Some m' /\ fk_step nblk stop_rank sn i s s' /\ qrelk nblk Rn pn (i + 1) m' s') \/
  (qrk_step dbl kdim nrow ncol ldR stop_rank sn ord i m = None /\ fdiv_undef).
Proof.
  intros Hk Hnc Hi Hnr Hld HRn HP (HR & Hp & Hc & Zr & Zp & Ev & En & Er & Hpv). unfold qrk_step. rewrite Er, En, Ev.
  destruct (Z.eqb_spec (f_rank s) (-1)) as [Erk|Erk]; cbn [negb].
  2:{ left. exists m, s. split; auto. split; [now constructor|]. repeat (split; [assumption|]). intros _ HH; contradiction. }
  assert (HB : 0 <= i * kdim) by (apply Z.mul_nonneg_nonneg; lia).
  assert (HBn : i * kdim + kdim <= ncol). { rewrite Hnc. assert ((i + 1) * kdim <= nblk * kdim) by (apply Z.mul_le_mono_nonneg_r; lia). lia. }
  destruct (flt (f_np s) sn || (stop_rank <=? i)) eqn:Estop.
  { left. eexists _, _. split; [reflexivity|]. split; [now apply fk_stop|]. unfold qrelk. cbn [q_R q_p q_cn q_piv q_np q_rank f_M f_p f_cn f_piv f_np f_rank]. repeat (split; [assumption || reflexivity|]). lia. }
  specialize (Hpv ltac:(lia) Erk). cbv zeta. set (piv := f_piv s) in *.
  set (M := fun r c => f_M s r (swb kdim i piv c)). set (bn := fun j => f_cn s (sw i piv j)).
  assert (SW : exists R p bn0, (if i =? piv then Some (q_R m, q_p m, q_cn m) else
     p <- swap_cells (q_p m) (i * kdim) (piv * kdim) kdim; bn <- swap_cells (q_cn m) i piv 1; R <- swap_cells (q_R m) (i * kdim * ldR) (piv * kdim * ldR) (ldR * kdim); Some (R, p, bn)) = Some (R, p, bn0) /\
     colmat R ldR nrow (nblk * kdim) M /\ holdsv p (nblk * kdim) (fun c => f_p s (swb kdim i piv c)) /\ holdsv bn0 nblk bn /\ zlen R = Rn /\ zlen p = pn).
  { destruct (Z.eqb_spec i piv) as [E|N].
    - eexists _, _, _. split; [reflexivity|]. assert (SI : forall c, sw i piv c = c) by (intros c; unfold sw; destruct (Z.eqb_spec c i); destruct (Z.eqb_spec c piv); lia).
      assert (SB : forall c, swb kdim i piv c = c) by (intros c; rewrite <- E; apply swb_id; auto).
      split; [apply (colmat_ext _ _ _ _ _ _ HR); intros; unfold M; now rewrite SB|]. split; [apply (holdsv_ext _ _ _ _ Hp); intros; now rewrite SB|].
      split; [apply (holdsv_ext _ _ _ _ Hc); intros; unfold bn; now rewrite SI|]. auto.
    - destruct (swap_blk_holdsv (q_p m) kdim nblk (f_p s) i piv) as (p & Ep & Zp' & Hp'); auto; try lia. rewrite Ep. cbn [bind].
      destruct (swap_holdsv (q_cn m) nblk (f_cn s) i piv) as (cn1 & Ec & Zc' & Hc'); auto; try lia. rewrite Ec. cbn [bind].
      destruct (swap_blk_cols (q_R m) ldR nrow kdim nblk (f_M s) i piv) as (R & ER & ZR' & HR'); auto; try lia. rewrite ER. cbn [bind].
      exists R, p, cn1. split; auto. split; auto. split; auto. split; auto. split; congruence. }
  destruct SW as (R & p & bn0 & -> & HR1 & Hp1 & Hc1 & Zr1 & Zp1). cbn [bind].
  rewrite <- Hnc in HR1, Hp1.
  destruct (blk_house_spec R M i) as [(R1 & V' & Mk & V & E1 & Z1 & ZV & H1 & H2 & H3)|(E1 & Bd)]; auto; try lia.
  2:{ right. rewrite E1. auto. }
  left. rewrite E1. cbn [bind].
  assert (Kn : kdim * (nrow - i * kdim) <= kdim * nrow) by (apply Z.mul_le_mono_nonneg_l; lia).
  destruct (blk_W_spec (nrow - i * kdim) V' (alloc (kdim * nrow)) (alloc nrow) (alloc nrow) V) as (W' & W & E2 & H4 & H5); try (rewrite ?zlen_alloc by (try apply Z.mul_nonneg_nonneg; lia); lia); auto.
  rewrite E2. cbn [bind].
  destruct (blk_update_spec (i * kdim) V' W' R1 (alloc (kdim * ncol)) V W Mk) as (R2 & E3 & Z3 & H6); auto.
  { rewrite zlen_alloc by (apply Z.mul_nonneg_nonneg; lia). lia. }
  rewrite E3. cbn [bind].
  destruct (blk_renorm_spec sn R2 (blkupd (i * kdim) V W Mk) i (ord i) bn0 nblk bn) as (bn2 & E4 & Z4 & H7); auto; try lia.
  { rewrite <- Hnc. auto. }
  rewrite E4. cbn [bind].
  assert (ncol / kdim = nblk) as -> by (rewrite Hnc; apply Z.div_mul; lia).
  set (M' := blkupd (i * kdim) V W Mk) in *. set (bn' := fun j => if j <=? i then bn j else renormk sn M' bn i j) in *.
  rewrite (find_pivot_spec bn2 (i + 1) nblk bn') by (try lia; intros; apply H7; lia). cbn [bind].
  pose proof (fpiv_range bn' (i + 1) nblk) as PR.
  pose proof (fk_blk nblk stop_rank sn i s Mk V W Erk Estop H2 H5) as FS. cbv zeta in FS. fold piv in FS. fold M' in FS. fold bn in FS. fold bn' in FS.
  destruct (fpiv bn' (i + 1) nblk) as (pv, np) eqn:Epv. cbn [fst snd bind] in *.
  eexists _, _. split; [reflexivity|]. split; [exact FS|]. unfold qrelk. cbn [q_R q_p q_cn q_piv q_np q_rank f_M f_p f_cn f_piv f_np f_rank].
  rewrite Hnc in H6, Hp1. split; [exact H6|]. split; [exact Hp1|]. split; [exact H7|]. split; [lia|]. split; [auto|]. do 3 (split; [reflexivity|]). intros Hlt _. auto.
Qed.

Definition fk_init (nblk : Z) (A : Z -> Z -> F) : @fst_ F :=
  let bn := bnorm0 (fun c => fnrm2 (colv A 0 c nrow)) in
  let pv := fpiv bn 0 nblk in FSt A (fun c => c) bn (fst pv) (snd pv) (-1).
Inductive fk_reach (nblk stop_rank : Z) (sn : F) (A : Z -> Z -> F) : Z -> @fst_ F -> Prop :=
| fkr_0 : fk_reach nblk stop_rank sn A 0 (fk_init nblk A)
| fkr_S i s s' : fk_reach nblk stop_rank sn A i s -> 0 <= i < Z.min nrow ncol / kdim -> fk_step nblk stop_rank sn i s s' -> fk_reach nblk stop_rank sn A (i + 1) s'.
Definition final_rank_k (s : @fst_ F) : Z := if f_rank s =? -1 then Z.min nrow ncol / kdim * kdim else f_rank s.

Theorem pivot_qr_kdim_sim nblk rel tol_rank tol_norm ord0 ord (R : mem F) A (p : mem Z) : 0 < kdim -> 0 <= nblk -> ncol = nblk * kdim -> 0 <= nrow <= ldR -> ncol * ldR <= zlen R ->
  Permutation ord0 (zrange 0 ncol) -> (forall i, 0 <= i < Z.min nrow ncol / kdim -> Permutation (ord i) (zrange (i + 1) nblk)) -> colmat R ldR nrow ncol A -> ncol <= zlen p ->
  let sn := stop_norm dbl rel nrow tol_norm (f_np (fk_init nblk A)) in
  (exists R' p' s, pivot_qr_kdim dbl rel kdim nrow ncol ldR tol_rank tol_norm ord0 ord R p = Some (R', p', final_rank_k s) /\
      zlen R' = zlen R /\ zlen p' = zlen p /\ colmat R' ldR nrow ncol (f_M s) /\ holdsv p' ncol (f_p s) /\
      fk_reach nblk (Z.min (Z.min nrow ncol / kdim) (Z.quot tol_rank kdim)) sn A (Z.min nrow ncol / kdim) s) \/
  (pivot_qr_kdim dbl rel kdim nrow ncol ldR tol_rank tol_norm ord0 ord R p = None /\ fdiv_undef).
Proof.
  intros Hk Hnb Hnc Hn HRn HP0 HP HR Hp sn. unfold pivot_qr_kdim. assert (Hc0 : 0 <= ncol) by (rewrite Hnc; apply Z.mul_nonneg_nonneg; lia).
  destruct (zfor_cells 0 0 ncol (fun j => j) (fun j p => st p j j) p) as (p1 & E1 & S1 & G1); auto; try lia. rewrite E1. cbn [bind].
  set (cn := fun c => fnrm2 (colv A 0 c nrow)).
  destruct (par_for_inv (fun done (m : mem F) => zlen m = ncol /\ forall j, In j done -> ld m j = Some (cn j)) ord0 (qrk_init nrow ldR R) (alloc ncol) []) as (bn & E2 & Z2 & G2).
  { split; [apply zlen_alloc; lia|]. intros j []. }
  { intros done j todo m Ed (Z2 & G2). cbn [app] in Ed.
    assert (Hin : In j (zrange 0 ncol)) by (apply (Permutation_in _ HP0); rewrite Ed; apply in_or_app; right; now left). apply In_zrange in Hin.
    unfold qrk_init. rewrite (nrm2_spec R (j * ldR) nrow (fun k => A (0 + k) j)) by (intros k Hkk; rewrite HR by lia; do 2 f_equal; lia). cbn [bind]. fold (colv A 0 j nrow). fold (cn j).
    destruct (st_Some m j (cn j)) as (m2 & E3); [lia|]. exists m2. split; auto. split; [rewrite (st_zlen _ _ _ _ E3); auto|]. intros k Hkk. rewrite (ld_st _ _ _ _ k E3). destruct (Z.eqb_spec j k) as [->|]; auto.
    apply in_app_or in Hkk as [Hkk|[Hkk|[]]]; [auto|lia]. }
  cbn [app] in G2. rewrite E2. cbn [bind].
  assert (ncol / kdim = nblk) as -> by (rewrite Hnc; apply Z.div_mul; lia).
  destruct (blk_norms_spec bn nblk cn Hk Hnb) as (bn1 & E3 & Z3 & G3).
  { intros j Hj. apply G2. apply (Permutation_in _ (Permutation_sym HP0)). apply In_zrange. lia. }
  rewrite E3. cbn [bind]. change (snd (fpiv (bnorm0 cn) 0 nblk)) with (f_np (fk_init nblk A)). change (fst (fpiv (bnorm0 cn) 0 nblk)) with (f_piv (fk_init nblk A)). fold sn.
  set (sr := Z.min (Z.min nrow ncol / kdim) (Z.quot tol_rank kdim)). set (mi := Z.min nrow ncol / kdim).
  assert (Hmi : 0 <= mi /\ mi * kdim <= nrow /\ mi <= nblk).
  { unfold mi. assert (0 <= Z.min nrow ncol / kdim) by (apply Z.div_pos; lia). pose proof (Z.mul_div_le (Z.min nrow ncol) kdim Hk). split; [lia|]. split; [lia|].
    assert (Z.min nrow ncol / kdim <= ncol / kdim) by (apply Z.div_le_mono; lia). assert (ncol / kdim = nblk) by (rewrite Hnc; apply Z.div_mul; lia). lia. }
  destruct (zfor_inv_or (fun i m => exists s, fk_reach nblk sr sn A i s /\ qrelk nblk (zlen R) (zlen p) i m s) fdiv_undef 0 mi (qrk_step dbl kdim nrow ncol ldR sr sn ord) (QSt R p1 bn1 (f_piv (fk_init nblk A)) (f_np (fk_init nblk A)) (-1))) as [(m & E4 & s & H1 & H2)|(E4 & Bd)]; try lia.
  - exists (fk_init nblk A). split; [constructor|]. unfold qrelk. cbn [q_R q_p q_cn q_piv q_np q_rank f_M f_p f_cn f_piv f_np f_rank fk_init]. rewrite <- Hnc.
    split; [exact HR|]. split; [intros j Hj; apply G1; auto|]. split; [exact G3|]. split; [auto|]. split; [apply S1|]. do 3 (split; [reflexivity|]). intros Hlt _. apply fpiv_range. auto.
  - intros i m Hi (s & H1 & H2). assert ((i + 1) * kdim <= mi * kdim) by (apply Z.mul_le_mono_nonneg_r; lia).
    destruct (qrk_step_sim nblk (zlen R) (zlen p) sr sn ord i m s) as [(m' & s' & E5 & F5 & Q5)|(E5 & Bd)]; auto; try lia.
    left. exists m'. split; auto. exists s'. split; auto. apply (fkr_S _ _ _ _ i s s'); [auto|exact Hi|auto].
  - left. rewrite E4. cbn [bind]. destruct H2 as (Q1 & Q2 & Q3 & Q4 & Q5 & Q6 & Q7 & Q8 & Q9). rewrite <- Hnc in Q1, Q2. exists (q_R m), (q_p m), s. unfold final_rank_k. rewrite Q8. fold mi. split; [reflexivity|]. split; [exact Q4|]. split; [exact Q5|]. split; [exact Q1|]. split; [exact Q2|exact H1].
  - right. rewrite E4. auto.
Qed.
End QRk.
