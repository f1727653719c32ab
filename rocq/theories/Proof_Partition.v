(** One subdivision step of the bisection. *)
From Coq Require Import ZArith QArith List Lia Bool Permutation.
From Verif Require Import Base Mem Num Spec_Utils Proof_Utils Proof_Dense Proof_Bucket Model_Partition.
Import ListNotations.
Open Scope Z_scope.

Ltac sto m' E := match goal with |- context [bind (st ?m ?i ?v) _] =>
  destruct (st_Some m i v) as [m' E]; [|rewrite E; cbn [bind]] end.

Section Step.
Context {F : num}.

(** Value stored at a cell (0 when there is none). *)
Definition vd (m : mem F) (i : Z) : F := match ld m i with Some v => v | None => nlit 0 end.
Lemma ld_vd (m : mem F) i v : ld m i = Some v -> ld m i = Some (vd m i).
Proof. unfold vd. now intros ->. Qed.

(** Bit [j] of the child a point with coordinates [x] falls in. *)
Definition side (bx : mem F) (pt_dim : Z) (x : Z -> F) (j : Z) : Z :=
  if nle (vd bx (pt_dim + j)) (nmul (nlit 2) (nsub (x j) (vd bx j))) then 1 else 0.
Definition octant (bx : mem F) (pt_dim : Z) (x : Z -> F) (k : Z) : Z :=
  zsumf (fun j => side bx pt_dim x j * 2 ^ j) 0 k.
(** Coordinates of the point in column [i]. *)
Definition ptof (coord : mem F) (n_point i : Z) (j : Z) : F := vd coord (j * n_point + i).

Lemma side_01 bx d x j : side bx d x j = 0 \/ side bx d x j = 1.
Proof. unfold side. destruct (nle _ _); auto. Qed.

Lemma octant_range bx d x k : 0 <= k -> 0 <= octant bx d x k < 2 ^ k.
Proof.
  intros Hk. pattern k. apply natlike_ind; auto.
  - unfold octant. rewrite zsumf_empty by lia. lia.
  - intros j Hj IH. unfold Z.succ, octant in *. rewrite zsumf_snoc by lia. rewrite Z.pow_add_r by lia.
    destruct (side_01 bx d x j) as [-> | ->]; lia.
Qed.

Lemma octant_inj bx d x y k : 0 <= k -> octant bx d x k = octant bx d y k ->
  forall j, 0 <= j < k -> side bx d x j = side bx d y j.
Proof.
  intros Hk. pattern k. apply natlike_ind; auto.
  - intros; lia.
  - intros i Hi IH E j Hj. unfold Z.succ in *.
    pose proof (octant_range bx d x i Hi). pose proof (octant_range bx d y i Hi).
    unfold octant in E. rewrite !zsumf_snoc in E by lia. fold (octant bx d x i) in E. fold (octant bx d y i) in E.
    assert (side bx d x i = side bx d y i).
    { destruct (side_01 bx d x i) as [Ex | Ex], (side_01 bx d y i) as [Ey | Ey]; rewrite Ex, Ey in *; lia. }
    destruct (Z.eq_dec j i) as [->|]; auto. apply IH; [|lia].
    rewrite H1 in E. lia.
Qed.

Context (pt_dim xpt_dim n_point s npts : Z).
Hypothesis Hd : 1 <= pt_dim.
Hypothesis Hxd : pt_dim <= xpt_dim.
Hypothesis Hs : 0 <= s.
Hypothesis Hnp : 1 <= npts.
Hypothesis Hse : s + npts <= n_point.

Definition box_init (bx : mem F) : Prop := zlen bx = pt_dim * 2 /\ forall k, 0 <= k < pt_dim * 2 -> exists v, ld bx k = Some v.
Definition coord_init (coord : mem F) : Prop := zlen coord = n_point * xpt_dim /\
  forall k, 0 <= k < n_point * xpt_dim -> exists v, ld coord k = Some v.

Lemma cell_in j i : 0 <= j < xpt_dim -> 0 <= i < n_point -> 0 <= j * n_point + i < n_point * xpt_dim.
Proof. intros. nia. Qed.

Lemma box_vd bx k : box_init bx -> 0 <= k < pt_dim * 2 -> ld bx k = Some (vd bx k).
Proof. intros [_ H] Hk. destruct (H k Hk) as [v Hv]. eapply ld_vd; eauto. Qed.
Lemma coord_vd co j i : coord_init co -> 0 <= j < xpt_dim -> 0 <= i < n_point -> ld co (j * n_point + i) = Some (ptof co n_point i j).
Proof. intros [_ H] Hj Hi. destruct (H (j * n_point + i) (cell_in j i Hj Hi)) as [v Hv]. eapply ld_vd; eauto. Qed.

Section Box.
Context (coord bx : mem F).
Hypothesis Hbx : box_init bx.
Hypothesis Hco : coord_init coord.

Let pt i := ptof coord n_point (s + i).
Let sd i := side bx pt_dim (pt i).
Let oc i := octant bx pt_dim (pt i).

Lemma child_indices_spec : exists rel ci : mem Z, child_indices coord bx n_point s npts pt_dim = Some (rel, ci) /\
  zlen rel = npts * pt_dim /\ zlen ci = npts /\
  (forall j i, 0 <= j < pt_dim -> 0 <= i < npts -> ld rel (j * npts + i) = Some (sd i j)) /\
  (forall i, 0 <= i < npts -> ld ci i = Some (oc i pt_dim)).
Proof.
  unfold child_indices.
  destruct (zfill_spec (fun _ => 0) (fun i (c : mem Z) => st c i 0) 0 npts (alloc npts)) as (c0 & E0 & Z0 & L0); auto; try lia.
  { rewrite zlen_alloc; lia. }
  rewrite E0. cbn [bind]. rewrite zlen_alloc in Z0 by lia.
  match goal with |- context [zfor 0 pt_dim ?b ?init] =>
    destruct (zfor_inv (fun j (x : mem Z * mem Z * Z) => let '(rel, ci, pow2) := x in
       pow2 = 2 ^ j /\ zlen rel = npts * pt_dim /\ zlen ci = npts /\
       (forall j' i, 0 <= j' < j -> 0 <= i < npts -> ld rel (j' * npts + i) = Some (sd i j')) /\
       (forall i, 0 <= i < npts -> ld ci i = Some (oc i j))) 0 pt_dim b init) as ([[rel ci] pw] & E & P0 & P1 & P2 & P3 & P4) end.
  - lia.
  - split; auto. split; [rewrite zlen_alloc; nia|]. split; auto. split; [intros; lia|].
    intros i Hi. rewrite L0. destruct (Z.leb_spec 0 i), (Z.ltb_spec i npts); simpl; auto; lia.
  - intros j [[rel ci] pw] Hj (P0 & P1 & P2 & P3 & P4).
    rewrite (box_vd bx j) by (auto; lia). cbn [bind]. rewrite (box_vd bx (pt_dim + j)) by (auto; lia). cbn [bind].
    match goal with |- context [zfor 0 npts ?b ?init] =>
      destruct (zfor_inv (fun i (x : mem Z * mem Z) => let '(rel, ci) := x in
         zlen rel = npts * pt_dim /\ zlen ci = npts /\
         (forall j' i', 0 <= j' < j -> 0 <= i' < npts -> ld rel (j' * npts + i') = Some (sd i' j')) /\
         (forall i', 0 <= i' < i -> ld rel (j * npts + i') = Some (sd i' j)) /\
         (forall i', 0 <= i' < npts -> ld ci i' = Some (oc i' (if i' <? i then j + 1 else j)))) 0 npts b init) as ([rel1 ci1] & E1 & Q1 & Q2 & Q3 & Q4 & Q5) end.
    + lia.
    + split; auto. split; auto. split; auto. split; [intros; lia|].
      intros i Hi. destruct (Z.ltb_spec i 0); [lia|]. auto.
    + intros i [rel1 ci1] Hi (Q1 & Q2 & Q3 & Q4 & Q5).
      replace (j * n_point + s + i) with (j * n_point + (s + i)) by lia.
      rewrite (coord_vd coord) by (auto; lia). cbn [bind].
      change (if nle _ _ then 1 else 0) with (sd i j).
      sto rel2 Er. { rewrite Q1. nia. }
      rewrite Q5 by lia. destruct (Z.ltb_spec i i); [lia|]. cbn [bind].
      sto ci2 Ec. { lia. }
      eexists. split; [reflexivity|]. cbn beta iota.
      rewrite (st_zlen _ _ _ _ Er), (st_zlen _ _ _ _ Ec). split; auto. split; auto. split; [|split].
      * intros j' i' Hj' Hi'. rewrite (ld_st _ _ _ _ _ Er). destruct (Z.eqb_spec (j * npts + i) (j' * npts + i')); [nia|]. auto.
      * intros i' Hi'. rewrite (ld_st _ _ _ _ _ Er). destruct (Z.eqb_spec (j * npts + i) (j * npts + i')).
        { now replace i' with i by lia. } { apply Q4. lia. }
      * intros i' Hi'. rewrite (ld_st _ _ _ _ _ Ec). destruct (Z.eqb_spec i i').
        { subst i'. destruct (Z.ltb_spec i (i + 1)); [|lia]. unfold oc, octant. rewrite zsumf_snoc by lia. rewrite P0. reflexivity. }
        { rewrite Q5 by lia. do 2 f_equal. destruct (Z.ltb_spec i' i), (Z.ltb_spec i' (i + 1)); auto; lia. }
    + rewrite E1. cbn [bind]. eexists. split; [reflexivity|]. cbn beta iota. split; [rewrite P0, Z.pow_add_r by lia; lia|].
      split; auto. split; auto. split.
      * intros j' i' Hj' Hi'. destruct (Z.eq_dec j' j) as [->|]; [apply Q4; lia|]. apply Q3; lia.
      * intros i Hi. rewrite Q5 by lia. destruct (Z.ltb_spec i npts); [auto|lia].
  - rewrite E. cbn [bind]. exists rel, ci. auto.
Qed.

Let mc := Z.shiftl 1 pt_dim.
Lemma mc_pow : mc = 2 ^ pt_dim. Proof. unfold mc. rewrite Z.shiftl_1_l. reflexivity. Qed.
Lemma mc_pos : 1 <= mc.
Proof. rewrite mc_pow. pose proof (Z.pow_pos_nonneg 2 pt_dim ltac:(lia) ltac:(lia)). lia. Qed.

Let cl i := oc i pt_dim.
Lemma cl_range i : 0 <= cl i < mc.
Proof. rewrite mc_pow. apply octant_range. lia. Qed.

Let cnt := bcnt cl npts.
Let off := boff npts cl.

Lemma child_counts_spec (rel ci : mem Z) :
  zlen rel = npts * pt_dim -> zlen ci = npts ->
  (forall j i, 0 <= j < pt_dim -> 0 <= i < npts -> ld rel (j * npts + i) = Some (sd i j)) ->
  (forall i, 0 <= i < npts -> ld ci i = Some (cl i)) ->
  exists nn sub : mem Z, child_counts rel ci npts pt_dim mc = Some (nn, sub) /\ zlen nn = mc /\ zlen sub = mc * pt_dim /\
    (forall c, 0 <= c < mc -> ld nn c = Some (cnt c)) /\
    (forall i j, 0 <= i < npts -> 0 <= j < pt_dim -> ld sub (j * mc + cl i) = Some (sd i j)).
Proof.
  intros Zr Zc Lr Lc. pose proof mc_pos as Hmc. unfold child_counts.
  destruct (zfill_spec (fun _ => 0) (fun i (c : mem Z) => st c i 0) 0 mc (alloc mc)) as (n0 & E0 & Z0 & L0); auto; try lia.
  { rewrite zlen_alloc; lia. }
  rewrite E0. cbn [bind]. rewrite zlen_alloc in Z0 by lia.
  match goal with |- context [zfor 0 npts ?b ?init] =>
    destruct (zfor_inv (fun i (x : mem Z * mem Z) => let '(nn, sub) := x in
       zlen nn = mc /\ zlen sub = mc * pt_dim /\ (forall c, 0 <= c < mc -> ld nn c = Some (bcnt cl i c)) /\
       (forall i' j, 0 <= i' < i -> 0 <= j < pt_dim -> ld sub (j * mc + cl i') = Some (sd i' j))) 0 npts b init) as ([nn sub] & E & P1 & P2 & P3 & P4) end.
  - lia.
  - split; auto. split; [rewrite zlen_alloc; nia|]. split; [|intros; lia].
    intros c Hc. rewrite L0. destruct (Z.leb_spec 0 c), (Z.ltb_spec c mc); simpl; auto; lia.
  - intros i [nn sub] Hi (P1 & P2 & P3 & P4). rewrite Lc by lia. cbn [bind].
    pose proof (cl_range i) as R. rewrite P3 by lia. cbn [bind]. sto nn1 E1. { lia. }
    match goal with |- context [zfor 0 pt_dim ?b ?init] =>
      destruct (zfor_inv (fun j (x : mem Z) => zlen x = mc * pt_dim /\
        (forall j', 0 <= j' < j -> ld x (j' * mc + cl i) = Some (sd i j')) /\
        (forall j' c, 0 <= j' < pt_dim -> 0 <= c < mc -> (c <> cl i) -> ld x (j' * mc + c) = ld sub (j' * mc + c))) 0 pt_dim b init)
        as (sub1 & E2 & Q1 & Q2 & Q3) end.
    + lia.
    + split; auto. split; auto. intros; lia.
    + intros j x Hj (Q1 & Q2 & Q3). rewrite Lr by lia. cbn [bind].
      destruct (st_Some x (j * mc + cl i) (sd i j)) as [x' Ex]. { rewrite Q1. nia. }
      exists x'. split; auto. split; [rewrite (st_zlen _ _ _ _ Ex); auto|]. split.
      * intros j' Hj'. rewrite (ld_st _ _ _ _ _ Ex). destruct (Z.eqb_spec (j * mc + cl i) (j' * mc + cl i)).
        { assert (j = j') by nia. subst; auto. } { apply Q2. assert (j <> j') by congruence. lia. }
      * intros j' c Hj' Hc Hne. rewrite (ld_st _ _ _ _ _ Ex). destruct (Z.eqb_spec (j * mc + cl i) (j' * mc + c)); auto.
        destruct (row_col_inj mc mc j (cl i) j' c) as [_ ?]; auto; try lia.
    + rewrite E2. cbn [bind]. eexists. split; [reflexivity|]. cbn beta iota.
      split; [rewrite (st_zlen _ _ _ _ E1); auto|]. split; auto. split.
      * intros c Hc. rewrite (ld_st _ _ _ _ _ E1), bcnt_snoc by lia. destruct (Z.eqb_spec (cl i) c).
        { now subst. } { rewrite P3 by lia. f_equal. lia. }
      * intros i' j Hi' Hj. destruct (Z.eq_dec (cl i') (cl i)) as [Eq|Ne].
        { rewrite Eq, Q2 by lia. f_equal. unfold sd. symmetry. apply (octant_inj bx pt_dim _ _ pt_dim); auto; lia. }
        { rewrite Q3 by (auto; pose proof (cl_range i'); lia). apply P4; auto.
          assert (i' <> i) by congruence. lia. }
  - exists nn, sub. auto.
Qed.

Lemma displacements_spec (nn d : mem Z) : zlen d = mc + 1 -> (forall c, 0 <= c < mc -> ld nn c = Some (cnt c)) ->
  exists d' : mem Z, displacements nn mc d = Some d' /\ zlen d' = mc + 1 /\ forall c, 0 <= c <= mc -> ld d' c = Some (off c).
Proof.
  intros Zd Ln. pose proof mc_pos as Hmc. unfold displacements. sto d0 E0. { lia. }
  match goal with |- context [zfor 1 (mc + 1) ?b ?init] =>
    destruct (zfor_inv (fun i (x : mem Z) => zlen x = mc + 1 /\ forall c, 0 <= c < i -> ld x c = Some (off c)) 1 (mc + 1) b init)
      as (d1 & E1 & Z1 & L1) end.
  - lia.
  - split; [rewrite (st_zlen _ _ _ _ E0); auto|]. intros c Hc. rewrite (ld_st _ _ _ _ _ E0).
    replace c with 0 by lia. reflexivity.
  - intros i x Hi [P1 P2]. rewrite P2 by lia. cbn [bind]. rewrite Ln by lia. cbn [bind].
    destruct (st_Some x i (off (i - 1) + cnt (i - 1)) ltac:(lia)) as [x' E]. exists x'. split; auto.
    split; [rewrite (st_zlen _ _ _ _ E); auto|]. intros c Hc. rewrite (ld_st _ _ _ _ _ E). destruct (Z.eqb_spec i c).
    + subst c. f_equal. unfold off. replace i with (i - 1 + 1) at 3 by lia. rewrite boff_snoc by lia. reflexivity.
    + apply P2. lia.
  - exists d1. split; auto. split; auto. intros; apply L1; lia.
Qed.

(** New position of the point in column [q]. *)
Definition newpos (q : Z) : Z := if (s <=? q) && (q <? s + npts) then s + bdst npts cl (q - s) else q.

Lemma newpos_in i : 0 <= i < npts -> newpos (s + i) = s + bdst npts cl i.
Proof.
  intros. unfold newpos. destruct (Z.leb_spec s (s + i)), (Z.ltb_spec (s + i) (s + npts)); simpl; try lia.
  do 2 f_equal. lia.
Qed.

Lemma newpos_permutes : permutes s (s + npts - 1) newpos.
Proof.
  pose proof mc_pos as Hmc.
  assert (B : forall i, 0 <= i < npts -> 0 <= bdst npts cl i < npts).
  { intros. apply bdst_bound with (m := mc); auto; try lia. intros; apply cl_range. }
  split; [|split].
  - intros i Hi. replace i with (s + (i - s)) at 1 2 by lia. rewrite newpos_in by lia. specialize (B (i - s)). lia.
  - intros i Hi. unfold newpos. destruct (Z.leb_spec s i), (Z.ltb_spec i (s + npts)); simpl; auto; lia.
  - intros i j. unfold newpos.
    destruct (Z.leb_spec s i), (Z.ltb_spec i (s + npts)), (Z.leb_spec s j), (Z.ltb_spec j (s + npts)); simpl; intros E;
      try pose proof (B (i - s) ltac:(lia)); try pose proof (B (j - s) ltac:(lia)); try lia.
    assert (i - s = j - s); [|lia]. apply (bdst_inj npts mc cl); auto; try lia. intros; apply cl_range.
Qed.

Lemma bucket_points_spec (ci displs : mem Z) (p : pstate F) :
  p_coord p = coord -> zlen (p_ctmp p) = n_point * xpt_dim -> zlen (p_idx p) = n_point -> zlen (p_itmp p) = n_point ->
  zlen displs = mc + 1 -> (forall c, 0 <= c <= mc -> ld displs c = Some (off c)) ->
  (forall i, 0 <= i < npts -> ld ci i = Some (cl i)) ->
  exists d p', bucket_points xpt_dim n_point s npts ci displs p = Some (d, p') /\ zlen d = mc + 1 /\
    zlen (p_coord p') = n_point * xpt_dim /\ zlen (p_ctmp p') = n_point * xpt_dim /\
    zlen (p_idx p') = n_point /\ zlen (p_itmp p') = n_point /\
    p_maxlevel p' = p_maxlevel p /\ p_po p' = p_po p /\ p_nleaf p' = p_nleaf p /\
    (forall j q, 0 <= j < xpt_dim -> 0 <= q < n_point -> getz (p_coord p') (j * n_point + newpos q) = getz coord (j * n_point + q)) /\
    (forall q, 0 <= q < n_point -> getz (p_idx p') (newpos q) = getz (p_idx p) q).
Proof.
  intros Ep Zt Zi Zit Zd Ld Lc. pose proof mc_pos as Hmc. destruct Hco as [Zco _]. unfold bucket_points. rewrite Ep.
  assert (B : forall i, 0 <= i < npts -> 0 <= bdst npts cl i < npts).
  { intros. apply bdst_bound with (m := mc); auto; try lia. intros; apply cl_range. }
  assert (I : forall i i', 0 <= i < npts -> 0 <= i' < npts -> bdst npts cl i = bdst npts cl i' -> i = i').
  { intros. apply (bdst_inj npts mc cl); auto; try lia. intros; apply cl_range. }
  (* copy to coord_tmp *)
  match goal with |- context [zfor 0 xpt_dim ?b (p_ctmp p)] =>
    destruct (rows_spec xpt_dim npts (fun j => j * n_point + s) coord (p_ctmp p) s n_point b) as (ct & E1 & Z1 & C1 & _) end.
  { rewrite Zt. unfold Spec_Dense.fits. repeat split; try lia; nia. }
  { intros j Hj. rewrite Zco. nia. }
  { intros j d Hj. cbn beta zeta. f_equal. lia. }
  rewrite E1. cbn [bind]. rewrite Zt in Z1.
  destruct (mcpy_spec (p_itmp p) s (p_idx p) s npts) as (it & E2 & Z2 & C2); try lia.
  rewrite E2. cbn [bind].
  (* scatter *)
  match goal with |- context [zfor 0 npts ?b ?init] =>
    destruct (zfor_inv (fun i (x : mem Z * mem F * mem Z) => let '(d, co, ix) := x in
       zlen d = mc + 1 /\ zlen co = n_point * xpt_dim /\ zlen ix = n_point /\
       (forall c, 0 <= c < mc -> ld d c = Some (off c + bcnt cl i c)) /\
       (forall i' j, 0 <= i' < i -> 0 <= j < xpt_dim -> getz co (j * n_point + (s + bdst npts cl i')) = getz coord (j * n_point + (s + i'))) /\
       (forall i', 0 <= i' < i -> getz ix (s + bdst npts cl i') = getz (p_idx p) (s + i')) /\
       (forall j q, 0 <= j < xpt_dim -> 0 <= q < n_point -> ~ (s <= q < s + npts) -> getz co (j * n_point + q) = getz coord (j * n_point + q)) /\
       (forall q, ~ (s <= q < s + npts) -> getz ix q = getz (p_idx p) q)) 0 npts b init)
      as ([[d co] ix] & E3 & P1 & P2 & P3 & P4 & P5 & P6 & P7 & P8) end.
  - lia.
  - repeat (split; [solve [auto]|]). split.
    { intros c Hc. rewrite Ld by lia. rewrite bcnt_0. f_equal. lia. }
    repeat split; auto; intros; lia.
  - intros i [[d co] ix] Hi (P1 & P2 & P3 & P4 & P5 & P6 & P7 & P8).
    rewrite Lc by lia. cbn [bind]. pose proof (cl_range i) as R. rewrite P4 by lia. cbn [bind].
    change (off (cl i) + bcnt cl i (cl i)) with (bdst npts cl i). pose proof (B i Hi) as Bi.
    match goal with |- context [zfor 0 xpt_dim ?b co] =>
      destruct (zfor_inv (fun j (x : mem F) => zlen x = n_point * xpt_dim /\
         (forall j', 0 <= j' < j -> getz x (j' * n_point + (s + bdst npts cl i)) = getz coord (j' * n_point + (s + i))) /\
         (forall j' q, 0 <= j' < xpt_dim -> 0 <= q < n_point -> q <> s + bdst npts cl i -> getz x (j' * n_point + q) = getz co (j' * n_point + q))) 0 xpt_dim b co)
        as (co1 & E4 & Q1 & Q2 & Q3) end.
    + lia. + repeat split; auto. intros; lia.
    + intros j x Hj (Q1 & Q2 & Q3). 
      replace (s + i + j * n_point) with (s + j * n_point + i) by lia. rewrite C1 by lia.
      pose proof (cell_in j (s + i) Hj ltac:(lia)) as Hcell.
      destruct (getz_in coord (j * n_point + s + i)) as [v Ev]; [lia|]. rewrite Ev. cbn [bind].
      pose proof (cell_in j (s + bdst npts cl i) Hj ltac:(lia)) as Hcell2.
      destruct (setz_Some x (s + bdst npts cl i + j * n_point) v) as [x' Ex]; [lia|].
      exists x'. split; auto. split; [rewrite (setz_zlen _ _ _ _ Ex); auto|]. split.
      * intros j' Hj'. rewrite (getz_setz _ _ _ _ _ Ex). destruct (Z.eqb_spec (s + bdst npts cl i + j * n_point) (j' * n_point + (s + bdst npts cl i))).
        { assert (j = j') by nia. subst j'. rewrite <- Ev. f_equal. lia. }
        { apply Q2. assert (j <> j'). { intros ->. lia. } lia. }
      * intros j' q Hj' Hq Hne. rewrite (getz_setz _ _ _ _ _ Ex). destruct (Z.eqb_spec (s + bdst npts cl i + j * n_point) (j' * n_point + q)); [|auto].
        destruct (row_col_inj n_point n_point j (s + bdst npts cl i) j' q); lia.
    + rewrite E4. cbn [bind]. rewrite C2. destruct (Z.leb_spec s (s + i)), (Z.ltb_spec (s + i) (s + npts)); try lia. cbn [andb].
      destruct (getz_in (p_idx p) (s + (s + i - s))) as [v Ev]; [lia|]. rewrite Ev. cbn [bind].
      destruct (setz_Some ix (s + bdst npts cl i) v) as [ix1 Ei]; [lia|]. rewrite Ei. cbn [bind].
      sto d1 Ed. { lia. }
      eexists. split; [reflexivity|]. cbn beta iota.
      rewrite (st_zlen _ _ _ _ Ed), (setz_zlen _ _ _ _ Ei). repeat (split; [solve [auto]|]). split; [|split; [|split; [|split]]].
      * intros c Hc. rewrite (ld_st _ _ _ _ _ Ed), bcnt_snoc by lia. destruct (Z.eqb_spec (cl i) c).
        { subst c. f_equal. unfold bdst. fold off. lia. } { rewrite P4 by lia. f_equal. lia. }
      * intros i' j Hi' Hj. destruct (Z.eq_dec i' i) as [->|]; [apply Q2; lia|].
        pose proof (B i' ltac:(lia)). rewrite Q3; [apply P5; lia|lia|lia|].
        intros E. assert (i' = i) by (apply I; lia). lia.
      * intros i' Hi'. rewrite (getz_setz _ _ _ _ _ Ei). destruct (Z.eqb_spec (s + bdst npts cl i) (s + bdst npts cl i')) as [E|].
        { assert (i = i') by (apply I; lia). subst i'. rewrite <- Ev. f_equal. lia. }
        { apply P6. assert (i <> i') by (intros ->; lia). lia. }
      * intros j q Hj Hq Hne. rewrite Q3 by lia. auto.
      * intros q Hne. rewrite (getz_setz _ _ _ _ _ Ei). destruct (Z.eqb_spec (s + bdst npts cl i) q); [lia|auto].
  - rewrite E3. cbn [bind]. eexists d, _. split; [reflexivity|]. cbn [p_coord p_ctmp p_idx p_itmp p_maxlevel p_po p_nleaf].
    repeat (split; [auto; lia|]). split.
    + intros j q Hj Hq. destruct (Z_le_dec s q), (Z_lt_dec q (s + npts)).
      { replace q with (s + (q - s)) at 1 2 by lia. rewrite newpos_in by lia. rewrite P5 by lia. reflexivity. }
      all: replace (newpos q) with q; [apply P7; auto; lia|].
      all: unfold newpos; destruct (Z.leb_spec s q), (Z.ltb_spec q (s + npts)); simpl; auto; lia.
    + intros q Hq. destruct (Z_le_dec s q), (Z_lt_dec q (s + npts)).
      { replace q with (s + (q - s)) at 1 2 by lia. rewrite newpos_in by lia. rewrite P6 by lia. reflexivity. }
      all: replace (newpos q) with q; [apply P8; auto; lia|].
      all: unfold newpos; destruct (Z.leb_spec s q), (Z.ltb_spec q (s + npts)); simpl; auto; lia.
Qed.


(** Boxes and ranges of the non-empty children. *)
Definition child_of (x : Z -> F) (b : mem F) : Prop :=
  forall j, 0 <= j < pt_dim ->
    vd b j = nsub (nadd (vd bx j) (nmul (nmul (nlit (1#2)) (vd bx (pt_dim + j))) (nlit (inject_Z (side bx pt_dim x j))))) (nlit (e10 1 12)) /\
    vd b (pt_dim + j) = nadd (nmul (nlit (1#2)) (vd bx (pt_dim + j))) (nlit (e10 2 12)).

Lemma sub_box_spec (sub : mem Z) i : 0 <= i < npts ->
  (forall j, 0 <= j < pt_dim -> ld sub (j * mc + cl i) = Some (sd i j)) ->
  exists b, sub_box bx sub pt_dim mc (cl i) = Some b /\ box_init b /\ child_of (pt i) b.
Proof.
  intros Hi Ls. unfold sub_box.
  match goal with |- context [zfor 0 pt_dim ?b ?init] =>
    destruct (zfor_inv (fun j (x : mem F) => zlen x = pt_dim * 2 /\ forall j', 0 <= j' < j ->
       ld x j' = Some (nsub (nadd (vd bx j') (nmul (nmul (nlit (1#2)) (vd bx (pt_dim + j'))) (nlit (inject_Z (sd i j'))))) (nlit (e10 1 12))) /\
       ld x (pt_dim + j') = Some (nadd (nmul (nlit (1#2)) (vd bx (pt_dim + j'))) (nlit (e10 2 12)))) 0 pt_dim b init) as (x & E & P1 & P2) end.
  - lia.
  - split; [rewrite zlen_alloc; lia|]. intros; lia.
  - intros j x Hj [P1 P2]. rewrite (box_vd bx j) by (auto; lia). cbn [bind]. rewrite (box_vd bx (pt_dim + j)) by (auto; lia). cbn [bind].
    rewrite Ls by lia. cbn [bind]. sto x1 E1. { lia. }
    match goal with |- exists t', st x1 ?i ?v = _ /\ _ => destruct (st_Some x1 i v) as [x2 E2] end.
    { rewrite (st_zlen _ _ _ _ E1). lia. }
    exists x2. split; auto. split; [rewrite (st_zlen _ _ _ _ E2), (st_zlen _ _ _ _ E1); auto|].
    intros j' Hj'. rewrite !(ld_st _ _ _ _ _ E2), !(ld_st _ _ _ _ _ E1).
    destruct (Z.eqb_spec (pt_dim + j) j'); [lia|]. destruct (Z.eqb_spec j (pt_dim + j')); [lia|].
    destruct (Z.eq_dec j j').
    + subst j'. rewrite !Z.eqb_refl. auto.
    + destruct (Z.eqb_spec j j'); [lia|]. destruct (Z.eqb_spec (pt_dim + j) (pt_dim + j')); [lia|]. apply P2. lia.
  - exists x. split; auto. split.
    + split; auto. intros k Hk. destruct (Z_lt_dec k pt_dim).
      * destruct (P2 k ltac:(lia)) as [-> _]. eauto.
      * destruct (P2 (k - pt_dim) ltac:(lia)) as [_ H]. replace (pt_dim + (k - pt_dim)) with k in H by lia. rewrite H. eauto.
    + intros j Hj. destruct (P2 j Hj) as [H1 H2]. split; unfold vd at 1; [rewrite H1|rewrite H2]; auto.
Qed.

End Box.

(** [cs] lists consecutive non-empty ranges from [a] to [b]. *)
Inductive chain : Z -> Z -> list (Z * Z * mem F) -> Prop :=
| chain_nil a : chain a (a - 1) []
| chain_cons a m b bx l : a <= m -> chain (m + 1) b l -> chain a b ((a, m, bx) :: l).

Lemma chain_snoc a m l : chain a m l -> forall b bx, m + 1 <= b -> chain a b (l ++ [(m + 1, b, bx)]).
Proof.
  induction 1; intros; simpl.
  - replace (a - 1 + 1) with a by lia. constructor; [lia|]. replace b with (b + 1 - 1) at 2 by lia. constructor.
  - constructor; auto.
Qed.

Section Box2.
Context (coord bx : mem F).
Hypothesis Hbx : box_init bx.
Hypothesis Hco : coord_init coord.
Let mc := Z.shiftl 1 pt_dim.
Let cl i := octant bx pt_dim (ptof coord n_point (s + i)) pt_dim.
Let off := boff npts cl.

Lemma sub_nodes_spec (nn sub displs : mem Z) :
  (forall c, 0 <= c < mc -> ld nn c = Some (bcnt cl npts c)) ->
  (forall i j, 0 <= i < npts -> 0 <= j < pt_dim -> ld sub (j * mc + cl i) = Some (side bx pt_dim (ptof coord n_point (s + i)) j)) ->
  (forall c, 0 <= c <= mc -> ld displs c = Some (off c)) ->
  exists cs, sub_nodes bx sub nn displs s pt_dim mc = Some cs /\ chain s (s + npts - 1) cs /\ zlen cs <= mc /\ forall a e b, In (a, e, b) cs -> exists c, 0 <= c < mc /\ a = s + off c /\ e = s + off (c + 1) - 1 /\ box_init b /\ forall i, 0 <= i < npts -> cl i = c -> child_of bx (ptof coord n_point (s + i)) b.
Proof.
  intros Ln Ls Ld. pose proof mc_pos as Hmc. fold mc in Hmc. unfold sub_nodes.
  assert (Rcl : forall i, 0 <= i < npts -> 0 <= cl i < mc) by (intros; apply cl_range).
  match goal with |- context [zfor 0 mc ?bd ?init] =>
    destruct (zfor_inv (fun i (l : list (Z * Z * mem F)) => chain s (s + off i - 1) l /\ zlen l <= i /\
      forall a e b, In (a, e, b) l -> exists c, 0 <= c < mc /\ a = s + off c /\ e = s + off (c + 1) - 1 /\ box_init b /\
      forall i, 0 <= i < npts -> cl i = c -> child_of bx (ptof coord n_point (s + i)) b) 0 mc bd init) as (l & E & P1 & P2 & P3) end.
  - lia.
  - split; [|split; [zlia|intros a e b []]]. unfold off. rewrite boff_0. replace (s + 0 - 1) with (s - 1) by lia. constructor.
  - intros c l Hc (P1 & P2 & P3). rewrite Ln by lia. cbn [bind].
    assert (Eoff : off (c + 1) = off c + bcnt cl npts c) by (apply boff_snoc; lia).
    pose proof (bcnt_nonneg cl npts c) as Hpos.
    destruct (Z.eqb_spec (bcnt cl npts c) 0) as [E0|E0].
    + exists l. split; auto. split; [|split; [lia|auto]]. rewrite Eoff, E0, Z.add_0_r. auto.
    + assert (exists i, 0 <= i < npts /\ cl i = c) as (i & Hi & Ei).
      { destruct (existsb (fun i => cl i =? c) (zrange 0 npts)) eqn:Ex.
        - apply existsb_exists in Ex as (i & Hin & Ei). apply In_zrange in Hin. exists i. split; auto. lia.
        - exfalso. apply E0. apply zcount_zero. intros x Hx. rewrite <- not_true_iff_false in *. intros T. apply Ex.
          apply existsb_exists. eauto. }
      destruct (sub_box_spec coord bx Hbx sub i Hi) as (b & Eb & Ib & Cb).
      { intros j Hj. apply (Ls i j); auto. }
      change (octant bx pt_dim (ptof coord n_point (s + i)) pt_dim) with (cl i) in Eb. rewrite Ei in Eb. fold mc in Eb. rewrite Eb. cbn [bind].
      rewrite !Ld by lia. cbn [bind]. eexists. split; [reflexivity|]. split; [|split].
      * replace (s + off c) with (s + off c - 1 + 1) at 1 by lia. apply chain_snoc; auto. lia.
      * rewrite zlen_app. zlia.
      * intros a e b' Hin. apply in_app_iff in Hin as [Hin|[Hin|[]]]; [auto|]. injection Hin as <- <- <-.
        exists c. repeat (split; [solve [auto]|]). intros i' Hi' Ei' j Hj. destruct (Cb j Hj) as [C1 C2]. split; auto.
        rewrite C1. do 5 f_equal. apply (octant_inj bx pt_dim _ _ pt_dim); auto; [lia|].
        fold (cl i) (cl i'). congruence.
  - exists l. split; auto. unfold off in P1. rewrite (boff_m npts mc cl) in P1 by (auto; lia). split; auto.
Qed.

End Box2.

(** [p'] is [p] with the points moved by [tau]. *)
Definition sizes_ok (p : pstate F) : Prop :=
  zlen (p_coord p) = n_point * xpt_dim /\ zlen (p_ctmp p) = n_point * xpt_dim /\
  zlen (p_idx p) = n_point /\ zlen (p_itmp p) = n_point.
Definition moved (tau : Z -> Z) (p p' : pstate F) : Prop :=
  sizes_ok p' /\
  (forall j q, 0 <= j < xpt_dim -> 0 <= q < n_point -> getz (p_coord p') (j * n_point + tau q) = getz (p_coord p) (j * n_point + q)) /\
  (forall q, 0 <= q < n_point -> getz (p_idx p') (tau q) = getz (p_idx p) q).

Lemma subdivide_spec (bx : mem F) (p : pstate F) : box_init bx -> coord_init (p_coord p) -> sizes_ok p ->
  exists cs p' tau, subdivide pt_dim xpt_dim n_point s npts bx p = Some (cs, p') /\
    chain s (s + npts - 1) cs /\ zlen cs <= Z.shiftl 1 pt_dim /\
    permutes s (s + npts - 1) tau /\ moved tau p p' /\
    p_maxlevel p' = p_maxlevel p /\ p_po p' = p_po p /\ p_nleaf p' = p_nleaf p /\
    (forall a e b, In (a, e, b) cs -> box_init b /\ forall q, a <= q <= e -> child_of bx (ptof (p_coord p') n_point q) b) /\
    (forall a e b a' e' b' q q', In (a, e, b) cs -> In (a', e', b') cs -> a <= q <= e -> a' <= q' <= e' ->
       (forall j, 0 <= j < pt_dim -> ptof (p_coord p') n_point q j = ptof (p_coord p') n_point q' j) -> a = a').
Proof.
  intros Hb Hc (S1 & S2 & S3 & S4). unfold subdivide. cbn zeta.
  set (coord := p_coord p) in *. set (mc := Z.shiftl 1 pt_dim).
  pose (cl := fun i => octant bx pt_dim (ptof coord n_point (s + i)) pt_dim).
  assert (Hmc : 1 <= mc) by apply mc_pos.
  destruct (child_indices_spec coord bx Hb Hc) as (rel & ci & E1 & Zr & Zc & Lr & Lc). rewrite E1. cbn [bind].
  destruct (child_counts_spec coord bx rel ci Zr Zc Lr Lc) as (nn & sub & E2 & Zn & Zs & Ln & Ls). fold mc in E2. rewrite E2. cbn [bind].
  destruct (displacements_spec coord bx nn (alloc (mc + 1))) as (d & E3 & Zd & Ld); auto.
  { apply zlen_alloc. lia. }
  fold mc in E3. rewrite E3. cbn [bind].
  destruct (bucket_points_spec coord bx Hc ci d p) as (d' & p' & E4 & Zd' & Q1 & Q2 & Q3 & Q4 & Q5 & Q6 & Q7 & Q8 & Q9); auto.
  rewrite E4. cbn [bind].
  destruct (displacements_spec coord bx nn d') as (d2 & E5 & Zd2 & Ld2); auto.
  fold mc in E5. rewrite E5. cbn [bind].
  assert (Rcl : forall i, 0 <= i < npts -> 0 <= cl i < mc) by (intros; apply cl_range).
  assert (Eoff : boff npts cl mc = npts) by (apply boff_m; auto; lia).
  rewrite Ld2 by (fold mc; lia). cbn [bind]. fold cl. fold mc. rewrite Eoff, Z.eqb_refl. cbn [negb].
  destruct (sub_nodes_spec coord bx Hb nn sub d2 Ln Ls Ld2) as (cs & E6 & C1 & C2 & C3). fold mc in E6. rewrite E6. cbn [bind].
  pose proof (newpos_permutes coord bx) as Hperm.
  exists cs, p', (newpos coord bx). split; auto. split; auto. split; auto. split; auto.
  split; [split; [repeat split; auto|split; auto]|]. split; auto. split; auto. split; auto.
  assert (K : forall a e b q, In (a, e, b) cs -> a <= q <= e -> exists k, s <= k < s + npts /\ a = s + boff npts cl (cl (k - s)) /\
      box_init b /\ child_of bx (ptof coord n_point k) b /\ forall j, 0 <= j < pt_dim -> ptof (p_coord p') n_point q j = ptof coord n_point k j).
  { intros a e b q Hin Hq. destruct (C3 a e b Hin) as (c & Hc1 & -> & -> & Hb1 & Hch).
    fold cl in Hq. fold mc in Hc1. change (forall i, 0 <= i < npts -> cl i = c -> child_of bx (ptof coord n_point (s + i)) b) in Hch.
    pose proof (boff_range npts mc cl ltac:(lia) Rcl c ltac:(lia)).
    pose proof (boff_range npts mc cl ltac:(lia) Rcl (c + 1) ltac:(lia)).
    destruct (permutes_surj _ _ _ Hperm q ltac:(lia)) as (k & Hk & Ek).
    pose proof (newpos_in coord bx (k - s) ltac:(lia)) as En. replace (s + (k - s)) with k in En by lia.
    fold cl in En.
    assert (Ecl : cl (k - s) = c). { apply (bdst_class npts mc cl); auto; lia. }
    specialize (Hch (k - s) ltac:(lia) Ecl). replace (s + (k - s)) with k in Hch by lia.
    exists k. split; [lia|]. split; [rewrite Ecl; reflexivity|]. split; auto. split; auto.
    intros j Hj. unfold ptof, vd, ld. rewrite <- Ek. rewrite Q8 by lia. reflexivity. }
  split.
  - intros a e b Hin. destruct (C3 a e b Hin) as (c & Hc1 & _ & _ & Hb1 & _). split; auto. intros q Hq.
    destruct (K a e b q Hin Hq) as (k & Hk & _ & _ & Hch & Eq). intros j Hj. specialize (Hch j Hj).
    unfold side in *. rewrite Eq by auto. exact Hch.
  - intros a e b a' e' b' q q' H1 H2 Hq Hq' Eqq.
    destruct (K a e b q H1 Hq) as (k & Hk & -> & _ & _ & Eq). destruct (K a' e' b' q' H2 Hq') as (k' & Hk' & -> & _ & _ & Eq').
    do 2 f_equal. unfold cl, octant. apply zsumf_ext. intros j Hj. f_equal. replace (s + (k - s)) with k by lia. replace (s + (k' - s)) with k' by lia.
    unfold side. rewrite <- Eq, <- Eq', Eqq by lia. reflexivity.
Qed.

End Step.
