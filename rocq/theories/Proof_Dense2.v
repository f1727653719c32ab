From Coq Require Import ZArith List Lia Bool.
From Verif Require Import Base Mem Conc Model_Utils Model_Dense Spec_Utils Spec_Dense Proof_Utils Proof_Dense.
Import ListNotations.
Open Scope Z_scope.

Definition zfirstn {A} (k : Z) (l : list A) := firstn (Z.to_nat k) l.

Lemma zfirstn_0 {A} (l : list A) : zfirstn 0 l = []. Proof. reflexivity. Qed.
Lemma zfirstn_all {A} (l : list A) : zfirstn (zlen l) l = l.
Proof. unfold zfirstn, zlen. rewrite Nat2Z.id. apply firstn_all. Qed.
Lemma zfirstn_snoc {A} (l : list A) k x : getz l k = Some x -> zfirstn (k + 1) l = zfirstn k l ++ [x].
Proof.
  intros H. unfold zfirstn. unfold getz in H. destruct (Z.leb_spec 0 k); [|discriminate].
  replace (Z.to_nat (k + 1)) with (S (Z.to_nat k)) by lia.
  revert H. generalize (Z.to_nat k). clear. intros n; revert l. induction n; intros [|a l] H; simpl in *; try discriminate.
  - now injection H as ->. - f_equal. now apply IHn.
Qed.
Lemma zfirstn_split {A} (l : list A) k x : getz l k = Some x -> exists t, l = zfirstn k l ++ x :: t.
Proof.
  intros H. unfold zfirstn. unfold getz in H. destruct (Z.leb_spec 0 k); [|discriminate].
  apply nth_error_split in H as (l1 & l2 & -> & E). exists l2. rewrite <- E. rewrite firstn_app.
  rewrite Nat.sub_diag. simpl. rewrite firstn_all2 by lia. now rewrite app_nil_r.
Qed.

Section Desc.
Context {A : Type} (z : A).
Notation desc := (list (Z * Z * (Z -> Z -> A))).

Definition nonneg (l : desc) : Prop := forall x, In x l -> 0 <= fst (fst x) /\ 0 <= snd (fst x).

Lemma rows_app (l m : desc) : rows_of (l ++ m) = rows_of l + rows_of m.
Proof. unfold rows_of. induction l; simpl; lia. Qed.
Lemma cols_app (l m : desc) : cols_of (l ++ m) = cols_of l + cols_of m.
Proof. unfold cols_of. induction l; simpl; lia. Qed.
Lemma rows_nonneg (l : desc) : nonneg l -> 0 <= rows_of l.
Proof.
  intros H. unfold rows_of. induction l; simpl; [lia|]. destruct (H a (or_introl eq_refl)).
  assert (nonneg l) by (intros x Hx; apply H; now right). specialize (IHl H2). lia.
Qed.
Lemma cols_nonneg (l : desc) : nonneg l -> 0 <= cols_of l.
Proof.
  intros H. unfold cols_of. induction l; simpl; [lia|]. destruct (H a (or_introl eq_refl)).
  assert (nonneg l) by (intros x Hx; apply H; now right). specialize (IHl H2). lia.
Qed.

Lemma nonneg_app l m : nonneg (l ++ m) <-> nonneg l /\ nonneg m.
Proof.
  unfold nonneg. split; [intros H; split; intros; apply H; apply in_or_app; auto|].
  intros [H1 H2] x Hx. apply in_app_or in Hx as [Hx|Hx]; auto.
Qed.

Lemma blk_snoc (l : desc) r c f i j : nonneg l -> 0 <= i -> 0 <= j ->
  blkdiag_entry z (l ++ [(r, c, f)]) i j =
    if (rows_of l <=? i) && (i <? rows_of l + r) && (cols_of l <=? j) && (j <? cols_of l + c)
    then f (i - rows_of l) (j - cols_of l) else blkdiag_entry z l i j.
Proof.
  revert i j. induction l as [|[[r0 c0] f0] l IH]; intros i j Hn Hi Hj.
  - simpl. change (rows_of []) with 0. change (cols_of []) with 0.
    destruct (Z.leb_spec 0 i); [|lia]. destruct (Z.leb_spec 0 j); [|lia]. rewrite !Z.add_0_l, !Z.sub_0_r.
    destruct (Z.ltb_spec i r); destruct (Z.ltb_spec j c); simpl; auto.
  - pose proof (Hn _ (or_introl eq_refl)) as [Hr Hc]. simpl in Hr, Hc.
    assert (Hn' : nonneg l) by (intros x Hx; apply Hn; now right).
    pose proof (rows_nonneg l Hn'). pose proof (cols_nonneg l Hn').
    change (rows_of ((r0, c0, f0) :: l)) with (r0 + rows_of l). change (cols_of ((r0, c0, f0) :: l)) with (c0 + cols_of l).
    cbn [app blkdiag_entry].
    destruct (Z.ltb_spec i r0); destruct (Z.ltb_spec j c0); simpl.
    + destruct (Z.leb_spec (r0 + rows_of l) i); [lia|]. reflexivity.
    + destruct (Z.leb_spec (r0 + rows_of l) i); [lia|]. reflexivity.
    + destruct (Z.leb_spec (c0 + cols_of l) j); [lia|]. rewrite andb_false_r. simpl. reflexivity.
    + rewrite IH by (auto; lia).
      replace (rows_of l <=? i - r0) with (r0 + rows_of l <=? i) by (destruct (Z.leb_spec (r0 + rows_of l) i), (Z.leb_spec (rows_of l) (i - r0)); lia).
      replace (i - r0 <? rows_of l + r) with (i <? r0 + rows_of l + r) by (destruct (Z.ltb_spec i (r0 + rows_of l + r)), (Z.ltb_spec (i - r0) (rows_of l + r)); lia).
      replace (cols_of l <=? j - c0) with (c0 + cols_of l <=? j) by (destruct (Z.leb_spec (c0 + cols_of l) j), (Z.leb_spec (cols_of l) (j - c0)); lia).
      replace (j - c0 <? cols_of l + c) with (j <? c0 + cols_of l + c) by (destruct (Z.ltb_spec j (c0 + cols_of l + c)), (Z.ltb_spec (j - c0) (cols_of l + c)); lia).
      replace (i - r0 - rows_of l) with (i - (r0 + rows_of l)) by lia.
      replace (j - c0 - cols_of l) with (j - (c0 + cols_of l)) by lia. reflexivity.
Qed.

Lemma vert_snoc (l : desc) r c f i j : nonneg l -> 0 <= i ->
  vertcat_entry z (l ++ [(r, c, f)]) i j =
    if i <? rows_of l then vertcat_entry z l i j
    else if i <? rows_of l + r then f (i - rows_of l) j else z.
Proof.
  revert i. induction l as [|[[r0 c0] f0] l IH]; intros i Hn Hi.
  - simpl. change (rows_of []) with 0. destruct (Z.ltb_spec i 0); [lia|]. now rewrite Z.add_0_l, Z.sub_0_r.
  - pose proof (Hn _ (or_introl eq_refl)) as [Hr Hc]. simpl in Hr, Hc.
    assert (Hn' : nonneg l) by (intros x Hx; apply Hn; now right). pose proof (rows_nonneg l Hn').
    change (rows_of ((r0, c0, f0) :: l)) with (r0 + rows_of l). cbn [app vertcat_entry].
    destruct (Z.ltb_spec i r0).
    + destruct (Z.ltb_spec i (r0 + rows_of l)); [|lia]. reflexivity.
    + rewrite IH by (auto; lia).
      replace (i - r0 <? rows_of l) with (i <? r0 + rows_of l) by (destruct (Z.ltb_spec i (r0 + rows_of l)), (Z.ltb_spec (i - r0) (rows_of l)); lia).
      replace (i - r0 <? rows_of l + r) with (i <? r0 + rows_of l + r) by (destruct (Z.ltb_spec i (r0 + rows_of l + r)), (Z.ltb_spec (i - r0) (rows_of l + r)); lia).
      replace (i - r0 - rows_of l) with (i - (r0 + rows_of l)) by lia. reflexivity.
Qed.

Lemma horz_snoc (l : desc) r c f i j : nonneg l -> 0 <= j ->
  horzcat_entry z (l ++ [(r, c, f)]) i j =
    if j <? cols_of l then horzcat_entry z l i j
    else if j <? cols_of l + c then f i (j - cols_of l) else z.
Proof.
  revert j. induction l as [|[[r0 c0] f0] l IH]; intros j Hn Hj.
  - simpl. change (cols_of []) with 0. destruct (Z.ltb_spec j 0); [lia|]. now rewrite Z.add_0_l, Z.sub_0_r.
  - pose proof (Hn _ (or_introl eq_refl)) as [Hr Hc]. simpl in Hr, Hc.
    assert (Hn' : nonneg l) by (intros x Hx; apply Hn; now right). pose proof (cols_nonneg l Hn').
    change (cols_of ((r0, c0, f0) :: l)) with (c0 + cols_of l). cbn [app horzcat_entry].
    destruct (Z.ltb_spec j c0).
    + destruct (Z.ltb_spec j (c0 + cols_of l)); [|lia]. reflexivity.
    + rewrite IH by (auto; lia).
      replace (j - c0 <? cols_of l) with (j <? c0 + cols_of l) by (destruct (Z.ltb_spec j (c0 + cols_of l)), (Z.ltb_spec (j - c0) (cols_of l)); lia).
      replace (j - c0 <? cols_of l + c) with (j <? c0 + cols_of l + c) by (destruct (Z.ltb_spec j (c0 + cols_of l + c)), (Z.ltb_spec (j - c0) (cols_of l + c)); lia).
      replace (j - c0 - cols_of l) with (j - (c0 + cols_of l)) by lia. reflexivity.
Qed.

Lemma selected_nonneg mats idx (l : desc) : selected mats idx l -> nonneg l.
Proof.
  intros [Hl H] x Hx. apply In_getz in Hx as [k Hk]. pose proof (getz_range _ _ _ Hk).
  destruct (getz_in idx k ltac:(lia)) as [j Hj]. destruct (H k j x Hj Hk) as (m & _ & Hm).
  destruct Hm as (_ & _ & _ & (F1 & F2 & _) & _). auto.
Qed.

Lemma selected_get mats idx (l : desc) k : selected mats idx l -> 0 <= k < zlen idx ->
  exists j m r c f, getz idx k = Some j /\ getz mats j = Some m /\ getz l k = Some (r, c, f) /\ dm_holds m r c f.
Proof.
  intros [Hl H] Hk. destruct (getz_in idx k Hk) as [j Hj]. destruct (getz_in l k ltac:(lia)) as [[[r c] f] Hx].
  destruct (H k j _ Hj Hx) as (m & Hm & Hh). exists j, m, r, c, f. auto.
Qed.

Lemma sum_rows mats idx (l : desc) : selected mats idx l -> sum_over dm_nrow mats idx = Some (rows_of l).
Proof.
  intros H. unfold sum_over.
  match goal with |- zfor 0 _ ?b 0 = _ =>
    destruct (zfor_inv (fun k s => s = rows_of (zfirstn k l)) 0 (zlen idx) b 0) as (s & E & P) end.
  - apply zlen_nonneg. - reflexivity.
  - intros k s Hk ->. destruct (selected_get _ _ _ k H Hk) as (j & m & r & c & f & Hj & Hm & Hx & Hh).
    rewrite Hj. cbn [bind]. rewrite Hm. cbn [bind]. eexists. split; [reflexivity|].
    rewrite (zfirstn_snoc l k _ Hx), rows_app. destruct Hh as (_ & -> & _). unfold rows_of at 3; simpl. lia.
  - rewrite E, P. destruct H as [-> _]. now rewrite zfirstn_all.
Qed.
Lemma sum_cols mats idx (l : desc) : selected mats idx l -> sum_over dm_ncol mats idx = Some (cols_of l).
Proof.
  intros H. unfold sum_over.
  match goal with |- zfor 0 _ ?b 0 = _ =>
    destruct (zfor_inv (fun k s => s = cols_of (zfirstn k l)) 0 (zlen idx) b 0) as (s & E & P) end.
  - apply zlen_nonneg. - reflexivity.
  - intros k s Hk ->. destruct (selected_get _ _ _ k H Hk) as (j & m & r & c & f & Hj & Hm & Hx & Hh).
    rewrite Hj. cbn [bind]. rewrite Hm. cbn [bind]. eexists. split; [reflexivity|].
    rewrite (zfirstn_snoc l k _ Hx), cols_app. destruct Hh as (_ & _ & -> & _). unfold cols_of at 3; simpl. lia.
  - rewrite E, P. destruct H as [-> _]. now rewrite zfirstn_all.
Qed.

Lemma mzero_spec (d : mem A) n : 0 <= n <= zlen d ->
  exists d', mzero z d n = Some d' /\ zlen d' = zlen d /\ forall k, 0 <= k < n -> ld d' k = Some z.
Proof.
  intros Hn. unfold mzero.
  destruct (zfor_inv (fun i (e : mem A) => zlen e = zlen d /\ forall k, 0 <= k < i -> ld e k = Some z) 0 n
    (fun k e => st e k z) d) as (e & E & P1 & P2).
  - lia. - split; auto. intros; lia.
  - intros k e Hk [P1 P2]. destruct (st_Some e k z ltac:(lia)) as [e' E]. exists e'. split; auto.
    split; [rewrite (st_zlen _ _ _ _ E); auto|]. intros j Hj. rewrite (ld_st _ _ _ _ _ E).
    destruct (Z.eqb_spec k j); auto. apply P2; lia.
  - exists e. auto.
Qed.

Lemma prefix_bounds (l : desc) k r c f : nonneg l -> getz l k = Some (r, c, f) ->
  0 <= rows_of (zfirstn k l) /\ 0 <= cols_of (zfirstn k l) /\ 0 <= r /\ 0 <= c /\ nonneg (zfirstn k l) /\
  rows_of (zfirstn k l) + r <= rows_of l /\ cols_of (zfirstn k l) + c <= cols_of l.
Proof.
  intros Hn Hx. destruct (zfirstn_split l k _ Hx) as [t E].
  assert (nonneg (zfirstn k l) /\ nonneg ((r, c, f) :: t)) as [N1 N2] by (apply nonneg_app; rewrite <- E; auto).
  pose proof (N2 _ (or_introl eq_refl)) as [Hr Hc]. simpl in Hr, Hc.
  assert (N3 : nonneg t) by (intros x Hx'; apply N2; now right).
  pose proof (rows_nonneg _ N1). pose proof (cols_nonneg _ N1). pose proof (rows_nonneg _ N3). pose proof (cols_nonneg _ N3).
  assert (ER : rows_of l = rows_of (zfirstn k l) + (r + rows_of t)) by (rewrite E at 1; rewrite rows_app; reflexivity).
  assert (EC : cols_of l = cols_of (zfirstn k l) + (c + cols_of t)) by (rewrite E at 1; rewrite cols_app; reflexivity).
  refine (conj _ (conj _ (conj _ (conj _ (conj _ (conj _ _)))))); auto; lia.
Qed.

Lemma dm_blkdiag_spec mats idx (l : desc) new_mat : selected mats idx l -> dm_ok new_mat ->
  exists m, dm_blkdiag z mats idx new_mat = Some m /\
    dm_holds m (rows_of l) (cols_of l) (blkdiag_entry z l).
Proof.
  intros Hs Hn. pose proof (selected_nonneg _ _ _ Hs) as Hnn.
  pose proof (rows_nonneg l Hnn) as HR. pose proof (cols_nonneg l Hnn) as HC.
  unfold dm_blkdiag. rewrite (sum_rows _ _ _ Hs), (sum_cols _ _ _ Hs). cbn [bind].
  destruct (dm_resize_ok new_mat (rows_of l) (cols_of l) Hn HR HC) as (R1 & R2 & R3 & R4 & R5).
  set (nm := dm_resize new_mat (rows_of l) (cols_of l)) in *. set (R := rows_of l) in *. set (C := cols_of l) in *.
  destruct (mzero_spec (dm_data nm) (R * C) ltac:(nia)) as (d0 & -> & Z0 & L0). cbn [bind]. rewrite R4.
  match goal with |- context [zfor 0 (zlen idx) ?b _] =>
    destruct (zfor_inv (fun k (s : Z * Z * mem A) => let '(r, c, d) := s in
       r = rows_of (zfirstn k l) /\ c = cols_of (zfirstn k l) /\ zlen d = zlen (dm_data nm) /\
       forall i j, 0 <= i < R -> 0 <= j < C -> ld d (i * C + j) = Some (blkdiag_entry z (zfirstn k l) i j))
       0 (zlen idx) b (0, 0, d0)) as ([[r c] d] & -> & P1 & P2 & P3 & P4) end.
  - apply zlen_nonneg.
  - repeat split; auto. intros i j Hi Hj. simpl. apply L0. nia.
  - intros k [[r c] d] Hk (P1 & P2 & P3 & P4).
    destruct (selected_get _ _ _ k Hs Hk) as (j0 & m & rm & cm & f & Hj & Hm & Hx & Hh).
    rewrite Hj. cbn [bind]. rewrite Hm. cbn [bind]. destruct Hh as (Mok & Mr & Mc & Mf & Me). rewrite Mr, Mc.
    destruct (prefix_bounds l k _ _ _ Hnn Hx) as (B1 & B2 & B3 & B4 & B5 & B6 & B7). rewrite <- P1 in B1, B6. rewrite <- P2 in B2, B7.
    fold R in B6. fold C in B7.
    destruct (copy_matrix_spec rm cm (dm_data m) 0 (dm_ld m) d (r * C + c) C) as (d' & E' & Z' & G' & O').
    + exact Mf.
    + unfold fits. repeat split; try lia; try nia.
    + rewrite E'. cbn [bind]. eexists. split; [reflexivity|]. cbn beta iota.
      rewrite (zfirstn_snoc l k _ Hx), rows_app, cols_app.
      split; [rewrite <- P1; unfold rows_of; simpl; lia|]. split; [rewrite <- P2; unfold cols_of; simpl; lia|].
      split; [lia|]. intros i j Hi Hj'.
      rewrite (blk_snoc (zfirstn k l) rm cm f i j B5) by lia. rewrite <- P1, <- P2.
      destruct ((r <=? i) && (i <? r + rm) && (c <=? j) && (j <? c + cm)) eqn:Eb.
      * apply andb_prop in Eb as [Eb Eb4]. apply andb_prop in Eb as [Eb Eb3]. apply andb_prop in Eb as [Eb1 Eb2].
        apply Z.leb_le in Eb1, Eb3. apply Z.ltb_lt in Eb2, Eb4.
        rewrite <- (Me (i - r) (j - c)) by lia. unfold ld.
        replace (i * C + j) with (r * C + c + (i - r) * C + (j - c)) by lia.
        rewrite G' by lia. now rewrite Z.add_0_l.
      * rewrite <- P4 by lia. unfold ld. rewrite O'; auto.
        intros (a & b & Ha & Hb & Eab).
        destruct (row_col_inj C C i j (r + a) (c + b)) as [-> ->]; try lia.
  - cbn [bind]. eexists. split; [reflexivity|]. unfold dm_holds, dm_ok, dm_set_data in *; simpl.
    rewrite P3, R4. repeat split; auto; try lia.
    intros i j Hi Hj. rewrite P4 by auto. destruct Hs as [-> _]. now rewrite zfirstn_all.
Qed.

Lemma all_match_spec (p : dmat A -> Z) v mats idx (l : desc) : selected mats idx l ->
  all_match p v mats idx = Some true \/ all_match p v mats idx = Some false /\ True.
Proof.
  intros H. unfold all_match.
  match goal with |- zfor 0 _ ?b true = _ \/ _ =>
    destruct (zfor_inv (fun k (s : bool) => True) 0 (zlen idx) b true) as (s & E & P) end.
  - apply zlen_nonneg. - auto.
  - intros k s Hk _. destruct (selected_get _ _ _ k H Hk) as (j & m & r & c & f & Hj & Hm & Hx & Hh).
    rewrite Hj. cbn [bind]. rewrite Hm. cbn [bind]. eauto.
  - rewrite E. destruct s; auto.
Qed.

Lemma all_match_true (p : dmat A -> Z) v mats idx (l : desc) : selected mats idx l ->
  (forall k j m, getz idx k = Some j -> getz mats j = Some m -> p m = v) -> all_match p v mats idx = Some true.
Proof.
  intros H Hv. unfold all_match.
  match goal with |- zfor 0 _ ?b true = _ =>
    destruct (zfor_inv (fun k (s : bool) => s = true) 0 (zlen idx) b true) as (s & E & P) end.
  - apply zlen_nonneg. - auto.
  - intros k s Hk ->. destruct (selected_get _ _ _ k H Hk) as (j & m & r & c & f & Hj & Hm & Hx & Hh).
    rewrite Hj. cbn [bind]. rewrite Hm. cbn [bind]. eexists. split; [reflexivity|].
    rewrite (Hv k j m Hj Hm), Z.eqb_refl. reflexivity.
  - now rewrite E, P.
Qed.

Lemma all_match_false (p : dmat A -> Z) v mats idx (l : desc) k0 j0 m0 : selected mats idx l ->
  getz idx k0 = Some j0 -> getz mats j0 = Some m0 -> p m0 <> v -> all_match p v mats idx = Some false.
Proof.
  intros H Hj0 Hm0 Hne. unfold all_match.
  match goal with |- zfor 0 _ ?b true = _ =>
    destruct (zfor_inv (fun k (s : bool) => k0 < k -> s = false) 0 (zlen idx) b true) as (s & E & P) end.
  - apply zlen_nonneg. - pose proof (getz_range _ _ _ Hj0). lia.
  - intros k s Hk Hs. destruct (selected_get _ _ _ k H Hk) as (j & m & r & c & f & Hj & Hm & Hx & Hh).
    rewrite Hj. cbn [bind]. rewrite Hm. cbn [bind]. eexists. split; [reflexivity|]. intros Hlt.
    destruct (Z.eq_dec k k0) as [->|].
    + assert (j = j0) by congruence. subst. assert (m = m0) by congruence. subst.
      destruct (Z.eqb_spec (p m0) v); [contradiction|]. apply andb_false_r.
    + rewrite Hs by lia. reflexivity.
  - rewrite E. f_equal. apply P. pose proof (getz_range _ _ _ Hj0). lia.
Qed.

Lemma dm_vertcat_spec mats idx (l : desc) new_mat ncol : selected mats idx l -> dm_ok new_mat -> 0 < zlen idx ->
  (forall x, In x l -> snd (fst x) = ncol) ->
  exists m, dm_vertcat mats idx new_mat = Some m /\ dm_holds m (rows_of l) ncol (vertcat_entry z l).
Proof.
  intros Hs Hn Hpos Hcol. pose proof (selected_nonneg _ _ _ Hs) as Hnn.
  pose proof (rows_nonneg l Hnn) as HR.
  unfold dm_vertcat.
  assert (Hc : forall k j m, getz idx k = Some j -> getz mats j = Some m -> dm_ncol m = ncol).
  { intros k j m Hj Hm. pose proof (getz_range _ _ _ Hj) as Hk.
    destruct (selected_get _ _ _ k Hs Hk) as (j' & m' & r & c & f & Hj' & Hm' & Hx & Hh).
    assert (j' = j) by congruence. subst. assert (m' = m) by congruence. subst.
    destruct Hh as (_ & _ & -> & _). apply (Hcol (r, c, f)). eapply getz_In; eauto. }
  destruct (selected_get _ _ _ 0 Hs ltac:(lia)) as (j0 & m0 & r0 & c0 & f0 & Hj0 & Hm0 & Hx0 & Hh0).
  rewrite Hj0. cbn [bind]. rewrite Hm0. cbn [bind]. rewrite (Hc 0 j0 m0 Hj0 Hm0).
  assert (HC : 0 <= ncol) by (destruct (Hnn _ (getz_In _ _ _ Hx0)) as [_ Q]; rewrite (Hcol _ (getz_In _ _ _ Hx0)) in Q; auto).
  rewrite (all_match_true dm_ncol ncol mats idx l Hs Hc). cbn [bind negb].
  rewrite (sum_rows _ _ _ Hs). cbn [bind].
  destruct (dm_resize_ok new_mat (rows_of l) ncol Hn HR HC) as (R1 & R2 & R3 & R4 & R5).
  set (nm := dm_resize new_mat (rows_of l) ncol) in *. set (R := rows_of l) in *. rewrite R4.
  match goal with |- context [zfor 0 (zlen idx) ?b _] =>
    destruct (zfor_inv (fun k (s : Z * mem A) => let '(r, d) := s in
       r = rows_of (zfirstn k l) /\ zlen d = zlen (dm_data nm) /\
       forall i j, 0 <= i < r -> 0 <= j < ncol -> ld d (i * ncol + j) = Some (vertcat_entry z (zfirstn k l) i j))
       0 (zlen idx) b (0, dm_data nm)) as ([r d] & -> & P1 & P3 & P4) end.
  - lia.
  - repeat split; auto. intros i j Hi Hj. lia.
  - intros k [r d] Hk (P1 & P3 & P4).
    destruct (selected_get _ _ _ k Hs Hk) as (j1 & m & rm & cm & f & Hj & Hm & Hx & Hh).
    rewrite Hj. cbn [bind]. rewrite Hm. cbn [bind]. destruct Hh as (Mok & Mr & Mc & Mf & Me). rewrite Mr, Mc.
    assert (cm = ncol) by (apply (Hcol (rm, cm, f)); eapply getz_In; eauto). clear Mc. subst cm.
    destruct (prefix_bounds l k _ _ _ Hnn Hx) as (B1 & B2 & B3 & B4 & B5 & B6 & B7). rewrite <- P1 in B1, B6.
    fold R in B6.
    destruct (copy_matrix_spec rm ncol (dm_data m) 0 (dm_ld m) d (r * ncol) ncol) as (d' & E' & Z' & G' & O').
    + exact Mf.
    + unfold fits. repeat split; try lia; try nia.
    + rewrite E'. cbn [bind]. eexists. split; [reflexivity|]. cbn beta iota.
      rewrite (zfirstn_snoc l k _ Hx), rows_app.
      split; [rewrite <- P1; unfold rows_of; simpl; lia|]. split; [lia|]. intros i j Hi Hj'.
      rewrite (vert_snoc (zfirstn k l) rm ncol f i j B5) by lia. rewrite <- P1.
      destruct (Z.ltb_spec i r).
      * rewrite <- P4 by lia. unfold ld. rewrite O'; auto.
        intros (a & b & Ha & Hb & Eab). destruct (row_col_inj ncol ncol i j (r + a) b) as [-> ->]; try lia.
      * destruct (Z.ltb_spec i (r + rm)); [|lia].
        rewrite <- (Me (i - r) j) by lia. unfold ld.
        replace (i * ncol + j) with (r * ncol + (i - r) * ncol + j) by lia.
        rewrite G' by lia. now rewrite Z.add_0_l.
  - cbn [bind]. eexists. split; [reflexivity|]. unfold dm_holds, dm_ok, dm_set_data in *; simpl.
    assert (r = R) by (rewrite P1; destruct Hs as [-> _]; now rewrite zfirstn_all). subst r.
    rewrite P3, R4. repeat split; auto; try lia.
    intros i j Hi Hj. rewrite P4 by lia. destruct Hs as [-> _]. now rewrite zfirstn_all.
Qed.

Lemma dm_horzcat_spec mats idx (l : desc) new_mat nrow : selected mats idx l -> dm_ok new_mat -> 0 < zlen idx ->
  (forall x, In x l -> fst (fst x) = nrow) ->
  exists m, dm_horzcat z mats idx new_mat = Some m /\ dm_holds m nrow (cols_of l) (horzcat_entry z l).
Proof.
  intros Hs Hn Hpos Hrow. pose proof (selected_nonneg _ _ _ Hs) as Hnn.
  pose proof (cols_nonneg l Hnn) as HC.
  unfold dm_horzcat.
  assert (Hc : forall k j m, getz idx k = Some j -> getz mats j = Some m -> dm_nrow m = nrow).
  { intros k j m Hj Hm. pose proof (getz_range _ _ _ Hj) as Hk.
    destruct (selected_get _ _ _ k Hs Hk) as (j' & m' & r & c & f & Hj' & Hm' & Hx & Hh).
    assert (j' = j) by congruence. subst. assert (m' = m) by congruence. subst.
    destruct Hh as (_ & -> & _). apply (Hrow (r, c, f)). eapply getz_In; eauto. }
  destruct (selected_get _ _ _ 0 Hs ltac:(lia)) as (j0 & m0 & r0 & c0 & f0 & Hj0 & Hm0 & Hx0 & Hh0).
  rewrite Hj0. cbn [bind]. rewrite Hm0. cbn [bind]. rewrite (Hc 0 j0 m0 Hj0 Hm0).
  assert (HR : 0 <= nrow) by (destruct (Hnn _ (getz_In _ _ _ Hx0)) as [Q _]; rewrite (Hrow _ (getz_In _ _ _ Hx0)) in Q; auto).
  rewrite (all_match_true dm_nrow nrow mats idx l Hs Hc). cbn [bind negb].
  rewrite (sum_cols _ _ _ Hs). cbn [bind].
  destruct (dm_resize_ok new_mat nrow (cols_of l) Hn HR HC) as (R1 & R2 & R3 & R4 & R5).
  set (nm := dm_resize new_mat nrow (cols_of l)) in *. set (C := cols_of l) in *.
  destruct (mzero_spec (dm_data nm) (nrow * C) ltac:(nia)) as (d0 & -> & Z0 & L0). cbn [bind]. rewrite R4.
  match goal with |- context [zfor 0 (zlen idx) ?b _] =>
    destruct (zfor_inv (fun k (s : Z * mem A) => let '(c, d) := s in
       c = cols_of (zfirstn k l) /\ zlen d = zlen (dm_data nm) /\
       forall i j, 0 <= i < nrow -> 0 <= j < c -> ld d (i * C + j) = Some (horzcat_entry z (zfirstn k l) i j))
       0 (zlen idx) b (0, d0)) as ([c d] & -> & P1 & P3 & P4) end.
  - lia.
  - repeat split; auto. intros i j Hi Hj. lia.
  - intros k [c d] Hk (P1 & P3 & P4).
    destruct (selected_get _ _ _ k Hs Hk) as (j1 & m & rm & cm & f & Hj & Hm & Hx & Hh).
    rewrite Hj. cbn [bind]. rewrite Hm. cbn [bind]. destruct Hh as (Mok & Mr & Mc & Mf & Me). rewrite Mr, Mc.
    assert (rm = nrow) by (apply (Hrow (rm, cm, f)); eapply getz_In; eauto). clear Mr. subst rm.
    destruct (prefix_bounds l k _ _ _ Hnn Hx) as (B1 & B2 & B3 & B4 & B5 & B6 & B7). rewrite <- P1 in B2, B7.
    fold C in B7.
    destruct (copy_matrix_spec nrow cm (dm_data m) 0 (dm_ld m) d c C) as (d' & E' & Z' & G' & O').
    + exact Mf.
    + unfold fits. repeat split; try lia; try nia.
    + rewrite E'. cbn [bind]. eexists. split; [reflexivity|]. cbn beta iota.
      rewrite (zfirstn_snoc l k _ Hx), cols_app.
      split; [rewrite <- P1; unfold cols_of; simpl; lia|]. split; [lia|]. intros i j Hi Hj'.
      rewrite (horz_snoc (zfirstn k l) nrow cm f i j B5) by lia. rewrite <- P1.
      destruct (Z.ltb_spec j c).
      * rewrite <- P4 by lia. unfold ld. rewrite O'; auto.
        intros (a & b & Ha & Hb & Eab). destruct (row_col_inj C C i j a (c + b)) as [-> ->]; try lia.
      * destruct (Z.ltb_spec j (c + cm)); [|lia].
        rewrite <- (Me i (j - c)) by lia. unfold ld.
        replace (i * C + j) with (c + i * C + (j - c)) by lia.
        rewrite G' by lia. now rewrite Z.add_0_l.
  - cbn [bind]. eexists. split; [reflexivity|]. unfold dm_holds, dm_ok, dm_set_data in *; simpl.
    assert (c = C) by (rewrite P1; destruct Hs as [-> _]; now rewrite zfirstn_all). subst c.
    rewrite P3, R4. repeat split; auto; try lia.
    intros i j Hi Hj. rewrite P4 by lia. destruct Hs as [-> _]. now rewrite zfirstn_all.
Qed.

(** On a mismatch the destination is left alone. *)
Lemma dm_vertcat_mismatch mats idx (l : desc) new_mat x y : selected mats idx l -> 0 < zlen idx ->
  In x l -> In y l -> snd (fst x) <> snd (fst y) -> dm_vertcat mats idx new_mat = Some new_mat.
Proof.
  intros Hs Hpos Hx Hy Hne.
  destruct (selected_get _ _ _ 0 Hs ltac:(lia)) as (j0 & m0 & r0 & c0 & f0 & Hj0 & Hm0 & Hx0 & Hh0).
  unfold dm_vertcat. rewrite Hj0. cbn [bind]. rewrite Hm0. cbn [bind].
  assert (exists k j m, getz idx k = Some j /\ getz mats j = Some m /\ dm_ncol m <> dm_ncol m0) as (k & j & m & Hj & Hm & Hd).
  { assert (forall w, In w l -> exists k j m, getz idx k = Some j /\ getz mats j = Some m /\ dm_ncol m = snd (fst w)) as HW.
    { intros w Hw. apply In_getz in Hw as [k Hk]. pose proof (getz_range _ _ _ Hk).
      assert (0 <= k < zlen idx) by (destruct Hs; lia).
      destruct (selected_get _ _ _ k Hs H0) as (j & m & r & c & f & Hj & Hm & Hx' & Hh).
      exists k, j, m. destruct Hh as (_ & _ & E & _). rewrite Hk in Hx'. injection Hx' as ->. auto. }
    destruct (HW x Hx) as (k1 & j1 & m1 & A1 & A2 & A3). destruct (HW y Hy) as (k2 & j2 & m2 & B1 & B2 & B3).
    destruct (Z.eq_dec (dm_ncol m1) (dm_ncol m0)).
    - exists k2, j2, m2. repeat split; auto. congruence.
    - exists k1, j1, m1. auto. }
  rewrite (all_match_false dm_ncol (dm_ncol m0) mats idx l k j m Hs Hj Hm Hd). reflexivity.
Qed.
End Desc.
