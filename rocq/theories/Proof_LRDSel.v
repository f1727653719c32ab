(** Selecting columns by a list in any order: every selected column is a column of
    the matrix, but not always the one asked for. *)
From Coq Require Import ZArith List Lia Bool.
From Verif Require Import Base Mem Num CRing Model_Dense Spec_Dense Proof_Dense Proof_Gemm.
Import ListNotations.
Open Scope Z_scope.

(** The column that ends up in place c. *)
Definition chain (idx : list Z) : list Z := fold_left (fun acc j => acc ++ [if j <? zlen acc then nthz acc j else j]) idx [].
Lemma chain_snoc idx j : chain (idx ++ [j]) = chain idx ++ [if j <? zlen (chain idx) then nthz (chain idx) j else j].
Proof. unfold chain. now rewrite fold_left_app. Qed.
Lemma chain_len idx : zlen (chain idx) = zlen idx.
Proof. induction idx as [|j l IH] using rev_ind; [reflexivity|]. rewrite chain_snoc, !zlen_app, IH. reflexivity. Qed.
Lemma chain_range n idx : (forall i, In i idx -> 0 <= i < n) -> forall c, 0 <= c < zlen idx -> 0 <= nthz (chain idx) c < n.
Proof.
  induction idx as [|j l IH] using rev_ind; intros Hi c Hc; [zlia|]. rewrite zlen_app in Hc. change (zlen [j]) with 1 in Hc.
  assert (IH' : forall c, 0 <= c < zlen l -> 0 <= nthz (chain l) c < n) by (apply IH; intros i H; apply Hi, in_or_app; auto).
  assert (Hj : 0 <= j < n) by (apply Hi, in_or_app; right; now left).
  destruct (getz_in (chain (l ++ [j])) c) as (v & Ev); [rewrite chain_len, zlen_app; change (zlen [j]) with 1; lia|]. rewrite (nthz_eq _ _ _ Ev).
  rewrite chain_snoc in Ev. destruct (Z.ltb_spec c (zlen l)).
  - rewrite getz_app1 in Ev by (rewrite chain_len; lia). rewrite <- (nthz_eq _ _ _ Ev). apply IH'. lia.
  - assert (c = zlen l) as -> by lia. rewrite getz_app2 in Ev by (rewrite chain_len; lia). rewrite chain_len, Z.sub_diag in Ev. change (Some (if j <? zlen l then nthz (chain l) j else j) = Some v) in Ev. injection Ev as <-.
    destruct (Z.ltb_spec j (zlen l)); auto. apply IH'. lia.
Qed.
Lemma chain_prefix l l' c : 0 <= c < zlen l -> nthz (chain (l ++ l')) c = nthz (chain l) c.
Proof.
  induction l' as [|j l' IH] using rev_ind; intros Hc; [now rewrite app_nil_r|]. rewrite app_assoc, chain_snoc. destruct (getz_in (chain (l ++ l')) c) as (v & Ev).
  { rewrite chain_len, zlen_app. pose proof (zlen_nonneg l'). lia. }
  rewrite <- IH by auto. rewrite (nthz_eq _ _ _ Ev). apply nthz_eq. rewrite getz_app1; auto. pose proof (getz_range _ _ _ Ev). lia.
Qed.
(** For an increasing list these are the columns asked for. *)
Lemma chain_increasing idx : increasing idx -> (forall i, In i idx -> 0 <= i) -> chain idx = idx.
Proof.
  induction idx as [|j l IH] using rev_ind; intros Hi Hn; [reflexivity|]. rewrite chain_snoc.
  assert (Il : increasing l). { intros a b Ha Hb. pose proof (Hi a b Ha) as H. rewrite zlen_app in H. change (zlen [j]) with 1 in H. specialize (H ltac:(lia)).
    destruct (getz_in l a) as (x & Ex); [lia|]. destruct (getz_in l b) as (y & Ey); [lia|]. rewrite (nthz_eq l _ _ Ex), (nthz_eq l _ _ Ey).
    rewrite (nthz_eq (l ++ [j]) a x), (nthz_eq (l ++ [j]) b y) in H; auto; rewrite getz_app1; auto; lia. }
  rewrite IH; auto; [|intros i H; apply Hn, in_or_app; auto]. f_equal. f_equal. destruct (Z.ltb_spec j (zlen l)); auto. exfalso.
  assert (Hge : zlen l <= j).
  { pose proof (increasing_ge (l ++ [j]) Hi ltac:(intros x Hx; apply Hn; exact Hx) (zlen l)) as G. rewrite zlen_app in G. change (zlen [j]) with 1 in G. pose proof (zlen_nonneg l). specialize (G ltac:(lia)).
    rewrite (nthz_eq (l ++ [j]) (zlen l) j) in G; [lia|]. rewrite getz_app2 by lia. now rewrite Z.sub_diag. }
  lia.
Qed.

Lemma setz_same {A} (m : mem A) i v : ld m i = Some v -> st m i v = Some m.
Proof.
  intros H. pose proof (ld_range _ _ _ H) as R. destruct (st_Some m i v R) as (m' & E). rewrite E. f_equal. apply getz_ext; [exact (st_zlen _ _ _ _ E)|].
  intros k Hk. rewrite (getz_st _ _ _ _ _ E). destruct (Z.eqb_spec i k) as [<-|]; auto. symmetry. now apply ld_getz.
Qed.

Lemma select_any {A} (m : dmat A) nrow ncol f idx : dm_holds m nrow ncol f -> (forall i, In i idx -> 0 <= i < ncol) -> zlen idx <= ncol ->
  exists m', dm_select_columns m idx = Some m' /\ dm_holds m' nrow (zlen idx) (fun i j => f i (nthz (chain idx) j)).
Proof.
  intros (Hok & Hr & Hc & Hf & He) Hin Hlen. set (C := zlen idx) in *. set (L := dm_ld m) in *. pose proof (zlen_nonneg idx) as HC0. fold C in HC0.
  pose proof Hf as (F1 & F2 & F3 & F4 & F5).
  assert (SC : forall d, zlen d = zlen (dm_data m) -> (forall i j, 0 <= i < nrow -> 0 <= j < C -> ld d (i * L + j) = Some (f i (nthz (chain idx) j))) ->
     dm_holds (mkDM nrow C L (dm_size m) d) nrow C (fun i j => f i (nthz (chain idx) j))).
  { intros d Zd Hd. split; [unfold dm_ok in *; cbn; lia|]. split; auto. split; auto. split; [|exact Hd]. cbn [dm_ld dm_data]. unfold fits. rewrite Zd. repeat split; try lia. }
  (* the first loop *)
  assert (E1 : exists d, zfor 0 nrow (fun irow d => zfor 0 C (fun icol d => j <- getz idx icol; v <- ld d (irow * L + j); st d (irow * L + icol) v) d) (dm_data m) = Some d /\
      zlen d = zlen (dm_data m) /\ forall i j, 0 <= i < nrow -> 0 <= j < C -> ld d (i * L + j) = Some (f i (nthz (chain idx) j))).
  { destruct (zfor_inv (fun r d => zlen d = zlen (dm_data m) /\ (forall i j, 0 <= i < r -> 0 <= j < C -> ld d (i * L + j) = Some (f i (nthz (chain idx) j))) /\
       forall i j, r <= i < nrow -> 0 <= j < ncol -> ld d (i * L + j) = Some (f i j)) 0 nrow (fun irow d => zfor 0 C (fun icol d => j <- getz idx icol; v <- ld d (irow * L + j); st d (irow * L + icol) v) d) (dm_data m)) as (d & E & Zd & Hd & _); auto; try lia.
    - split; auto. split; [intros; lia|]. intros i j Hi Hj. apply He; auto.
    - intros r d Hrr (Zd & Hd & Hu).
      assert (F : 0 < ncol -> r * L + ncol <= zlen (dm_data m)). { intros Hn0. specialize (F5 ltac:(lia) Hn0). assert (r * L <= (nrow - 1) * L) by nia. lia. }
      destruct (zfor_inv (fun c e => zlen e = zlen (dm_data m) /\ (forall i j, 0 <= i < r -> 0 <= j < C -> ld e (i * L + j) = Some (f i (nthz (chain idx) j))) /\
         (forall j, 0 <= j < c -> ld e (r * L + j) = Some (f r (nthz (chain idx) j))) /\ (forall j, c <= j < ncol -> ld e (r * L + j) = Some (f r j)) /\
         forall i j, r < i < nrow -> 0 <= j < ncol -> ld e (i * L + j) = Some (f i j)) 0 C (fun icol d => j <- getz idx icol; v <- ld d (r * L + j); st d (r * L + icol) v) d) as (d' & E & Z1 & A1 & A2 & A3 & A4); auto; try lia.
      + split; auto. split; auto. split; [intros; lia|]. split; [intros; apply Hu; lia|]. intros; apply Hu; lia.
      + intros c e Hcc (Ze & B1 & B2 & B3 & B4). destruct (getz_in idx c) as (j & Ej); [lia|]. rewrite Ej. cbn [bind]. pose proof (Hin j (getz_In _ _ _ Ej)) as Hj.
        assert (Sp : nthz (chain idx) c = if j <? c then nthz (chain idx) j else j).
        { assert (Es : exists l1 l2, idx = l1 ++ j :: l2 /\ zlen l1 = c).
          { clear - Ej Hcc. pose proof (getz_range _ _ _ Ej). unfold getz in Ej. destruct (0 <=? c) eqn:E0; [|discriminate]. destruct (nth_error_split _ _ Ej) as (l1 & l2 & E & Hl). exists l1, l2. split; auto. unfold zlen. lia. }
          destruct Es as (l1 & l2 & -> & Zl). replace (l1 ++ j :: l2) with ((l1 ++ [j]) ++ l2) by (rewrite <- app_assoc; reflexivity).
          assert (Zl' : zlen (l1 ++ [j]) = c + 1) by (rewrite zlen_app; change (zlen [j]) with 1; lia). rewrite chain_prefix by lia.
          transitivity (if j <? zlen (chain l1) then nthz (chain l1) j else j).
          { apply nthz_eq. rewrite chain_snoc, getz_app2 by (rewrite chain_len; lia). rewrite chain_len, Zl, Z.sub_diag. reflexivity. }
          rewrite chain_len, Zl. destruct (Z.ltb_spec j c); auto. rewrite chain_prefix by lia. rewrite chain_prefix by lia. reflexivity. }
        assert (Lj : ld e (r * L + j) = Some (f r (nthz (chain idx) c))). { rewrite Sp. destruct (Z.ltb_spec j c); [apply B2; lia|apply B3; lia]. }
        rewrite Lj. cbn [bind]. destruct (st_Some e (r * L + c) (f r (nthz (chain idx) c))) as (e' & Ee); [specialize (F ltac:(lia)); assert (0 <= r * L) by nia; lia|]. exists e'. split; auto. split; [rewrite (st_zlen _ _ _ _ Ee); auto|].
        repeat split; intros; rewrite (ld_st _ _ _ _ _ Ee).
        * rewrite (proj2 (Z.eqb_neq _ _)); [apply B1; auto|]. assert ((i + 1) * L <= r * L) by nia. lia.
        * destruct (Z.eqb_spec (r * L + c) (r * L + j0)); [do 3 f_equal; lia|]. apply B2. lia.
        * rewrite (proj2 (Z.eqb_neq _ _)) by lia. apply B3. lia.
        * rewrite (proj2 (Z.eqb_neq _ _)); [apply B4; auto|]. assert ((r + 1) * L <= i * L) by nia. lia.
      + exists d'. split; auto. split; auto. split.
        * intros i j Hi Hj. destruct (Z.eq_dec i r) as [->|]; [apply A2; auto|apply A1; lia].
        * intros i j Hi Hj. apply A4; lia.
    - exists d. split; auto. }
  destruct E1 as (d & E1 & Zd & Hd). pose proof (SC d Zd Hd) as Hm1.
  (* the compaction, as in a selection of the first C columns *)
  destruct (dm_select_columns_spec (mkDM nrow C L (dm_size m) d) nrow C (fun i j => f i (nthz (chain idx) j)) (zrange 0 C) Hm1) as (m' & Em & Hm').
  { intros a b Ha Hb. rewrite zlen_zrange in Hb by lia. rewrite (nthz_eq _ _ _ (getz_zrange 0 C a ltac:(lia))), (nthz_eq _ _ _ (getz_zrange 0 C b ltac:(lia))). lia. }
  { intros i Hi. now apply In_zrange. }
  exists m'. rewrite zlen_zrange, Z.sub_0_r in Hm' by lia. split.
  - rewrite <- Em. unfold dm_select_columns. cbn [dm_nrow dm_ld dm_data dm_size]. rewrite zlen_zrange, Z.sub_0_r by lia. rewrite Hr. fold C L. rewrite E1. cbn [bind].
    assert (E2 : zfor 0 nrow (fun irow d => zfor 0 C (fun icol d => j <- getz (zrange 0 C) icol; v <- ld d (irow * L + j); st d (irow * L + icol) v) d) d = Some d).
    { destruct (zfor_inv (fun _ e => e = d) 0 nrow (fun irow d => zfor 0 C (fun icol d => j <- getz (zrange 0 C) icol; v <- ld d (irow * L + j); st d (irow * L + icol) v) d) d) as (x & E & ->); auto; try lia.
      intros i e Hi ->. destruct (zfor_inv (fun _ e => e = d) 0 C (fun icol d => j <- getz (zrange 0 C) icol; v <- ld d (i * L + j); st d (i * L + icol) v) d) as (x & E & ->); auto; try lia.
      - intros j e Hj ->. rewrite getz_zrange by lia. cbn [bind]. rewrite Z.add_0_l, Hd by lia. cbn [bind]. exists d. split; auto. apply setz_same. apply Hd; lia.
      - exists d. auto. }
    rewrite E2. cbn [bind]. reflexivity.
  - destruct Hm' as (G1 & G2 & G3 & G4 & G5). split; auto. split; auto. split; auto. split; auto.
    intros i j Hi Hj. rewrite G5 by auto. rewrite (nthz_eq _ _ _ (getz_zrange 0 C j ltac:(lia))). rewrite Z.add_0_l. reflexivity.
Qed.
