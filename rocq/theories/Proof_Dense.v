From Coq Require Import ZArith List Lia Bool.
From Verif Require Import Base Mem Conc Model_Utils Model_Dense Spec_Utils Spec_Dense Proof_Utils.
Import ListNotations.
Open Scope Z_scope.

Lemma row_col_inj ldm ncol i j i' j' : ncol <= ldm -> 0 <= j < ncol -> 0 <= j' < ncol ->
  i * ldm + j = i' * ldm + j' -> i = i' /\ j = j'.
Proof.
  intros Hl Hj Hj' E. assert (i = i') by nia. subst. split; lia.
Qed.

Lemma fits_row nrow ncol off ldm n i : fits nrow ncol off ldm n -> 0 <= i < nrow -> 0 < ncol ->
  0 <= off + i * ldm /\ off + i * ldm + ncol <= n.
Proof.
  intros (H1 & H2 & H3 & H4 & H5) Hi Hc. specialize (H5 ltac:(lia) Hc). nia.
Qed.

Lemma fits_cell nrow ncol off ldm n i j : fits nrow ncol off ldm n -> 0 <= i < nrow -> 0 <= j < ncol ->
  0 <= off + i * ldm + j < n.
Proof. intros H Hi Hj. pose proof (fits_row _ _ _ _ _ i H Hi ltac:(lia)). lia. Qed.

Lemma in_region_dec nrow ncol off ldm k : ncol <= ldm ->
  in_region nrow ncol off ldm k \/ ~ in_region nrow ncol off ldm k.
Proof.
  intros Hl. destruct (Z_le_dec ldm 0).
  - right. intros (i & j & Hi & Hj & E). lia.
  - set (i := (k - off) / ldm). set (j := (k - off) mod ldm).
    pose proof (Z.div_mod (k - off) ldm ltac:(lia)) as D. pose proof (Z.mod_pos_bound (k - off) ldm ltac:(lia)) as M.
    fold i j in D, M.
    destruct (Z_lt_le_dec i 0); [right|destruct (Z_lt_le_dec i nrow); [destruct (Z_lt_le_dec j ncol); [left|right]|right]].
    + intros (i' & j' & Hi & Hj & E). assert (i = i') by nia. lia.
    + exists i, j. repeat split; lia.
    + intros (i' & j' & Hi & Hj & E). assert (i = i') by nia. subst i'. lia.
    + intros (i' & j' & Hi & Hj & E). assert (i = i') by nia. lia.
Qed.

(** Copying rows from arbitrary source offsets. *)
Lemma rows_spec {A} nrow ncol (so : Z -> Z) (src dst : mem A) doff ldd body :
  fits nrow ncol doff ldd (zlen dst) ->
  (forall i, 0 <= i < nrow -> 0 <= so i /\ so i + ncol <= zlen src) ->
  (forall i d, 0 <= i < nrow -> body i d = mcpy d (doff + i * ldd) src (so i) ncol) ->
  exists d, zfor 0 nrow body dst = Some d /\ zlen d = zlen dst /\
    (forall i j, 0 <= i < nrow -> 0 <= j < ncol -> getz d (doff + i * ldd + j) = getz src (so i + j)) /\
    (forall k, ~ in_region nrow ncol doff ldd k -> getz d k = getz dst k).
Proof.
  intros Hf Hs Hb. pose proof Hf as (F1 & F2 & F3 & F4 & F5).
  destruct (zfor_inv (fun n (d : mem A) => zlen d = zlen dst /\
    (forall i j, 0 <= i < n -> 0 <= j < ncol -> getz d (doff + i * ldd + j) = getz src (so i + j)) /\
    (forall k, ~ in_region n ncol doff ldd k -> getz d k = getz dst k)) 0 nrow body dst) as (d & E & P); auto.
  - split; auto. split; [intros; lia|auto].
  - intros i d Hi (P1 & P2 & P3). rewrite Hb by lia.
    destruct (Z.eq_dec ncol 0) as [->|Hc].
    { exists d. unfold mcpy. rewrite zfor_empty by lia. split; auto. split; auto. split; [intros; lia|].
      intros k Hk. apply P3. intros (a & b & ? & ? & ?). lia. }
    pose proof (fits_row _ _ _ _ _ i Hf Hi ltac:(lia)) as Hr. destruct (Hs i Hi) as [S1 S2].
    destruct (mcpy_spec d (doff + i * ldd) src (so i) ncol) as (d' & E' & Z' & G'); try lia.
    exists d'. split; auto. split; [lia|]. split.
    + intros a b Ha Hb'. rewrite G'. destruct (Z.eq_dec a i) as [->|Hn].
      * destruct (Z.leb_spec (doff + i * ldd) (doff + i * ldd + b)); [|lia].
        destruct (Z.ltb_spec (doff + i * ldd + b) (doff + i * ldd + ncol)); [|lia]. simpl. f_equal. lia.
      * rewrite <- (P2 a b) by lia.
        assert (a * ldd + ldd <= i * ldd) by nia.
        destruct (Z.leb_spec (doff + i * ldd) (doff + a * ldd + b)); [lia|]. reflexivity.
    + intros k Hk. rewrite G'.
      destruct (Z.leb_spec (doff + i * ldd) k); [destruct (Z.ltb_spec k (doff + i * ldd + ncol))|]; simpl.
      * exfalso. apply Hk. exists i, (k - (doff + i * ldd)). repeat split; lia.
      * apply P3. intros (a & b & Ha & Hb' & ->). apply Hk. exists a, b. repeat split; lia.
      * apply P3. intros (a & b & Ha & Hb' & ->). apply Hk. exists a, b. repeat split; lia.
  - exists d. auto.
Qed.

Lemma copy_matrix_spec {A} nrow ncol (src : mem A) soff lds dst doff ldd :
  fits nrow ncol soff lds (zlen src) -> fits nrow ncol doff ldd (zlen dst) ->
  exists d, copy_matrix nrow ncol src soff lds dst doff ldd = Some d /\ zlen d = zlen dst /\
    (forall i j, 0 <= i < nrow -> 0 <= j < ncol -> getz d (doff + i * ldd + j) = getz src (soff + i * lds + j)) /\
    (forall k, ~ in_region nrow ncol doff ldd k -> getz d k = getz dst k).
Proof.
  intros Hs Hd. unfold copy_matrix. pose proof Hs as (S1 & S2 & S3 & S4 & S5).
  destruct (Z.eq_dec ncol 0) as [->|Hc].
  - exists dst. split.
    { destruct (zfor_inv (fun _ (d : mem A) => d = dst) 0 nrow
        (fun irow d => mcpy d (doff + irow * ldd) src (soff + irow * lds) 0) dst) as (d & E & ->); auto.
      intros k t _ ->. exists dst. unfold mcpy. rewrite zfor_empty by lia. auto. }
    split; auto. split; [intros; lia|auto].
  - apply (rows_spec nrow ncol (fun i => soff + i * lds)); auto.
    intros i Hi. pose proof (fits_row _ _ _ _ _ i Hs Hi ltac:(lia)). lia.
Qed.

(** ** Objects *)

Lemma dm_init_ok {A} nrow ncol : @dm_ok A (dm_init nrow ncol).
Proof. unfold dm_ok, dm_init; simpl. rewrite zlen_alloc by nia. auto. Qed.

Lemma dm_resize_ok {A} (m : dmat A) nrow ncol : dm_ok m -> 0 <= nrow -> 0 <= ncol ->
  let m' := dm_resize m nrow ncol in
  dm_ok m' /\ dm_nrow m' = nrow /\ dm_ncol m' = ncol /\ dm_ld m' = ncol /\ nrow * ncol <= zlen (dm_data m').
Proof.
  intros Hm Hr Hc. unfold dm_ok, dm_resize in *. destruct (Z.ltb_spec (dm_size m) (nrow * ncol)); simpl.
  - rewrite zlen_alloc by nia. repeat split; auto; lia.
  - repeat split; auto; lia.
Qed.

Lemma fits_resized nrow ncol n : 0 <= nrow -> 0 <= ncol -> nrow * ncol <= n -> fits nrow ncol 0 ncol n.
Proof. intros. unfold fits. repeat split; try lia. Qed.

Lemma dm_copy_spec {A} (src dst : dmat A) nrow ncol f :
  dm_holds src nrow ncol f -> dm_ok dst ->
  exists m, dm_copy src dst = Some m /\ dm_holds m nrow ncol f.
Proof.
  intros (Hok & Hr & Hc & Hf & He) Hd. unfold dm_copy. pose proof Hf as (F1 & F2 & _).
  destruct (dm_resize_ok dst nrow ncol Hd F1 F2) as (R1 & R2 & R3 & R4 & R5).
  rewrite Hr, Hc. set (d := dm_resize dst nrow ncol) in *.
  assert (Hfd : fits nrow ncol 0 (dm_ld d) (zlen (dm_data d))) by (rewrite R4; apply fits_resized; auto).
  destruct (copy_matrix_spec nrow ncol (dm_data src) 0 (dm_ld src) (dm_data d) 0 (dm_ld d)) as (x & E & Zx & Gx & _); auto.
  rewrite E. cbn [bind]. eexists. split; [reflexivity|]. unfold dm_holds, dm_set_data, dm_ok in *; simpl.
  rewrite Zx. repeat split; auto; try apply Hfd.
  intros i j Hi Hj. rewrite <- (He i j) by auto. unfold ld. specialize (Gx i j Hi Hj).
  rewrite !Z.add_0_l in Gx. now rewrite Gx.
Qed.

Lemma dm_permute_rows_spec {A} (m : dmat A) nrow ncol f p :
  dm_holds m nrow ncol f -> zlen p = nrow -> (forall i, In i p -> 0 <= i < nrow) ->
  exists m', dm_permute_rows m p = Some m' /\ dm_holds m' nrow ncol (fun i j => f (nthz p i) j).
Proof.
  intros (Hok & Hr & Hc & Hf & He) Hp Hin. unfold dm_permute_rows. rewrite Hr, Hc.
  pose proof Hf as (F1 & F2 & _).
  assert (Hfd : fits nrow ncol 0 ncol (zlen (@alloc A (nrow * ncol)))) by (apply fits_resized; auto; rewrite zlen_alloc by nia; lia).
  assert (Hpi : forall i, 0 <= i < nrow -> 0 <= nthz p i < nrow).
  { intros i Hi. apply Hin. apply (getz_In p i). apply getz_nthz. lia. }
  match goal with |- context [zfor 0 nrow ?b _] =>
    assert (exists d, zfor 0 nrow b (alloc (nrow * ncol)) = Some d /\ zlen d = zlen (@alloc A (nrow * ncol)) /\
      (forall i j, 0 <= i < nrow -> 0 <= j < ncol -> getz d (0 + i * ncol + j) = getz (dm_data m) (nthz p i * dm_ld m + j)))
      as (d & -> & Zd & Gd) end.
  { destruct (Z.eq_dec ncol 0) as [->|Hn].
    - exists (alloc (nrow * 0)). split; [|split; [auto|intros; lia]].
      match goal with |- zfor 0 nrow ?b _ = _ =>
        destruct (zfor_inv (fun _ d => d = alloc (nrow * 0)) 0 nrow b (alloc (nrow * 0))) as (d & E & ->); auto end.
      intros k t Hk ->. rewrite (getz_nthz p k) by lia. cbn [bind]. eexists; split; [|reflexivity].
      unfold mcpy. now rewrite zfor_empty by lia.
    - edestruct (rows_spec nrow ncol (fun i => nthz p i * dm_ld m) (dm_data m) (alloc (nrow * ncol)) 0 ncol) as (d & E & Zd & Gd & _).
      + exact Hfd.
      + intros i Hi. pose proof (fits_row _ _ _ _ _ (nthz p i) Hf (Hpi i Hi) ltac:(lia)). simpl. lia.
      + intros i d Hi. cbn beta. instantiate (1 := fun irow d => pi <- getz p irow; mcpy d (irow * ncol) (dm_data m) (pi * dm_ld m) ncol).
        cbn beta. rewrite (getz_nthz p i) by lia. cbn [bind]. now rewrite Z.add_0_l.
      + exists d. auto. }
  cbn [bind]. eexists. split; [reflexivity|]. unfold dm_holds, dm_ok; simpl. rewrite Zd.
  rewrite zlen_alloc in * by nia. repeat split; auto; try apply Hfd.
  intros i j Hi Hj. rewrite <- (He (nthz p i) j) by auto. unfold ld.
  specialize (Gd i j Hi Hj). rewrite Z.add_0_l in Gd. now rewrite Gd.
Qed.

(** ** In-place selections *)

Lemma increasing_ge l : increasing l -> (forall x, In x l -> 0 <= x) -> forall k, 0 <= k < zlen l -> k <= nthz l k.
Proof.
  intros Hi Hp k Hk. destruct Hk as [Hk0 Hk]. revert Hk. pattern k. apply natlike_ind; auto.
  - intros Hk. apply Hp. apply (getz_In l 0). apply getz_nthz. lia.
  - intros x Hx IH Hl. specialize (IH ltac:(lia)). pose proof (Hi x (Z.succ x) ltac:(lia) Hl). lia.
Qed.

Lemma dm_select_rows_spec {A} (m : dmat A) nrow ncol f idx :
  dm_holds m nrow ncol f -> increasing idx -> (forall i, In i idx -> 0 <= i < nrow) ->
  exists m', dm_select_rows m idx = Some m' /\ dm_holds m' (zlen idx) ncol (fun i j => f (nthz idx i) j).
Proof.
  intros (Hok & Hr & Hc & Hf & He) Hinc Hin. unfold dm_select_rows. rewrite Hc.
  pose proof Hf as (F1 & F2 & F3 & F4 & F5). set (L := dm_ld m) in *.
  assert (Hnn : forall i, 0 <= i < zlen idx -> 0 <= nthz idx i < nrow).
  { intros i Hi. apply Hin. apply (getz_In idx i). apply getz_nthz. lia. }
  assert (Hge : forall i, 0 <= i < zlen idx -> i <= nthz idx i < nrow).
  { intros i Hi. split; [|apply Hnn; auto]. apply increasing_ge; auto. intros x Hx. apply Hin in Hx. lia. }
  match goal with |- context [zfor 0 (zlen idx) ?b _] =>
    destruct (zfor_inv (fun n (d : mem A) => zlen d = zlen (dm_data m) /\
       (forall i j, 0 <= i < n -> 0 <= j < ncol -> ld d (i * L + j) = Some (f (nthz idx i) j)) /\
       (forall i j, n <= i < nrow -> 0 <= j < ncol -> ld d (i * L + j) = Some (f i j))) 0 (zlen idx) b (dm_data m))
      as (x & E & P1 & P2 & P3) end.
  - apply zlen_nonneg.
  - split; auto. split; [intros; lia|auto].
  - intros i d Hi (P1 & P2 & P3). rewrite (getz_nthz idx i) by lia. cbn [bind].
    pose proof (Hge i Hi) as Hg. set (s := nthz idx i) in *.
    destruct (Z.eq_dec s i) as [Es|Es].
    + rewrite Es, Z.eqb_refl. exists d. split; auto. split; auto. split.
      * intros a b Ha Hb. destruct (Z.eq_dec a i) as [->|]; [|apply P2; lia]. fold s. rewrite Es. apply P3; lia.
      * intros a b Ha Hb. apply P3; lia.
    + assert (Hdst : (s * L =? i * L) = true -> L = 0) by (intros E; apply Z.eqb_eq in E; nia).
      destruct (Z.eq_dec ncol 0) as [->|Hn].
      { exists d. split; [|split; [auto|split; intros; lia]].
        destruct (s * L =? i * L); auto. }
      destruct (s * L =? i * L) eqn:Eq; [specialize (Hdst eq_refl); lia|].
      unfold mcpy_in. destruct (Z.leb_spec ncol 0); [lia|].
      assert (i * L + L <= s * L) by nia.
      destruct (Z.leb_spec (i * L + ncol) (s * L)); [|lia]. simpl.
      pose proof (fits_row _ _ _ _ _ s Hf ltac:(lia) ltac:(lia)) as Hrs. simpl in Hrs.
      destruct (mcpy_spec d (i * L) d (s * L) ncol) as (d' & E' & Z' & G'); try nia.
      exists d'. split; auto. split; [lia|]. unfold ld in *. split.
      * intros a b Ha Hb. rewrite G'. destruct (Z.eq_dec a i) as [->|Hna].
        { destruct (Z.leb_spec (i * L) (i * L + b)); [|lia].
          destruct (Z.ltb_spec (i * L + b) (i * L + ncol)); [|lia]. simpl.
          replace (s * L + (i * L + b - i * L)) with (s * L + b) by lia. rewrite P3 by lia. reflexivity. }
        { assert (a * L + L <= i * L) by nia. destruct (Z.leb_spec (i * L) (a * L + b)); [lia|]. simpl. apply P2; lia. }
      * intros a b Ha Hb. rewrite G'. assert (i * L + L <= a * L) by nia.
        destruct (Z.ltb_spec (a * L + b) (i * L + ncol)); [lia|]. rewrite andb_false_r. apply P3; lia.
  - rewrite E. cbn [bind]. eexists. split; [reflexivity|]. unfold dm_holds, dm_ok; simpl.
    rewrite P1. pose proof (zlen_nonneg idx). repeat split; auto; try lia.
    intros H0 H1. pose proof (Hge (zlen idx - 1) ltac:(lia)).
    pose proof (fits_row _ _ _ _ _ (zlen idx - 1) Hf ltac:(lia) H1). fold L. lia.
Qed.

Lemma dm_select_columns_spec {A} (m : dmat A) nrow ncol f idx :
  dm_holds m nrow ncol f -> increasing idx -> (forall i, In i idx -> 0 <= i < ncol) ->
  exists m', dm_select_columns m idx = Some m' /\ dm_holds m' nrow (zlen idx) (fun i j => f i (nthz idx j)).
Proof.
  intros (Hok & Hr & Hc & Hf & He) Hinc Hin. unfold dm_select_columns. rewrite Hr.
  pose proof Hf as (F1 & F2 & F3 & F4 & F5). set (L := dm_ld m) in *.
  assert (Hnn : forall i, 0 <= i < zlen idx -> 0 <= nthz idx i < ncol).
  { intros i Hi. apply Hin. apply (getz_In idx i). apply getz_nthz. lia. }
  assert (Hge : forall i, 0 <= i < zlen idx -> i <= nthz idx i < ncol).
  { intros i Hi. split; [|apply Hnn; auto]. apply increasing_ge; auto. intros x Hx. apply Hin in Hx. lia. }
  set (C := zlen idx) in *. pose proof (zlen_nonneg idx) as HC0. fold C in HC0.
  assert (HC : C <= ncol) by (destruct (Z.eq_dec C 0); [lia|]; pose proof (Hge (C - 1) ltac:(lia)); lia).
  match goal with |- context [zfor 0 nrow ?b _] =>
    destruct (zfor_inv (fun n (d : mem A) => zlen d = zlen (dm_data m) /\
       (forall i j, 0 <= i < n -> 0 <= j < C -> ld d (i * L + j) = Some (f i (nthz idx j))) /\
       (forall i j, n <= i < nrow -> 0 <= j < ncol -> ld d (i * L + j) = Some (f i j))) 0 nrow b (dm_data m))
      as (x & E & P1 & P2 & P3) end.
  - auto.
  - split; auto. split; [intros; lia|auto].
  - intros r d Hrr (P1 & P2 & P3).
    match goal with |- context [zfor 0 C ?b d] =>
      destruct (zfor_inv (fun n (e : mem A) => zlen e = zlen (dm_data m) /\
        (forall j, 0 <= j < n -> ld e (r * L + j) = Some (f r (nthz idx j))) /\
        (forall j, n <= j < ncol -> ld e (r * L + j) = Some (f r j)) /\
        (forall k, ~ (r * L <= k < r * L + ncol) -> ld e k = ld d k)) 0 C b d) as (e & -> & Q1 & Q2 & Q3 & Q4) end.
    + auto.
    + split; auto. split; [intros; lia|]. split; [|auto]. intros; apply P3; lia.
    + intros c e Hcc (Q1 & Q2 & Q3 & Q4). rewrite (getz_nthz idx c) by (fold C; lia). cbn [bind].
      pose proof (Hge c Hcc). rewrite Q3 by lia. cbn [bind].
      pose proof (fits_cell _ _ _ _ _ r c Hf Hrr ltac:(lia)) as Hcell.
      destruct (st_Some e (r * L + c) (f r (nthz idx c)) ltac:(lia)) as [e' Ee]. exists e'. split; auto.
      split; [rewrite (st_zlen _ _ _ _ Ee); auto|]. split; [|split].
      * intros j Hj. rewrite (ld_st _ _ _ _ _ Ee). destruct (Z.eqb_spec (r * L + c) (r * L + j)).
        { assert (j = c) by lia. now subst. } apply Q2. lia.
      * intros j Hj. rewrite (ld_st _ _ _ _ _ Ee). destruct (Z.eqb_spec (r * L + c) (r * L + j)); [lia|]. apply Q3; lia.
      * intros k Hk. rewrite (ld_st _ _ _ _ _ Ee). destruct (Z.eqb_spec (r * L + c) k); [lia|]. apply Q4; auto.
    + exists e. split; auto. split; auto. split.
      * intros i j Hi Hj. destruct (Z.eq_dec i r) as [->|]; [apply Q2; auto|].
        rewrite Q4; [apply P2; lia|]. assert (i * L + L <= r * L) by nia. lia.
      * intros i j Hi Hj. rewrite Q4; [apply P3; lia|]. assert (r * L + L <= i * L) by nia. lia.
  - rewrite E. cbn [bind]. destruct (Z.eq_dec nrow 0) as [Hn0|Hn0].
    { rewrite zfor_empty by lia. cbn [bind]. eexists; split; [reflexivity|]. unfold dm_holds, dm_ok; simpl.
      rewrite P1. repeat split; auto; try lia. }
    match goal with |- context [zfor 1 nrow ?b x] =>
      destruct (zfor_inv (fun n (d : mem A) => zlen d = zlen (dm_data m) /\
         (forall i j, 0 <= i < n -> 0 <= j < C -> ld d (i * C + j) = Some (f i (nthz idx j))) /\
         (forall i j, n <= i < nrow -> 0 <= j < C -> ld d (i * L + j) = Some (f i (nthz idx j)))) 1 nrow b x)
        as (y & -> & Q1 & Q2 & Q3) end.
    + lia.
    + split; auto. split; [|intros; apply P2; lia]. intros i j Hi Hj. assert (i = 0) by lia. subst i.
      replace (0 * C + j) with (0 * L + j) by lia. apply P2; lia.
    + intros r d Hrr (Q1 & Q2 & Q3). unfold mmove.
      assert (r * C <= r * L) by nia.
      destruct (Z.eq_dec C 0) as [EC|EC].
      { exists d. unfold mcpy. rewrite zfor_empty by lia. split; auto. split; auto. split; intros; lia. }
      pose proof (fits_row _ _ _ _ _ r Hf ltac:(lia) ltac:(lia)) as Hrow.
      destruct (mcpy_spec d (r * C) d (r * L) C) as (d' & E' & Z' & G'); try nia.
      exists d'. split; auto. split; [lia|]. unfold ld in *. split.
      * intros i j Hi Hj. rewrite G'. destruct (Z.eq_dec i r) as [->|].
        { destruct (Z.leb_spec (r * C) (r * C + j)); [|lia]. destruct (Z.ltb_spec (r * C + j) (r * C + C)); [|lia]. simpl.
          replace (r * L + (r * C + j - r * C)) with (r * L + j) by lia. apply Q3; lia. }
        { assert (i * C + C <= r * C) by nia. destruct (Z.leb_spec (r * C) (i * C + j)); [lia|]. simpl. apply Q2; lia. }
      * intros i j Hi Hj. rewrite G'. assert (r * L + L <= i * L) by nia.
        destruct (Z.ltb_spec (i * L + j) (r * C + C)); [lia|]. rewrite andb_false_r. apply Q3; lia.
    + cbn [bind]. eexists. split; [reflexivity|]. unfold dm_holds, dm_ok; simpl. rewrite Q1.
      repeat split; auto; try lia.
      intros H0 H1. pose proof (fits_row _ _ _ _ _ (nrow - 1) Hf ltac:(lia) ltac:(lia)). fold L in H. nia.
Qed.
