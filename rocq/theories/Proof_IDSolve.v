(** The triangular solve and the projection matrix (Model_ID.trsm, id_U), for
    any arithmetic. *)
From Coq Require Import ZArith QArith List Lia Bool Permutation.
From Verif Require Import Base Mem FNum Model_Utils Model_Dense Model_CSR Model_Build Spec_Dense Proof_Dense Proof_Build Model_ID Proof_IDMem Proof_IDQR Proof_IDIndex.
Import ListNotations.
Open Scope Z_scope.

Section Solve.
Context {F : fnum}.

(** Row k of the back substitution for right-hand side column c. *)
Definition tri_row (M : Z -> Z -> F) (r c : Z) (e : Z -> F) (k : Z) : Prop :=
  fdiv (fsub (M k c) (fdot (map (fun l => M k (k + 1 + l)) (zrange 0 (r - 1 - k))) (map (fun l => e (k + 1 + l)) (zrange 0 (r - 1 - k))))) (M k k) = Some (e k).
Lemma tri_row_ext M r c e e' k : 0 <= k < r -> (forall l, k <= l < r -> e l = e' l) -> tri_row M r c e k -> tri_row M r c e' k.
Proof.
  intros Hk He. unfold tri_row. rewrite (He k) by lia. rewrite (map_ext_in (fun l => e (k + 1 + l)) (fun l => e' (k + 1 + l))); auto.
  intros l Hl. apply In_zrange in Hl. apply He. lia.
Qed.

Lemma trsm_col (R : mem F) ldR nrow ncol r M c : colmat R ldR nrow ncol M -> 0 <= r <= nrow -> nrow <= ldR -> r <= c < ncol -> (forall k a, 0 <= k < r -> exists x, fdiv a (M k k) = Some x) ->
  exists R' e, zfor 0 r (fun t R => let k := r - 1 - t in
      row <- rds R (k + (k + 1) * ldR) (r - 1 - k) ldR;
      x <- rds R (c * ldR + k + 1) (r - 1 - k) 1;
      bk <- ld R (c * ldR + k);
      d <- ld R (k * ldR + k);
      v <- fdiv (fsub bk (fdot row x)) d;
      st R (c * ldR + k) v) R = Some R' /\ zlen R' = zlen R /\
    colmat R' ldR nrow ncol (fun k c' => if (c' =? c) && (k <? r) then e k else M k c') /\ (forall k, 0 <= k < r -> tri_row M r c e k).
Proof.
  intros HR Hr Hld Hc Hd.
  destruct (zfor_inv (fun t (R1 : mem F) => zlen R1 = zlen R /\ exists e, colmat R1 ldR nrow ncol (fun k c' => if (c' =? c) && ((r - t <=? k) && (k <? r)) then e k else M k c') /\ forall k, r - t <= k < r -> tri_row M r c e k) 0 r
    (fun t R => let k := r - 1 - t in
      row <- rds R (k + (k + 1) * ldR) (r - 1 - k) ldR;
      x <- rds R (c * ldR + k + 1) (r - 1 - k) 1;
      bk <- ld R (c * ldR + k);
      d <- ld R (k * ldR + k);
      v <- fdiv (fsub bk (fdot row x)) d;
      st R (c * ldR + k) v) R) as (R' & E & Z1 & e & H1 & H2); try lia.
  - split; auto. exists (fun _ => flit 0%Q). split; [|lia]. apply (colmat_ext _ _ _ _ _ _ HR). intros k c' Hk Hc'. destruct (Z.leb_spec (r - 0) k); destruct (Z.ltb_spec k r); cbn [andb]; rewrite ?andb_false_r; auto; lia.
  - intros t R1 Ht (Z1 & e & H1 & H2). cbv zeta. set (k := r - 1 - t).
    rewrite (rds_spec R1 (k + (k + 1) * ldR) (r - 1 - k) ldR (fun l => M k (k + 1 + l))).
    2:{ intros l Hl. replace (k + (k + 1) * ldR + l * ldR) with ((k + 1 + l) * ldR + k) by lia. rewrite H1 by lia. destruct (Z.eqb_spec (k + 1 + l) c); [lia|reflexivity]. }
    cbn [bind]. rewrite (rds1_spec R1 (c * ldR + k + 1) (r - 1 - k) (fun l => e (k + 1 + l))).
    2:{ intros l Hl. replace (c * ldR + k + 1 + l) with (c * ldR + (k + 1 + l)) by lia. rewrite H1 by lia. rewrite Z.eqb_refl. destruct (Z.leb_spec (r - t) (k + 1 + l)); destruct (Z.ltb_spec (k + 1 + l) r); try lia. reflexivity. }
    cbn [bind]. rewrite H1 by lia. cbn [bind]. rewrite H1 by lia. cbn [bind]. rewrite Z.eqb_refl. destruct (Z.leb_spec (r - t) k); [lia|]. cbn [andb]. destruct (Z.eqb_spec k c); [lia|]. cbn [andb].
    destruct (Hd k (fsub (M k c) (fdot (map (fun l => M k (k + 1 + l)) (zrange 0 (r - 1 - k))) (map (fun l => e (k + 1 + l)) (zrange 0 (r - 1 - k))))) ltac:(lia)) as (v & Ev). rewrite Ev. cbn [bind].
    pose proof (ld_range _ _ _ (H1 k c ltac:(lia) ltac:(lia))) as Bk. destruct (st_Some R1 (c * ldR + k) v Bk) as (R2 & E2). exists R2. split; auto.
    split; [rewrite (st_zlen _ _ _ _ E2); auto|]. exists (fun l => if l =? k then v else e l). split.
    + intros k' c' Hk' Hc'. rewrite (ld_st _ _ _ _ (c' * ldR + k') E2). destruct (Z.eqb_spec (c * ldR + k) (c' * ldR + k')) as [Ek|Nk].
      * destruct (cell_in ldR nrow c k c' k' 1); try lia. assert (k' = k) by lia. subst c' k'. rewrite !Z.eqb_refl. destruct (Z.leb_spec (r - (t + 1)) k); destruct (Z.ltb_spec k r); try lia. reflexivity.
      * rewrite H1 by auto. destruct (Z.eqb_spec c' c) as [->|]; cbn [andb]; auto. destruct (Z.eqb_spec k' k); [subst; congruence|].
        destruct (Z.leb_spec (r - t) k'); destruct (Z.leb_spec (r - (t + 1)) k'); destruct (Z.ltb_spec k' r); cbn [andb]; auto; lia.
    + intros k' Hk'. destruct (Z.eq_dec k' k) as [->|N].
      * unfold tri_row. rewrite Z.eqb_refl. rewrite <- Ev. do 3 f_equal. apply map_ext_in. intros l Hl. apply In_zrange in Hl. destruct (Z.eqb_spec (k + 1 + l) k); [lia|auto].
      * apply (tri_row_ext M r c e); [lia| |apply H2; lia]. intros l Hl. destruct (Z.eqb_spec l k); [lia|auto].
  - exists R', e. split; auto. split; auto. split; [|intros; apply H2; lia].
    apply (colmat_ext _ _ _ _ _ _ H1). intros k c' Hk Hc'. destruct (Z.leb_spec (r - r) k); [|lia]. reflexivity.
Qed.

Lemma trsm_spec (R : mem F) ldR nrow ncol r M : colmat R ldR nrow ncol M -> 0 <= r <= nrow -> nrow <= ldR -> r <= ncol -> (forall k a, 0 <= k < r -> exists x, fdiv a (M k k) = Some x) ->
  exists R' E, trsm R ldR r (ncol - r) (r * ldR) = Some R' /\ zlen R' = zlen R /\
    colmat R' ldR nrow ncol (fun k c => if (r <=? c) && (k <? r) then E k c else M k c) /\
    (forall k c, 0 <= k < r -> r <= c < ncol -> tri_row M r c (fun l => E l c) k).
Proof.
  intros HR Hr Hld Hrc Hd. unfold trsm.
  match goal with |- context [zfor 0 (ncol - r) ?b R] =>
    destruct (zfor_inv (fun j (R1 : mem F) => zlen R1 = zlen R /\ exists E, colmat R1 ldR nrow ncol (fun k c => if ((r <=? c) && (c <? r + j)) && (k <? r) then E k c else M k c) /\
      forall k c, 0 <= k < r -> r <= c < r + j -> tri_row M r c (fun l => E l c) k) 0 (ncol - r) b R) as (R' & E1 & Z1 & E & H1 & H2); try lia end.
  - split; auto. exists (fun _ _ => flit 0%Q). split; [|lia]. apply (colmat_ext _ _ _ _ _ _ HR). intros k c Hk Hc. destruct (Z.leb_spec r c); destruct (Z.ltb_spec c (r + 0)); cbn [andb]; auto; lia.
  - intros j R1 Hj (Z1 & E & H1 & H2).
    set (M1 := fun k c => if ((r <=? c) && (c <? r + j)) && (k <? r) then E k c else M k c) in *.
    assert (Hlow : forall k c, c < r -> M1 k c = M k c) by (intros k c Hc; unfold M1; destruct (Z.leb_spec r c); [lia|reflexivity]).
    assert (Hcj : forall k, M1 k (r + j) = M k (r + j)) by (intros k; unfold M1; rewrite Z.ltb_irrefl, andb_false_r; reflexivity).
    destruct (trsm_col R1 ldR nrow ncol r M1 (r + j) H1 Hr Hld ltac:(lia)) as (R2 & e & E2 & Z2 & H3 & H4).
    { intros k a Hk. rewrite Hlow by lia. auto. }
    cbv zeta. cbv zeta in E2. replace (r * ldR + j * ldR) with ((r + j) * ldR) by lia. rewrite E2. exists R2. split; auto. split; [lia|].
    exists (fun k c => if c =? r + j then e k else E k c). split.
    + apply (colmat_ext _ _ _ _ _ _ H3). intros k c Hk Hc. cbn beta. unfold M1. destruct (Z.eqb_spec c (r + j)) as [->|N].
      * rewrite Z.ltb_irrefl, andb_false_r. cbn [andb]. destruct (Z.leb_spec r (r + j)); destruct (Z.ltb_spec (r + j) (r + (j + 1))); try lia. reflexivity.
      * cbn [andb]. destruct (Z.ltb_spec c (r + j)); destruct (Z.ltb_spec c (r + (j + 1))); try lia; reflexivity.
    + intros k c Hk Hc. destruct (Z.eq_dec c (r + j)) as [->|N].
      * apply (tri_row_ext M r (r + j) e); auto; [intros; now rewrite Z.eqb_refl|]. specialize (H4 k Hk). unfold tri_row in *. rewrite Hcj, Hlow in H4 by lia.
        rewrite (map_ext_in (fun l => M1 k (k + 1 + l)) (fun l => M k (k + 1 + l))) in H4; auto. intros l Hl. apply In_zrange in Hl. apply Hlow. lia.
      * apply (tri_row_ext M r c (fun l => E l c)); auto; [|apply H2; lia]. intros l Hl. destruct (Z.eqb_spec c (r + j)); [lia|auto].
  - exists R', E. split; auto. split; auto. split; [|intros; apply H2; lia].
    apply (colmat_ext _ _ _ _ _ _ H1). intros k c Hk Hc. destruct (Z.ltb_spec c (r + (ncol - r))); [|lia]. rewrite andb_true_r. reflexivity.
Qed.

Definition delta (a b : Z) : F := if a =? b then flit 1%Q else flit 0%Q.
(** Entry of U: row i is at position q i of the factorisation. *)
Definition U_entry (r : Z) (s q : Z -> Z) (E : Z -> Z -> F) (i k : Z) : F := if q i <? r then delta (q i) k else E (s k) (q i).

Lemma U_id_loop n r (d0 : mem F) : 0 <= r <= n -> zlen d0 = n * r ->
  exists d, zfor 0 r (fun i d => d <- zfor 0 r (fun k d => st d (i * r + k) (flit 0%Q)) d; st d (i * r + i) (flit 1%Q)) d0 = Some d /\ zlen d = n * r /\
    forall i k, 0 <= i < r -> 0 <= k < r -> ld d (i * r + k) = Some (delta i k).
Proof.
  intros Hr Zd.
  match goal with |- context [zfor 0 r ?b d0] =>
    destruct (zfor_inv (fun j (d : mem F) => zlen d = n * r /\ forall i k, 0 <= i < j -> 0 <= k < r -> ld d (i * r + k) = Some (delta i k)) 0 r b d0) as (d & E & Z1 & G); try lia end.
  - split; auto. lia.
  - intros j d1 Hj (Z1 & G).
    assert ((j + 1) * r <= n * r) by (apply Z.mul_le_mono_nonneg_r; lia). assert (0 <= j * r) by (apply Z.mul_nonneg_nonneg; lia).
    destruct (zfor_cells (j * r) 0 r (fun _ => flit 0%Q) (fun k d => st d (j * r + k) (flit 0%Q)) d1) as (d2 & E2 & S2 & G2); try lia; auto.
    rewrite E2. cbn [bind]. destruct (st_Some d2 (j * r + j) (flit 1%Q)) as (d3 & E3); [rewrite (proj1 S2); lia|]. exists d3. split; auto.
    split; [rewrite (st_zlen _ _ _ _ E3), (proj1 S2); auto|]. intros i k Hi Hk. rewrite (ld_st _ _ _ _ (i * r + k) E3). unfold delta.
    destruct (Z.eq_dec i j) as [->|N].
    + destruct (Z.eqb_spec (j * r + j) (j * r + k)); destruct (Z.eqb_spec j k); try lia; auto.
    + assert ((i + 1) * r <= j * r) by (apply Z.mul_le_mono_nonneg_r; lia). destruct (Z.eqb_spec (j * r + j) (i * r + k)); [lia|].
      rewrite (same_out_ld _ _ _ _ _ S2) by lia. apply G; lia.
  - exists d. auto.
Qed.

Lemma id_U_spec n r ldR nrow (R : mem F) (i0 p1 : mem Z) M (s q : Z -> Z) : colmat R ldR nrow n M -> 1 <= r <= n -> r <= nrow -> nrow <= ldR ->
  holdsv i0 n s -> holdsv p1 n q -> (forall c, 0 <= c < r -> 0 <= s c < r) -> (forall i, 0 <= i < n -> 0 <= q i < n) ->
  (forall k a, 0 <= k < r -> exists x, fdiv a (M k k) = Some x) ->
  exists U E, id_U n r ldR R i0 p1 = Some U /\ dm_holds U n r (U_entry r s q E) /\
    (forall k c, 0 <= k < r -> r <= c < n -> tri_row M r c (fun l => E l c) k).
Proof.
  intros HR Hr Hrn Hld Hi0 Hp1 Hs Hq Hd. unfold id_U.
  assert (0 <= n * r) by (apply Z.mul_nonneg_nonneg; lia).
  assert (Di : @dm_init F n r = mkDM n r r (n * r) (alloc (n * r))) by (unfold dm_init; rewrite !Z.max_r by lia; reflexivity). rewrite Di. cbn [dm_data].
  destruct (U_id_loop n r (alloc (n * r)) ltac:(lia) ltac:(rewrite zlen_alloc by lia; lia)) as (d1 & -> & Z1 & G1). cbn [bind].
  destruct (trsm_spec R ldR nrow n r M HR ltac:(lia) Hld ltac:(lia) Hd) as (R' & E & -> & ZR & HR' & HE). cbn [bind].
  match goal with |- context [zfor 0 r ?b d1] =>
    destruct (zfor_inv (fun j (d : mem F) => zlen d = n * r /\ (forall i k, 0 <= i < r -> 0 <= k < r -> ld d (i * r + k) = Some (delta i k)) /\
      (forall i k, r <= i < n -> 0 <= k < j -> ld d (i * r + k) = Some (E (s k) i))) 0 r b d1) as (d2 & E2 & Z2 & G2 & G3); try lia end.
  - split; auto. split; auto. lia.
  - intros j d Hj (Z2 & G2 & G3). rewrite (Hi0 j ltac:(lia)). cbn [bind].
    match goal with |- context [zfor 0 (n - r) ?b d] =>
      destruct (zfor_inv (fun t (d' : mem F) => zlen d' = n * r /\ (forall i k, 0 <= i < r -> 0 <= k < r -> ld d' (i * r + k) = Some (delta i k)) /\
        (forall i k, r <= i < n -> 0 <= k < j -> ld d' (i * r + k) = Some (E (s k) i)) /\ (forall i, r <= i < r + t -> ld d' (i * r + j) = Some (E (s j) i))) 0 (n - r) b d) as (d' & E2 & Z3 & G4 & G5 & G6); try lia end.
    + split; auto. split; auto. split; auto. lia.
    + intros t d' Ht (Z3 & G4 & G5 & G6). pose proof (Hs j Hj).
      replace (r * ldR + s j + t * ldR) with ((r + t) * ldR + s j) by lia. rewrite HR' by lia.
      destruct (Z.leb_spec r (r + t)); [|lia]. destruct (Z.ltb_spec (s j) r); [|lia]. cbn [andb bind].
      replace (r * r + j + t * r) with ((r + t) * r + j) by lia.
      assert ((r + t + 1) * r <= n * r) by (apply Z.mul_le_mono_nonneg_r; lia). assert (0 <= (r + t) * r) by (apply Z.mul_nonneg_nonneg; lia).
      destruct (st_Some d' ((r + t) * r + j) (E (s j) (r + t))) as (d3 & E3); [lia|]. exists d3. split; auto.
      assert (Keep : forall i k, 0 <= k < r -> ~ (i = r + t /\ k = j) -> ld d3 (i * r + k) = ld d' (i * r + k)).
      { intros i k Hk N. rewrite (ld_st _ _ _ _ (i * r + k) E3). destruct (Z.eqb_spec ((r + t) * r + j) (i * r + k)) as [Eq|]; auto. exfalso.
        destruct (cell_in r r (r + t) j i k 1); try lia. }
      split; [rewrite (st_zlen _ _ _ _ E3); auto|]. split; [intros; rewrite Keep by lia; auto|]. split; [intros; rewrite Keep by lia; auto|].
      intros i Hi. destruct (Z.eq_dec i (r + t)) as [->|]; [|rewrite Keep by lia; apply G6; lia]. rewrite (ld_st _ _ _ _ _ E3), Z.eqb_refl. reflexivity.
    + exists d'. split; auto. split; auto. split; auto. intros i k Hi Hk. destruct (Z.eq_dec k j) as [->|]; [apply G6; lia|apply G5; lia].
  - rewrite E2. cbn [bind]. rewrite (read_cells_spec p1 0 n q) by (auto; lia). cbn [bind].
    unfold dm_set_data. cbn [dm_nrow dm_ncol dm_ld dm_size].
    destruct (dm_permute_rows_spec (mkDM n r r (n * r) d2) n r (fun i k => if i <? r then delta i k else E (s k) i) (map (fun k => q (k - 0)) (zrange 0 (0 + n)))) as (U & EU & HU).
    + split; [unfold dm_ok; cbn; lia|]. cbn [dm_nrow dm_ncol dm_ld dm_data]. do 2 (split; [reflexivity|]). split.
      { assert ((n - 1) * r + r <= n * r) by lia. unfold fits. lia. }
      intros i k Hi Hk. destruct (Z.ltb_spec i r); [apply G2; lia|apply G3; lia].
    + unfold zlen. rewrite map_length. fold (zlen (zrange 0 (0 + n))). rewrite zlen_zrange by lia. lia.
    + intros i Hi. apply in_map_iff in Hi as (k & <- & Hk). apply In_zrange in Hk. apply Hq. lia.
    + exists U, E. split; auto. split; auto.
      destruct HU as (U1 & U2 & U3 & U4 & U5). split; auto. split; auto. split; auto. split; auto. intros i k Hi Hk. rewrite U5 by auto. unfold U_entry.
      assert (nthz (map (fun k0 => q (k0 - 0)) (zrange 0 (0 + n))) i = q i) as ->; auto.
      apply nthz_eq. rewrite getz_map, getz_zrange by lia. cbn. f_equal. f_equal. lia.
Qed.
End Solve.
