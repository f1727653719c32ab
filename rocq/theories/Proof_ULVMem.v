(** The elementary operations of Model_ULV.v on regions of arrays. *)
From Coq Require Import ZArith List Lia Bool Permutation.
From Verif Require Import Base Mem Num CRing Conc Model_Utils Spec_Utils Model_Dense Spec_Dense Proof_Dense Model_Matvec Proof_Gemv Model_Matmul Proof_Gemm Model_Build Proof_Build Spec_Lapack Blk Model_ULV.
Import ListNotations.
Open Scope Z_scope.

Section Mem.
Context {K : cring}.
Add Ring Kring : (cth K).
Local Open Scope ring_K.
Variable la : lapack K.

(** [a'] is [a] with the region set to [f]. *)
Definition updr (a a' : mem K) (o l m n : Z) (f : Z -> Z -> K) : Prop :=
  zlen a' = zlen a /\ holds a' o l m n f /\
  forall x, (forall i j, 0 <= i < m -> 0 <= j < n -> x <> o + (i * l + j))%Z -> getz a' x = getz a x.

Lemma updr_ext a a' o l m n f g : updr a a' o l m n f -> (forall i j, 0 <= i < m -> 0 <= j < n -> f i j = g i j) -> updr a a' o l m n g.
Proof. intros (H1 & H2 & H3) E. split; [exact H1|]. split; [|exact H3]. eapply holds_ext; eauto. Qed.

Lemma updr_patch a a' l M N g f r0 c0 m n o' : updr a a' o' l m n f -> holds a 0 l M N g -> (N <= l -> 0 <= r0 -> r0 + m <= M -> 0 <= c0 -> c0 + n <= N -> o' = r0 * l + c0 ->
  holds a' 0 l M N (patch r0 c0 m n f g))%Z.
Proof. intros (H1 & H2 & H3) H. intros. eapply holds_patch; eauto; lia. Qed.

Lemma wr_upd m n f a o l : fits m n o l (zlen a) -> exists a', wr m n f a o l = Some a' /\ updr a a' o l m n f.
Proof. intros Hf. destruct (wr_ok m n f a o l Hf) as (a' & E & H1 & H2 & H3). exists a'. split; auto. split; auto. Qed.

Lemma fits_sub (a : mem K) l M N f r0 c0 m n o : (holds a 0 l M N f -> N <= l -> 0 <= r0 -> r0 + m <= M -> 0 <= c0 -> c0 + n <= N -> 0 <= m -> 0 <= n -> o = r0 * l + c0 ->
  fits m n o l (zlen a))%Z.
Proof. intros H. intros. subst o. replace (r0 * l + c0)%Z with (0 + (r0 * l + c0))%Z by lia. eapply holds_fits; eauto. lia. Qed.

Lemma copy_upd m n (src : mem K) so lds dst d_o ldd f : 0 <= m -> 0 <= n -> 0 <= so -> n <= lds -> holds src so lds m n f -> fits m n d_o ldd (zlen dst) ->
  exists d, copy_matrix m n src so lds dst d_o ldd = Some d /\ updr dst d d_o ldd m n f.
Proof.
  intros Hm Hn Hso Hl Hf Hd.
  destruct (copy_matrix_spec m n src so lds dst d_o ldd) as (d & E & Z1 & G1 & G2); auto.
  - repeat (split; [auto; lia|]). intros Pm Pn. pose proof (ld_range _ _ _ (Hf (m - 1)%Z (n - 1)%Z ltac:(lia) ltac:(lia))). lia.
  - exists d. split; auto. split; auto. split.
    + intros i j Hi Hj. unfold ld. replace (d_o + (i * ldd + j))%Z with (d_o + i * ldd + j)%Z by lia. rewrite G1 by auto.
      replace (so + i * lds + j)%Z with (so + (i * lds + j))%Z by lia. now apply Hf.
    + intros x Hx. apply G2. intros (i & j & Hi & Hj & E'). apply (Hx i j); auto. lia.
Qed.

Lemma gemm_upd (ta tb : bool) m n k (A : mem K) ao lda (B : mem K) bo ldb (C : mem K) co ldc (av bv : Z -> Z -> K) :
  0 <= k -> fits m n co ldc (zlen C) ->
  (if ta then holds A ao lda k m (fun i j => av j i) else holds A ao lda m k av) ->
  (if tb then holds B bo ldb n k (fun i j => bv j i) else holds B bo ldb k n bv) ->
  exists C', gemm ta tb m n k A ao lda B bo ldb false C co ldc = Some C' /\ updr C C' co ldc m n (fun i j => rsum 0 k (fun p => av i p * bv p j)).
Proof.
  intros Hk Hf HA HB.
  destruct (gemm_spec ta tb m n k A ao lda B bo ldb false C co ldc av bv (fun _ _ => c0)) as (C' & E & Z1 & H1 & H2); auto.
  - intros i p Hi Hp. destruct ta; [now apply (HA p i)|now apply HA].
  - intros p j Hp Hj. destruct tb; [now apply (HB j p)|now apply HB].
  - discriminate.
  - exists C'. split; auto. split; auto. split; auto. intros i j Hi Hj. rewrite H1 by auto. f_equal. ring.
Qed.

Lemma gemm_neg_upd (ta : bool) m n k (A : mem K) ao lda (B : mem K) bo ldb (C : mem K) co ldc (av bv cv : Z -> Z -> K) :
  fits m n co ldc (zlen C) ->
  (if ta then holds A ao lda k m (fun i j => av j i) else holds A ao lda m k av) -> holds B bo ldb k n bv -> holds C co ldc m n cv ->
  exists C', gemm_neg ta m n k A ao lda B bo ldb C co ldc = Some C' /\ updr C C' co ldc m n (fun i j => cv i j - rsum 0 k (fun p => av i p * bv p j)).
Proof.
  intros Hf HA HB HC. unfold gemm_neg.
  destruct (rd_ok C co ldc m n cv HC) as (c & Ec & Gc). destruct (rd_ok B bo ldb k n bv HB) as (b & Eb & Gb).
  destruct ta.
  - destruct (rd_ok A ao lda k m _ HA) as (a & Ea & Ga). rewrite Ea, Eb, Ec. cbn [bind].
    destruct (wr_upd m n (fun i j => c i j - rsum 0 k (fun l => a l i * b l j)) C co ldc Hf) as (C' & E & U). exists C'. split; auto.
    eapply updr_ext; [exact U|]. intros i j Hi Hj. cbv beta. rewrite Gc by auto. f_equal. apply rsum_ext. intros l Hl. rewrite Ga, Gb by auto. auto.
  - destruct (rd_ok A ao lda m k _ HA) as (a & Ea & Ga). rewrite Ea, Eb, Ec. cbn [bind].
    destruct (wr_upd m n (fun i j => c i j - rsum 0 k (fun l => a i l * b l j)) C co ldc Hf) as (C' & E & U). exists C'. split; auto.
    eapply updr_ext; [exact U|]. intros i j Hi Hj. cbv beta. rewrite Gc by auto. f_equal. apply rsum_ext. intros l Hl. rewrite Ga, Gb by auto. auto.
Qed.

(** Results of routines that work on what they read: [G] is the result's
    defining property in terms of the exact functions. *)
Lemma trsm_left_upd lower trans unit m n A ao lda B bo ldb (av bv : Z -> Z -> K) : lapack_ok la -> 0 <= m ->
  fits m n bo ldb (zlen B) -> holds A ao lda m m av -> holds B bo ldb m n bv ->
  exists B' X, trsm la true lower trans unit m n A ao lda B bo ldb = Some B' /\ updr B B' bo ldb m n X /\
    ((unit = false -> forall i, 0 <= i < m -> av i i <> c0) -> forall i j, 0 <= i < m -> 0 <= j < n -> rsum 0 m (fun l => top trans (tri lower unit av) i l * X l j) = bv i j).
Proof.
  intros Hla Hm Hf HA HB. unfold trsm. destruct (rd_ok A ao lda m m av HA) as (a & Ea & Ga). destruct (rd_ok B bo ldb m n bv HB) as (b & Eb & Gb).
  rewrite Ea, Eb. cbn [bind]. destruct (wr_upd m n (l_trsm la true lower trans unit m n a b) B bo ldb Hf) as (B' & E & U).
  exists B', (l_trsm la true lower trans unit m n a b). split; auto. split; auto. intros Hu i j Hi Hj.
  rewrite <- (Gb i j) by auto. rewrite <- (la_trsm_left la Hla lower trans unit m n a b Hm) by (auto; intros Eu k Hk; rewrite Ga by auto; now apply Hu).
  apply rsum_ext. intros l Hl. f_equal. unfold top, tri. destruct trans; (rewrite Z.eqb_sym || idtac).
  - destruct (Z.eqb_spec i l) as [->|]; [destruct (l =? l)%Z; destruct unit; auto; now rewrite Ga|].
    destruct (Z.eqb_spec l i); [congruence|]. destruct lower; [destruct (i <? l)%Z|destruct (l <? i)%Z]; auto; now rewrite Ga.
  - destruct (Z.eqb_spec l i) as [->|]; [destruct (i =? i)%Z; destruct unit; auto; now rewrite Ga|].
    destruct (Z.eqb_spec i l); [congruence|]. destruct lower; [destruct (l <? i)%Z|destruct (i <? l)%Z]; auto; now rewrite Ga.
Qed.
Lemma trsm_right_upd lower trans unit m n A ao lda B bo ldb (av bv : Z -> Z -> K) : lapack_ok la -> 0 <= n ->
  fits m n bo ldb (zlen B) -> holds A ao lda n n av -> holds B bo ldb m n bv ->
  exists B' X, trsm la false lower trans unit m n A ao lda B bo ldb = Some B' /\ updr B B' bo ldb m n X /\
    ((unit = false -> forall i, 0 <= i < n -> av i i <> c0) -> forall i j, 0 <= i < m -> 0 <= j < n -> rsum 0 n (fun l => X i l * top trans (tri lower unit av) l j) = bv i j).
Proof.
  intros Hla Hm Hf HA HB. unfold trsm. destruct (rd_ok A ao lda n n av HA) as (a & Ea & Ga). destruct (rd_ok B bo ldb m n bv HB) as (b & Eb & Gb).
  rewrite Ea, Eb. cbn [bind]. destruct (wr_upd m n (l_trsm la false lower trans unit m n a b) B bo ldb Hf) as (B' & E & U).
  exists B', (l_trsm la false lower trans unit m n a b). split; auto. split; auto. intros Hu i j Hi Hj.
  rewrite <- (Gb i j) by auto. rewrite <- (la_trsm_right la Hla lower trans unit m n a b Hm) by (auto; intros Eu k Hk; rewrite Ga by auto; now apply Hu).
  apply rsum_ext. intros l Hl. f_equal. unfold top, tri. destruct trans.
  - destruct (Z.eqb_spec j l) as [->|]; [destruct unit; auto; now rewrite Ga|].
    destruct lower; [destruct (l <? j)%Z|destruct (j <? l)%Z]; auto; now rewrite Ga.
  - destruct (Z.eqb_spec l j) as [->|]; [destruct unit; auto; now rewrite Ga|].
    destruct lower; [destruct (j <? l)%Z|destruct (l <? j)%Z]; auto; now rewrite Ga.
Qed.
(** Without a usable diagonal nothing is known of the result. *)
Lemma trsm_any left lower trans unit m n A ao lda B bo ldb (av bv : Z -> Z -> K) :
  fits m n bo ldb (zlen B) -> holds A ao lda (if left : bool then m else n) (if left then m else n) av -> holds B bo ldb m n bv ->
  exists B' X, trsm la left lower trans unit m n A ao lda B bo ldb = Some B' /\ updr B B' bo ldb m n X.
Proof.
  intros Hf HA HB. unfold trsm. destruct (rd_ok A ao lda _ _ av HA) as (a & Ea & Ga). destruct (rd_ok B bo ldb m n bv HB) as (b & Eb & Gb).
  rewrite Ea, Eb. cbn [bind]. destruct (wr_upd m n (l_trsm la left lower trans unit m n a b) B bo ldb Hf) as (B' & E & U). eauto.
Qed.

(** Q depends on the stored reflectors only. *)
Lemma qprod_ext n k A A' (tau tau' : Z -> K) : Z.of_nat k <= n -> (forall i j, 0 <= i < n -> 0 <= j < Z.of_nat k -> A i j = A' i j) ->
  (forall j, 0 <= j < Z.of_nat k -> tau j = tau' j) -> forall r c, 0 <= c < n -> qprod n k A tau r c = qprod n k A' tau' r c.
Proof.
  induction k as [|k IH]; intros Hk HA Ht r c Hc; [reflexivity|]. cbn [qprod]. apply rsum_ext. intros l Hl.
  rewrite IH by (try lia; intros; (apply HA || apply Ht); lia). f_equal. unfold refl, reflv. rewrite Ht by lia.
  destruct (l <? Z.of_nat k)%Z eqn:E1; destruct (c <? Z.of_nat k)%Z eqn:E2; destruct (l =? Z.of_nat k)%Z eqn:E3; destruct (c =? Z.of_nat k)%Z eqn:E4; auto;
    rewrite ?(HA l), ?(HA c) by lia; auto.
Qed.
Lemma qmat_ext n k A A' (tau tau' : Z -> K) : 0 <= k <= n -> (forall i j, 0 <= i < n -> 0 <= j < k -> A i j = A' i j) ->
  (forall j, 0 <= j < k -> tau j = tau' j) -> forall r c, 0 <= c < n -> qmat n k A tau r c = qmat n k A' tau' r c.
Proof. intros Hk HA Ht r c Hc. unfold qmat. apply qprod_ext; auto; rewrite ?Z2Nat.id by lia; auto; lia. Qed.

Lemma ormqr_left_upd trans m n k A ao lda to C co ldc (P : Z -> Z -> K) tau cv : 0 <= k <= m ->
  fits m n co ldc (zlen C) -> holds A ao lda m k P -> holds A to k 1 k (fun _ j => tau j) -> holds C co ldc m n cv ->
  exists C', ormqr true trans m n k A ao lda to C co ldc = Some C' /\
    updr C C' co ldc m n (fun i j => rsum 0 m (fun l => top trans (qmat m k P tau) i l * cv l j)).
Proof.
  intros Hk Hf HA Ht HC. unfold ormqr. destruct (rd_ok _ _ _ _ _ _ HA) as (a & Ea & Ga). destruct (rd_ok _ _ _ _ _ _ Ht) as (t & Et & Gt).
  destruct (rd_ok _ _ _ _ _ _ HC) as (c & Ec & Gc). rewrite Ea, Et, Ec. cbn [bind].
  destruct (wr_upd m n (fun i j => rsum 0 m (fun l => top trans (qmat m k a (t 0%Z)) i l * c l j)) C co ldc Hf) as (C' & E & U).
  exists C'. split; auto. eapply updr_ext; [exact U|]. intros i j Hi Hj. cbv beta. apply rsum_ext. intros l Hl. rewrite Gc by auto. f_equal.
  unfold top. destruct trans; apply qmat_ext; auto; intros; apply Gt; lia.
Qed.
Lemma ormqr_right_upd trans m n k A ao lda to C co ldc (P : Z -> Z -> K) tau cv : 0 <= k <= n ->
  fits m n co ldc (zlen C) -> holds A ao lda n k P -> holds A to k 1 k (fun _ j => tau j) -> holds C co ldc m n cv ->
  exists C', ormqr false trans m n k A ao lda to C co ldc = Some C' /\
    updr C C' co ldc m n (fun i j => rsum 0 n (fun l => cv i l * top trans (qmat n k P tau) l j)).
Proof.
  intros Hk Hf HA Ht HC. unfold ormqr. destruct (rd_ok _ _ _ _ _ _ HA) as (a & Ea & Ga). destruct (rd_ok _ _ _ _ _ _ Ht) as (t & Et & Gt).
  destruct (rd_ok _ _ _ _ _ _ HC) as (c & Ec & Gc). rewrite Ea, Et, Ec. cbn [bind].
  destruct (wr_upd m n (fun i j => rsum 0 n (fun l => c i l * top trans (qmat n k a (t 0%Z)) l j)) C co ldc Hf) as (C' & E & U).
  exists C'. split; auto. eapply updr_ext; [exact U|]. intros i j Hi Hj. cbv beta. apply rsum_ext. intros l Hl. rewrite Gc by auto. f_equal.
  unfold top. destruct trans; apply qmat_ext; auto; intros; apply Gt; lia.
Qed.

Lemma mset0_upd (a : mem K) o n : 0 <= n -> 0 <= o -> o + n <= zlen a -> exists a', mset0 a o n = Some a' /\ zlen a' = zlen a /\
  forall x, getz a' x = if (o <=? x)%Z && (x <? o + n)%Z then Some (Some c0) else getz a x.
Proof.
  intros Hn Ho Hz. unfold mset0.
  destruct (zfor_inv (fun k (e : mem K) => zlen e = zlen a /\ forall x, getz e x = if (o <=? x)%Z && (x <? o + k)%Z then Some (Some c0) else getz a x)
    0 n (fun k e => st e (o + k)%Z c0) a) as (e & E & P1 & P2); auto.
  - split; auto. intros x. destruct (Z.leb_spec o x), (Z.ltb_spec x (o + 0)); cbn [andb]; auto. lia.
  - intros k e Hk (P1 & P2). destruct (st_Some e (o + k) c0) as [e' E]; [lia|]. exists e'. split; auto. split; [rewrite (st_zlen _ _ _ _ E); auto|].
    intros x. rewrite (getz_st _ _ _ _ x E), P2. destruct (Z.eqb_spec (o + k) x), (Z.leb_spec o x), (Z.ltb_spec x (o + k)), (Z.ltb_spec x (o + (k + 1))); cbn [andb]; auto; lia.
  - exists e. auto.
Qed.

(** memset of a whole n-by-n matrix. *)
Lemma mset0_square (a : mem K) n : 0 <= n -> n * n <= zlen a -> exists a', mset0 a 0 (n * n) = Some a' /\ zlen a' = zlen a /\ holds a' 0 n n n (fun _ _ => c0).
Proof.
  intros Hn Hz. destruct (mset0_upd a 0 (n * n)) as (a' & E & Z1 & G); try nia. exists a'. split; auto. split; auto.
  intros i j Hi Hj. unfold ld. rewrite G. rewrite (proj2 (Z.leb_le _ _)), (proj2 (Z.ltb_lt _ _)) by nia. auto.
Qed.

Lemma transpose_to_upd nrow ncol src so lds (a : mem K) d_o ldd f : 0 <= nrow -> 0 <= ncol -> holds src so lds nrow ncol f -> fits ncol nrow d_o ldd (zlen a) ->
  exists a', transpose_to nrow ncol src so lds a d_o ldd = Some a' /\ updr a a' d_o ldd ncol nrow (fun i j => f j i).
Proof.
  intros Hr Hc Hf Hd. unfold transpose_to.
  destruct (region_loop ncol nrow d_o ldd (fun i j a => v <- ld src (so + (j * lds + i))%Z; st a (d_o + (i * ldd + j))%Z v) (fun i j => f j i) a Hd) as (a' & E & Z1 & H1 & H2).
  - intros i j D Hi Hj ZD GD. rewrite Hf by auto. cbn [bind]. destruct (st_Some D (d_o + (i * ldd + j)) (f j i)) as [D' E].
    { destruct Hd as (F1 & F2 & F3 & F4 & F5). specialize (F5 ltac:(lia) ltac:(lia)). nia. }
    exists D'. split; auto. split; [eapply st_zlen; eauto|]. intros x. rewrite (getz_st _ _ _ _ x E).
    destruct (Z.eqb_spec (d_o + (i * ldd + j)) x), (Z.eqb_spec x (d_o + (i * ldd + j))); auto; lia.
  - exists a'. split; auto. split; auto.
Qed.

(** Transposition inside a matrix, into a block disjoint from the source. *)
Lemma transpose_in_upd (a : mem K) n g ks kn ls ln so d_o : holds a 0 n n n g -> 0 <= ks -> 0 <= ls -> 0 <= kn -> 0 <= ln -> ks + kn <= n -> ls + ln <= n ->
  (ks + kn <= ls \/ ls + ln <= ks) -> so = (ks * n + ls)%Z -> d_o = (ls * n + ks)%Z ->
  exists a', transpose_in kn ln a so n d_o n = Some a' /\ updr a a' d_o n ln kn (fun i j => g (ks + j)%Z (ls + i)%Z).
Proof.
  intros Hg K1 L1 K2 L2 K3 L3 Hdis -> ->. unfold transpose_in.
  assert (Hd : fits ln kn (ls * n + ks)%Z n (zlen a)) by (apply (fits_sub a n n n g ls ks); auto; lia).
  assert (Hf : forall i j, 0 <= i < ln -> 0 <= j < kn -> ld a (ks * n + ls + (j * n + i))%Z = Some (g (ks + j)%Z (ls + i)%Z)).
  { intros i j Hi Hj. replace (ks * n + ls + (j * n + i))%Z with (0 + ((ks + j) * n + (ls + i)))%Z by ring. apply Hg; lia. }
  pose (inreg := fun i0 j0 x => exists i j, (0 <= i < ln /\ 0 <= j < kn /\ (i < i0 \/ (i = i0 /\ j < j0)) /\ x = ls * n + ks + (i * n + j))%Z).
  pose (P := fun i0 j0 (D : mem K) => zlen D = zlen a /\
    (forall i j, 0 <= i < ln -> 0 <= j < kn -> (i < i0 \/ (i = i0 /\ j < j0))%Z -> ld D (ls * n + ks + (i * n + j))%Z = Some (g (ks + j)%Z (ls + i)%Z)) /\
    forall x, ~ inreg i0 j0 x -> getz D x = getz a x).
  assert (Hsrc : forall i0 j0 D i j, P i0 j0 D -> 0 <= i < ln -> 0 <= j < kn -> ld D (ks * n + ls + (j * n + i))%Z = Some (g (ks + j)%Z (ls + i)%Z)).
  { intros i0 j0 D i j (_ & _ & P3) Hi Hj. unfold ld. rewrite P3; [now apply Hf|]. intros (i' & j' & Hi' & Hj' & _ & E).
    assert (EE : ((ks + j) * n + (ls + i) = (ls + i') * n + (ks + j'))%Z) by lia. apply (region_inj n n) in EE; lia. }
  destruct (zfor_inv (fun i0 D => P i0 0%Z D) 0 ln (fun i a => zfor 0 kn (fun j a => v <- ld a (ks * n + ls + (j * n + i))%Z; st a (ls * n + ks + (i * n + j))%Z v) a) a)
    as (a' & E & P1 & P2 & P3); auto.
  - split; auto. split; [intros; lia|]. auto.
  - intros i0 D Hi HP.
    destruct (zfor_inv (fun j0 D => P i0 j0 D) 0 kn (fun j a => v <- ld a (ks * n + ls + (j * n + i0))%Z; st a (ls * n + ks + (i0 * n + j))%Z v) D) as (D' & E & HP'); auto.
    + intros j0 D' Hj HP'. rewrite (Hsrc _ _ _ i0 j0 HP') by lia. cbn [bind]. destruct HP' as (P1 & P2 & P3).
      destruct (st_Some D' (ls * n + ks + (i0 * n + j0)) (g (ks + j0)%Z (ls + i0)%Z)) as [D2 E2].
      { destruct Hd as (F1 & F2 & F3 & F4 & F5). specialize (F5 ltac:(lia) ltac:(lia)). nia. }
      exists D2. split; auto. split; [rewrite (st_zlen _ _ _ _ E2); auto|]. split.
      * intros i j Hi' Hj' Hlt. unfold ld. rewrite (getz_st _ _ _ _ _ E2). destruct (Z.eqb_spec (ls * n + ks + (i0 * n + j0)) (ls * n + ks + (i * n + j))) as [EE|Hne].
        -- assert (E3 : ((ls + i0) * n + (ks + j0) = (ls + i) * n + (ks + j))%Z) by lia. apply (region_inj n n) in E3; [|lia..].
           replace i with i0 by lia. replace j with j0 by lia. auto.
        -- fold (ld D' (ls * n + ks + (i * n + j))). apply P2; auto. destruct (Z.eq_dec i i0); [|lia]. subst. destruct (Z.eq_dec j j0); [|lia]. subst. congruence.
      * intros x Hx. rewrite (getz_st _ _ _ _ _ E2). destruct (Z.eqb_spec (ls * n + ks + (i0 * n + j0)) x) as [EE|Hne].
        -- exfalso. apply Hx. exists i0, j0. lia.
        -- apply P3. intros (i & j & Q1 & Q2 & Q3 & Q4). apply Hx. exists i, j. lia.
    + exists D'. split; auto. destruct HP' as (P1 & P2 & P3). split; auto. split.
      * intros i j Hi' Hj' Hlt. apply P2; auto. lia.
      * intros x Hx. apply P3. intros (i & j & Q1 & Q2 & Q3 & Q4). apply Hx. exists i, j. lia.
  - exists a'. split; auto. split; auto. split.
    + intros i j Hi Hj. apply P2; auto. lia.
    + intros x Hx. apply P3. intros (i & j & Q1 & Q2 & Q3 & Q4). apply (Hx i j); auto.
Qed.
End Mem.
