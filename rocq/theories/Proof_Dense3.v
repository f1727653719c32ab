From Coq Require Import ZArith List Lia Bool.
From Verif Require Import Base Mem Conc Model_Utils Model_Dense Spec_Utils Spec_Dense Proof_Utils Proof_Dense.
Import ListNotations.
Open Scope Z_scope.

(** copy_matrix with OpenMP: every interleaving. *)
Lemma copy_matrix_omp {A} nrow ncol (src : mem A) soff lds dst doff ldd l :
  fits nrow ncol soff lds (zlen src) -> fits nrow ncol doff ldd (zlen dst) ->
  inter (map (copy_row_acts ncol src soff lds doff ldd) (zrange 0 nrow)) l ->
  exists d, run l dst = Some d /\ zlen d = zlen dst /\
    (forall i j, 0 <= i < nrow -> 0 <= j < ncol -> getz d (doff + i * ldd + j) = getz src (soff + i * lds + j)) /\
    (forall k, ~ in_region nrow ncol doff ldd k -> getz d k = getz dst k).
Proof.
  intros Hs Hd Hi. pose proof Hd as (D1 & D2 & D3 & D4 & D5).
  set (st1 := fun (x : Z * Z) (d : mem A) => c <- getz src (soff + fst x * lds + snd x); setz d (doff + fst x * ldd + snd x) c).
  assert (E : map (copy_row_acts ncol src soff lds doff ldd) (zrange 0 nrow) =
              map (map st1) (map (fun i => map (fun j => (i, j)) (zrange 0 ncol)) (zrange 0 nrow))).
  { rewrite map_map. apply map_ext. intros i. unfold copy_row_acts. rewrite map_map. reflexivity. }
  rewrite E in Hi. apply inter_map_inv in Hi as (ks & -> & Hi).
  assert (Hin : forall x, In x ks <-> 0 <= fst x < nrow /\ 0 <= snd x < ncol).
  { intros [i j]. rewrite (inter_perm _ _ Hi). rewrite in_concat. split.
    - intros (t & Ht & Hx). apply in_map_iff in Ht as (i' & <- & Hi'). apply in_map_iff in Hx as (j' & Ej & Hj').
      apply In_zrange in Hi', Hj'. injection Ej as <- <-. auto.
    - intros [H1 H2]. exists (map (fun j => (i, j)) (zrange 0 ncol)). split.
      + apply in_map_iff. exists i. split; auto. now apply In_zrange.
      + apply in_map_iff. exists j. split; auto. now apply In_zrange. }
  destruct (stores_spec (fun x => doff + fst x * ldd + snd x) (fun x => getz src (soff + fst x * lds + snd x)) ks dst)
    as (d & R & Zd & G & O).
  - intros x Hx. apply Hin in Hx as [H1 H2]. split; [eapply fits_cell; eauto|].
    apply getz_in. eapply fits_cell; eauto.
  - intros x y Hx Hy Exy. apply Hin in Hx as [H1 H2], Hy as [H3 H4].
    destruct (row_col_inj ldd ncol (fst x) (snd x) (fst y) (snd y)) as [-> ->]; auto; lia.
  - exists d. split; [exact R|]. split; auto. split.
    + intros i j H1 H2. apply (G (i, j)). apply Hin. auto.
    + intros k Hk. apply O. intros Hin'. apply in_map_iff in Hin' as (x & <- & Hx). apply Hin in Hx as [H1 H2].
      apply Hk. exists (fst x), (snd x). auto.
Qed.

Lemma gather_vector_spec {A} nelem idx (src dst : mem A) soff doff (f : Z -> A) nsrc :
  0 <= nelem -> zlen idx = nelem -> 0 <= doff -> doff + nelem <= zlen dst ->
  (forall i, In i idx -> 0 <= i < nsrc) ->
  (forall i, 0 <= i < nsrc -> ld src (soff + i) = Some (f i)) ->
  exists d, gather_vector_elements nelem idx src soff dst doff = Some d /\ zlen d = zlen dst /\
    (forall i, 0 <= i < nelem -> ld d (doff + i) = Some (f (nthz idx i))) /\
    (forall k, ~ (doff <= k < doff + nelem) -> getz d k = getz dst k).
Proof.
  intros Hn Hl Hd1 Hd2 Hin Hs. unfold gather_vector_elements.
  match goal with |- context [zfor 0 nelem ?b dst] =>
    destruct (zfor_inv (fun n (d : mem A) => zlen d = zlen dst /\
     (forall i, 0 <= i < n -> ld d (doff + i) = Some (f (nthz idx i))) /\
     (forall k, ~ (doff <= k < doff + n) -> getz d k = getz dst k)) 0 nelem b dst) as (d & E & P) end; auto.
  - split; auto. split; [intros; lia|auto].
  - intros i d Hi (P1 & P2 & P3). rewrite (getz_nthz idx i) by lia. cbn [bind].
    assert (0 <= nthz idx i < nsrc) by (apply Hin; apply (getz_In idx i); apply getz_nthz; lia).
    rewrite Hs by auto. cbn [bind]. destruct (st_Some d (doff + i) (f (nthz idx i)) ltac:(lia)) as [d' E].
    exists d'. split; auto. split; [rewrite (st_zlen _ _ _ _ E); auto|]. split.
    + intros a Ha. rewrite (ld_st _ _ _ _ _ E). destruct (Z.eqb_spec (doff + i) (doff + a)).
      * assert (a = i) by lia. now subst.
      * apply P2. lia.
    + intros k Hk. rewrite (getz_st _ _ _ _ _ E). destruct (Z.eqb_spec (doff + i) k); [lia|]. apply P3. lia.
  - exists d. auto.
Qed.

Lemma gather_rows_spec {A} nrow ncol idx (src dst : mem A) lds ldd nr f :
  fits nr ncol 0 lds (zlen src) -> fits nrow ncol 0 ldd (zlen dst) -> holds_at src lds nr ncol f ->
  zlen idx = nrow -> (forall i, In i idx -> 0 <= i < nr) ->
  exists d, gather_matrix_rows nrow ncol idx src lds dst ldd = Some d /\ zlen d = zlen dst /\
    (forall i j, 0 <= i < nrow -> 0 <= j < ncol -> ld d (i * ldd + j) = Some (f (nthz idx i) j)) /\
    (forall k, ~ in_region nrow ncol 0 ldd k -> getz d k = getz dst k).
Proof.
  intros Hs Hd Hh Hl Hin. unfold gather_matrix_rows. pose proof Hd as (D1 & D2 & D3 & D4 & D5).
  assert (Hpi : forall i, 0 <= i < nrow -> 0 <= nthz idx i < nr).
  { intros i Hi. apply Hin. apply (getz_In idx i). apply getz_nthz. lia. }
  destruct (Z.eq_dec ncol 0) as [->|Hc].
  - exists dst. split; [|split; [auto|split; [intros; lia|auto]]].
    match goal with |- zfor 0 nrow ?b _ = _ =>
      destruct (zfor_inv (fun _ d => d = dst) 0 nrow b dst) as (d & E & ->); auto end.
    intros k t Hk ->. rewrite (getz_nthz idx k) by lia. cbn [bind]. eexists; split; [|reflexivity].
    unfold mcpy. now rewrite zfor_empty by lia.
  - destruct (rows_spec nrow ncol (fun i => nthz idx i * lds) src dst 0 ldd
      (fun irow d => j <- getz idx irow; mcpy d (irow * ldd) src (j * lds) ncol)) as (d & E & Zd & Gd & O); auto.
    + intros i Hi. pose proof (fits_row _ _ _ _ _ (nthz idx i) Hs (Hpi i Hi) ltac:(lia)). lia.
    + intros i d Hi. rewrite (getz_nthz idx i) by lia. cbn [bind]. now rewrite Z.add_0_l.
    + exists d. split; auto. split; auto. split; auto. intros i j Hi Hj.
      rewrite <- (Hh (nthz idx i) j) by auto. unfold ld. specialize (Gd i j Hi Hj). rewrite Z.add_0_l in Gd. now rewrite Gd.
Qed.

Lemma gather_cols_spec {A} nrow ncol idx (src dst : mem A) lds ldd nc f :
  fits nrow ncol 0 ldd (zlen dst) -> holds_at src lds nrow nc f ->
  zlen idx = ncol -> (forall i, In i idx -> 0 <= i < nc) ->
  exists d, gather_matrix_cols nrow ncol idx src lds dst ldd = Some d /\ zlen d = zlen dst /\
    (forall i j, 0 <= i < nrow -> 0 <= j < ncol -> ld d (i * ldd + j) = Some (f i (nthz idx j))) /\
    (forall k, ~ in_region nrow ncol 0 ldd k -> getz d k = getz dst k).
Proof.
  intros Hd Hh Hl Hin. unfold gather_matrix_cols. pose proof Hd as (D1 & D2 & D3 & D4 & D5).
  destruct (zfor_inv (fun n (d : mem A) => zlen d = zlen dst /\
     (forall i j, 0 <= i < n -> 0 <= j < ncol -> ld d (i * ldd + j) = Some (f i (nthz idx j))) /\
     (forall k, ~ in_region n ncol 0 ldd k -> getz d k = getz dst k)) 0 nrow
     (fun irow d => gather_vector_elements ncol idx src (irow * lds) d (irow * ldd)) dst) as (d & E & P); auto.
  - split; auto. split; [intros; lia|auto].
  - intros i d Hi (P1 & P2 & P3).
    destruct (Z.eq_dec ncol 0) as [Hc|Hc].
    { exists d. unfold gather_vector_elements. rewrite zfor_empty by lia. split; auto. split; auto. split; [intros; lia|].
      intros k Hk. apply P3. intros (a & b & ? & ? & ?). lia. }
    pose proof (fits_row _ _ _ _ _ i Hd Hi ltac:(lia)) as Hr.
    destruct (gather_vector_spec ncol idx src d (i * lds) (i * ldd) (f i) nc) as (d' & E' & Z' & G' & O'); auto; try lia.
    exists d'. split; auto. split; [lia|]. split.
    + intros a b Ha Hb. destruct (Z.eq_dec a i) as [->|].
      * apply G'. auto.
      * rewrite <- (P2 a b) by lia. unfold ld. rewrite O'; auto. nia.
    + intros k Hk. rewrite O'.
      * apply P3. intros (a & b & Ha & Hb & ->). apply Hk. exists a, b. repeat split; lia.
      * intros Hkk. apply Hk. exists i, (k - i * ldd). repeat split; lia.
  - exists d. auto.
Qed.

(** Transposition: every thread count and interleaving. *)
Lemma transpose_spec {A} n_thread nr nc (src dst : mem A) lds ldd f ths l :
  1 <= n_thread -> 0 <= nr -> holds_at src lds nr nc f -> fits nc nr 0 ldd (zlen dst) ->
  transpose_threads n_thread nr nc src lds ldd = Some ths -> inter ths l ->
  exists d, run l dst = Some d /\ zlen d = zlen dst /\
    (forall i j, 0 <= i < nc -> 0 <= j < nr -> ld d (i * ldd + j) = Some (f j i)) /\
    (forall k, ~ in_region nc nr 0 ldd k -> getz d k = getz dst k).
Proof.
  intros Ht Hnr Hh Hd Eth Hi. pose proof Hd as (D1 & D2 & D3 & D4 & D5).
  set (st1 := fun (x : Z * Z) (d : mem A) => v <- ld src (snd x * lds + fst x); st d (fst x * ldd + snd x) v).
  set (keys := fun i0 i1 j0 j1 => flat_map (fun i => map (fun j => (i, j)) (zrange j0 j1)) (zrange i0 i1)).
  assert (Hk : forall i0 i1 j0 j1, transpose_acts src lds ldd i0 i1 j0 j1 = map st1 (keys i0 i1 j0 j1)).
  { intros. unfold transpose_acts, keys. induction (zrange i0 i1); simpl; auto. rewrite map_app, IHl0. f_equal.
    rewrite map_map. reflexivity. }
  assert (HK : forall i0 i1 j0 j1 x, In x (keys i0 i1 j0 j1) <-> i0 <= fst x < i1 /\ j0 <= snd x < j1).
  { intros i0 i1 j0 j1 [i j]. unfold keys. rewrite in_flat_map. split.
    - intros (i' & Hi' & Hx). apply in_map_iff in Hx as (j' & Ej & Hj'). apply In_zrange in Hi', Hj'. injection Ej as <- <-. auto.
    - intros [H1 H2]. exists i. split; [now apply In_zrange|]. apply in_map_iff. exists j. split; auto. now apply In_zrange. }
  assert (exists kss, ths = map (map st1) kss /\ forall x, In x (concat kss) <-> 0 <= fst x < nc /\ 0 <= snd x < nr) as (kss & -> & Hc).
  { unfold transpose_threads in Eth. destruct (Z.eqb_spec n_thread 1).
    - injection Eth as <-. exists [keys 0 nc 0 nr]. split; [simpl; now rewrite Hk|]. intros x. simpl. rewrite app_nil_r. apply HK.
    - destruct (Z.ltb_spec nc nr).
      + injection Eth as <-. exists (map (fun i => keys i (i + 1) 0 nr) (zrange 0 nc)). split.
        { rewrite map_map. apply map_ext. intros; apply Hk. }
        intros x. rewrite in_concat. split.
        * intros (t & Ht' & Hx). apply in_map_iff in Ht' as (i & <- & Hi'). apply In_zrange in Hi'. apply HK in Hx. lia.
        * intros [H1 H2]. exists (keys (fst x) (fst x + 1) 0 nr). split; [|apply HK; lia].
          apply in_map_iff. exists (fst x). split; auto. now apply In_zrange.
      + destruct (cb_tiles nr n_thread Hnr ltac:(lia)) as (T1 & T2 & _).
        assert (forall n, 0 <= n <= n_thread -> exists kss,
          zfor 0 n (fun tid l => '(spos, len) <- calc_block_spos_len nr n_thread tid;
             Some (l ++ [transpose_acts src lds ldd 0 nc spos (spos + len)])) [] = Some (map (map st1) kss) /\
          forall t, In t kss <-> exists tid s len, 0 <= tid < n /\ calc_block_spos_len nr n_thread tid = Some (s, len) /\ t = keys 0 nc s (s + len)) as HB.
        { intros n0 [Hn0 Hn]. revert Hn. pattern n0. apply natlike_ind; auto.
          - intros _. exists []. split; [reflexivity|]. intros t. split; [intros []|]. intros (tid & _ & _ & ? & _). lia.
          - intros m Hm IH Hle. destruct (IH ltac:(lia)) as (kss & E & Hin). unfold Z.succ. rewrite zfor_last by lia.
            rewrite E. cbn [bind]. destruct (T1 m ltac:(lia)) as (s & len & Es & _). rewrite Es. cbn [bind].
            exists (kss ++ [keys 0 nc s (s + len)]). split; [rewrite map_app; simpl; now rewrite Hk|].
            intros t. rewrite in_app_iff, Hin. simpl. split.
            + intros [(tid & s' & l' & H1 & H2 & H3)|[<-|[]]]; [exists tid, s', l'; repeat split; auto; lia|].
              exists m, s, len. repeat split; auto; lia.
            + intros (tid & s' & l' & H1 & H2 & H3). destruct (Z.eq_dec tid m) as [->|]; [right|left].
              * left. rewrite Es in H2. injection H2 as <- <-. auto.
              * exists tid, s', l'. repeat split; auto; lia. }
        destruct (HB n_thread ltac:(lia)) as (kss & E & Hin). rewrite E in Eth. injection Eth as <-.
        exists kss. split; auto. intros x. rewrite in_concat. split.
        * intros (t & Ht' & Hx). apply Hin in Ht' as (tid & s & len & H1 & H2 & ->). apply HK in Hx.
          destruct (T1 tid H1) as (s' & len' & E' & ?). rewrite H2 in E'. injection E' as <- <-. lia.
        * intros [H1 H2]. destruct (T2 (snd x) H2) as (tid & s & len & Htid & Ec & Hs).
          exists (keys 0 nc s (s + len)). split; [|apply HK; lia]. apply Hin. exists tid, s, len. auto. }
  apply inter_map_inv in Hi as (ks & -> & Hi).
  assert (Hin : forall x, In x ks <-> 0 <= fst x < nc /\ 0 <= snd x < nr) by (intros x; rewrite (inter_perm _ _ Hi); apply Hc).
  assert (Es : map st1 ks = map (fun x d => c <- option_map Some (ld src (snd x * lds + fst x)); setz d (fst x * ldd + snd x) c) ks).
  { apply map_ext. intros x. unfold st1, st. destruct (ld src (snd x * lds + fst x)); reflexivity. }
  destruct (stores_spec (fun x => fst x * ldd + snd x) (fun x => option_map Some (ld src (snd x * lds + fst x))) ks dst)
    as (d & R & Zd & G & O).
  - intros x Hx. apply Hin in Hx as [H1 H2]. split.
    + pose proof (fits_cell _ _ _ _ _ (fst x) (snd x) Hd H1 H2). lia.
    + rewrite (Hh (snd x) (fst x)) by auto. simpl. eauto.
  - intros x y Hx Hy Exy. apply Hin in Hx as [H1 H2], Hy as [H3 H4].
    destruct (row_col_inj ldd nr (fst x) (snd x) (fst y) (snd y)) as [-> ->]; auto; lia.
  - exists d. split; [eapply eq_trans; [|exact R]; apply (f_equal (fun a => run a dst) Es)|]. split; auto. split.
    + intros i j H1 H2. specialize (G (i, j) ltac:(apply Hin; auto)). simpl in G. unfold ld at 1. rewrite G.
      rewrite (Hh j i) by auto. reflexivity.
    + intros k Hk'. apply O. intros Hin'. apply in_map_iff in Hin' as (x & <- & Hx). apply Hin in Hx as [H1 H2].
      apply Hk'. exists (fst x), (snd x). repeat split; auto; lia.
Qed.

(** The parallel region is always defined for n_thread >= 1. *)
Lemma transpose_threads_defined {A} n_thread nr nc (src : mem A) lds ldd : 1 <= n_thread -> 0 <= nr ->
  exists ths, transpose_threads n_thread nr nc src lds ldd = Some ths.
Proof.
  intros Ht Hnr. unfold transpose_threads. destruct (n_thread =? 1); [eauto|]. destruct (nc <? nr); [eauto|].
  destruct (cb_tiles nr n_thread Hnr ltac:(lia)) as (T1 & _).
  match goal with |- exists ths, zfor 0 n_thread ?b [] = Some ths =>
    destruct (zfor_inv (fun _ _ => True) 0 n_thread b []) as (s & E & _); auto; try lia end.
  - intros k t Hk _. destruct (T1 k Hk) as (s & len & E & _). rewrite E. cbn [bind]. eauto.
  - eauto.
Qed.
