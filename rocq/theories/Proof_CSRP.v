(** CSRP_SpMV with a partition computed by CSRP_partition_multithread. *)
From Coq Require Import ZArith List Lia Bool Ring Permutation.
From Verif Require Import Base Mem CRing Model_FSAI Spec_FSAI Proof_BJLeaf Proof_FSAIKnn Model_CSRP Spec_CSRP Proof_CSRPPart Proof_CSRPFact.
Import ListNotations.
Open Scope Z_scope.

Section Spmv.
Context {K : cring}.
Add Ring Kring : (cth K).
Variables (rp cols : list Z) (vals : list K) (x : mem K) (n m : Z) (p c : Z -> Z) (v X : Z -> K).
Hypothesis (HM : csr_matrix rp cols vals n m p c v).
Hypothesis (HX : forall j, 0 <= j < m -> ld x j = Some (X j)).
Let HP : csr_rows rp n p. Proof. apply HM. Qed.
Let G : forall i, 0 <= i <= n -> getz rp i = Some (p i). Proof. apply HP. Qed.
Let M : forall i j, 0 <= i <= j -> j <= n -> p i <= p j. Proof. exact (csr_mono rp n p HP). Qed.
Let P0 : p 0 = 0. Proof. apply HP. Qed.
Let g t := cmul (v t) (X (c t)).

Lemma sum_range lo hi : 0 <= lo <= hi -> hi <= p n ->
  zfor lo hi (fun t res => v <- getz vals t; c <- getz cols t; w <- ld x c; Some (cadd res (cmul v w))) c0 = Some (isum g lo hi).
Proof.
  intros Hl Hh.
  destruct (zfor_inv (fun t (r : K) => r = isum g lo t) lo hi (fun t res => v <- getz vals t; c <- getz cols t; w <- ld x c; Some (cadd res (cmul v w))) c0) as (r & E & ->); try lia; auto.
  - unfold isum. now rewrite rsum_empty by lia.
  - intros t r Ht ->. destruct (proj2 HM t) as (E1 & E2 & E3); [lia|]. rewrite E1, E3. cbn [bind]. rewrite HX by lia. cbn [bind].
    eexists. split; [reflexivity|]. unfold isum. now rewrite rsum_snoc by lia.
Qed.

Lemma row_seg_spec s len : 0 <= s -> 0 <= len -> s + len <= p n -> row_seg cols vals x s len = Some (isum g s (s + len)).
Proof.
  intros Hs Hl Hn. unfold row_seg.
  destruct (zfor_inv (fun i (r : K) => r = isum g s (s + i)) 0 len (fun i res => v <- getz vals (s + i); c <- getz cols (s + i); w <- ld x c; Some (cadd res (cmul v w))) c0) as (r & E & ->); try lia; auto.
  - unfold isum. now rewrite rsum_empty by lia.
  - intros t r Ht ->. destruct (proj2 HM (s + t)) as (E1 & E2 & E3); [lia|]. rewrite E1, E3. cbn [bind]. rewrite HX by lia. cbn [bind].
    eexists. split; [reflexivity|]. unfold isum. rewrite Z.add_assoc. now rewrite rsum_snoc by lia.
Qed.

Lemma row_block_spec a b (y : mem K) : 0 <= a -> b <= n -> n <= zlen y ->
  exists y', row_block rp cols vals x a b y = Some y' /\ zlen y' = zlen y /\
    forall k, ld y' k = if (a <=? k) && (k <? b) then Some (isum g (p k) (p (k + 1))) else ld y k.
Proof.
  intros Ha Hb Hy. unfold row_block. destruct (Z.le_gt_cases b a).
  { rewrite zfor_empty by auto. exists y. split; auto. split; auto. intros k. destruct (Z.leb_spec a k), (Z.ltb_spec k b); cbn; auto; lia. }
  match goal with |- context [zfor a b ?f y] => destruct (zfor_inv (fun i (y' : mem K) => zlen y' = zlen y /\
    forall k, ld y' k = if (a <=? k) && (k <? i) then Some (isum g (p k) (p (k + 1))) else ld y k) a b f y) as (y' & E & Zy & L) end; try lia.
  - split; auto. intros k. destruct (Z.leb_spec a k), (Z.ltb_spec k a); cbn; auto; lia.
  - intros i y' Hi (Zy & L). rewrite (G i), (G (i + 1)) by lia. cbn [bind].
    pose proof (M 0 i ltac:(lia) ltac:(lia)). pose proof (M i (i + 1) ltac:(lia) ltac:(lia)). pose proof (M (i + 1) n ltac:(lia) ltac:(lia)).
    rewrite sum_range by lia. cbn [bind]. destruct (st_Some y' i (isum g (p i) (p (i + 1)))) as [y2 E2]; [lia|].
    exists y2. split; auto. split. { now rewrite (st_zlen _ _ _ _ E2). }
    intros k. rewrite (ld_st _ _ _ _ k E2), L. destruct (Z.eqb_spec i k).
    + subst k. destruct (Z.leb_spec a i), (Z.ltb_spec i (i + 1)); cbn; auto; lia.
    + destruct (Z.leb_spec a k), (Z.ltb_spec k i), (Z.ltb_spec k (i + 1)); cbn; auto; lia.
  - exists y'. auto.
Qed.

Variables (nblk : Z) (bs : mem csrp_blk) (D : Z -> Z) (B : Z -> csrp_blk).
Hypotheses (Hb : 1 <= nblk) (D0 : D 0 = 0) (D1 : D nblk = p n) (Ds : forall i, 0 <= i < nblk -> D i < D (i + 1)).
Hypothesis (HB : forall i, 0 <= i < nblk -> ld bs i = Some (widen n p nblk i (B i)) /\ blk_ok n p (D i) (D (i + 1) - 1) (B i)).
Let HB2 : forall i, 0 <= i < nblk -> blk_ok n p (D i) (D (i + 1) - 1) (B i). Proof. apply HB. Qed.
Let W i := widen n p nblk i (B i).

Definition blk_done (i : Z) (y fr lr y' fr' lr' : mem K) : Prop :=
  zlen y' = zlen y /\ zlen fr' = zlen fr /\ zlen lr' = zlen lr /\
  (forall k, ld y' k = if (b_first (W i) <=? k) && (k <=? b_last (W i)) then Some (wr n p g nblk B i k) else ld y k) /\
  (forall k, k <> i -> ld fr' k = ld fr k /\ ld lr' k = ld lr k) /\
  (b_fri (W i) = 0 -> ld fr' i = Some (fsum n p g nblk B i)) /\
  (b_lri (W i) = 0 -> ld lr' i = Some (lsum' n p g nblk B i)).

Lemma block_spec i (y fr lr : mem K) : 0 <= i < nblk -> n <= zlen y -> zlen fr = nblk -> zlen lr = nblk ->
  exists y' fr' lr', spmv_block rp cols vals x bs i (y, fr, lr) = Some (y', fr', lr') /\ blk_done i y fr lr y' fr' lr'.
Proof.
  intros Hi Hy Hf Hl.
  destruct (blk_facts rp n p HP nblk D B D1 HB2 i Hi) as (l0 & F1 & F2 & F3 & F4 & F5 & F6 & F7 & F8 & F9 & F10 & F11 & F12 & F13 & F14).
  assert (DD0 : 0 <= D i). { rewrite <- D0. apply (Dmono nblk D Ds 0 i); lia. }
  assert (DDn : D (i + 1) <= p n). { rewrite <- D1. apply (Dmono nblk D Ds (i + 1) nblk); lia. }
  specialize (Ds i Hi) as DD.
  unfold spmv_block. rewrite (proj1 (HB i Hi)). cbn [bind]. unfold blk_done, wr, intact, multi, fsum, multi, lsum'.
  fold (W i) in *. set (f := b_first (W i)) in *. set (l := b_last (W i)) in *. rewrite F1, F2.
  replace (D (i + 1) - 1 + 1) with (D (i + 1)) by lia.
  destruct (Z.eqb_spec f l) as [Efl|Nfl].
  - rewrite row_seg_spec by lia. replace (D i + (D (i + 1) - 1 - D i + 1)) with (D (i + 1)) by lia. cbn [bind].
    destruct (st_Some fr i (isum g (D i) (D (i + 1)))) as [fr' E1]; [lia|]. rewrite E1. cbn [bind].
    destruct (st_Some lr i (@c0 K)) as [lr' E2]; [lia|]. rewrite E2. cbn [bind].
    destruct (st_Some y f (@c0 K)) as [y' E3]; [lia|]. rewrite E3. cbn [bind].
    exists y', fr', lr'. split; auto. rewrite (st_zlen _ _ _ _ E1), (st_zlen _ _ _ _ E2), (st_zlen _ _ _ _ E3).
    do 3 (split; [reflexivity|]). destruct (Z.ltb_spec f l); [lia|]. cbn [andb]. split; [|split; [|split]].
    + intros k. rewrite (ld_st _ _ _ _ k E3). destruct (Z.eqb_spec f k), (Z.leb_spec f k), (Z.leb_spec k l); cbn; auto; lia.
    + intros k Hk. rewrite (ld_st _ _ _ _ k E1), (ld_st _ _ _ _ k E2). destruct (Z.eqb_spec i k); [lia|auto].
    + intros _. now rewrite (ld_st _ _ _ _ i E1), Z.eqb_refl.
    + intros Q. apply F11 in Q. lia.
  - assert (Hfl : f < l) by (clear - Nfl F3 F4; lia). destruct (Z.ltb_spec f l); [clear H|lia].
    assert (X1 : exists (y1 fr1 : mem K) fi,
      (if b_fri (W i) =? 0 then e <- getz rp (f + 1); r <- row_seg cols vals x (D i) (e - D i); fr <- st fr i r; y <- st y f c0; Some (y, fr, f + 1) else Some (y, fr, f)) = Some (y1, fr1, fi) /\
      zlen y1 = zlen y /\ zlen fr1 = zlen fr /\ fi = (if b_fri (W i) =? 0 then f + 1 else f) /\
      (forall k, ld y1 k = if (b_fri (W i) =? 0) && (k =? f) then Some c0 else ld y k) /\
      (forall k, k <> i -> ld fr1 k = ld fr k) /\ (b_fri (W i) = 0 -> ld fr1 i = Some (isum g (D i) (p (f + 1))))).
    { destruct (Z.eqb_spec (b_fri (W i)) 0) as [Q|Q].
      - rewrite (G (f + 1)) by lia. cbn [bind].
        assert (A : D i <= p (f + 1)). { clear - F6 F5 M F3 F4 Hfl. pose proof (M f (f + 1) ltac:(lia) ltac:(lia)). lia. }
        pose proof (M (f + 1) n ltac:(lia) ltac:(lia)).
        rewrite row_seg_spec by (clear F9 F11 F12 F13 F14 F6; lia). replace (D i + (p (f + 1) - D i)) with (p (f + 1)) by lia. cbn [bind].
        destruct (st_Some fr i (isum g (D i) (p (f + 1)))) as [fr' E1]; [lia|]. rewrite E1. cbn [bind].
        destruct (st_Some y f (@c0 K)) as [y' E3]; [clear F9 F11 F12 F13 F14 F6; lia|]. rewrite E3. cbn [bind].
        exists y', fr', (f + 1). rewrite (st_zlen _ _ _ _ E1), (st_zlen _ _ _ _ E3). do 4 (split; [reflexivity|]). split; [|split].
        + intros k. rewrite (ld_st _ _ _ _ k E3). cbn [andb]. rewrite (Z.eqb_sym f k). reflexivity.
        + intros k Hk. rewrite (ld_st _ _ _ _ k E1). destruct (Z.eqb_spec i k); [lia|auto].
        + intros _. now rewrite (ld_st _ _ _ _ i E1), Z.eqb_refl.
      - exists y, fr, f. do 4 (split; [reflexivity|]). split; [|split]; cbn [andb]; auto. intros Q2; destruct (Q Q2). }
    destruct X1 as (y1 & fr1 & fi & E1 & Zy1 & Zf1 & Efi & Ly1 & Lf1 & Lf1i). rewrite E1. cbn [bind].
    assert (X2 : exists (y2 lr1 : mem K) li,
      (if b_lri (W i) =? 0 then s <- getz rp l; r <- row_seg cols vals x s (D (i + 1) - 1 - s + 1); lr <- st lr i r; y <- st y1 l c0; Some (y, lr, l - 1) else Some (y1, lr, l)) = Some (y2, lr1, li) /\
      zlen y2 = zlen y /\ zlen lr1 = zlen lr /\ li = (if b_lri (W i) =? 0 then l - 1 else l) /\
      (forall k, ld y2 k = if (b_lri (W i) =? 0) && (k =? l) then Some c0 else ld y1 k) /\
      (forall k, k <> i -> ld lr1 k = ld lr k) /\ (b_lri (W i) = 0 -> ld lr1 i = Some (isum g (p l) (D (i + 1))))).
    { destruct (Z.eqb_spec (b_lri (W i)) 0) as [Q|Q].
      - destruct (F11 Q) as [Q1 Q2]. rewrite (G l) by lia. cbn [bind]. rewrite Q1 in *.
        pose proof (M 0 l0 ltac:(lia) ltac:(lia)) as A.
        rewrite row_seg_spec by (clear F9 F11 F12 F13 F14 F6; lia). replace (p l0 + (D (i + 1) - 1 - p l0 + 1)) with (D (i + 1)) by lia. cbn [bind].
        destruct (st_Some lr i (isum g (p l0) (D (i + 1)))) as [lr' E2]; [lia|]. rewrite E2. cbn [bind].
        destruct (st_Some y1 l0 (@c0 K)) as [y' E3]; [clear F9 F11 F12 F13 F14 F6; lia|]. rewrite E3. cbn [bind].
        exists y', lr', (l0 - 1). rewrite (st_zlen _ _ _ _ E2), (st_zlen _ _ _ _ E3). split; [reflexivity|]. split; [exact Zy1|]. split; [reflexivity|]. split; [reflexivity|]. split; [|split].
        + intros k. rewrite (ld_st _ _ _ _ k E3). cbn [andb]. rewrite (Z.eqb_sym l0 k). reflexivity.
        + intros k Hk. rewrite (ld_st _ _ _ _ k E2). destruct (Z.eqb_spec i k); [lia|auto].
        + intros _. now rewrite (ld_st _ _ _ _ i E2), Z.eqb_refl.
      - exists y1, lr, l. split; [reflexivity|]. split; [exact Zy1|]. split; [reflexivity|]. split; [reflexivity|]. split; [|split]; cbn [andb]; auto. intros; lia. }
    destruct X2 as (y2 & lr1 & li & E2 & Zy2 & Zl1 & Eli & Ly2 & Ll1 & Ll1i). rewrite E2. cbn [bind].
    assert (Hfi : f <= fi) by (rewrite Efi; destruct (b_fri (W i) =? 0); lia).
    assert (Hli : li <= l) by (rewrite Eli; destruct (b_lri (W i) =? 0); lia).
    destruct (row_block_spec fi (li + 1) y2) as (y3 & E3 & Zy3 & Ly3); [clear F9 F11 F12 F13 F14 F6; lia|clear F9 F11 F12 F13 F14 F6; lia|clear F9 F11 F12 F13 F14 F6; lia|].
    rewrite E3. cbn [bind]. exists y3, fr1, lr1. split; auto. split; [congruence|]. split; [auto|]. split; [auto|]. split; [|split; [|split]]; auto.
    intros k. rewrite Ly3, Ly2, Ly1. clear - Hfl Efi Eli. cbn [andb].
    destruct (Z.eqb_spec (b_fri (W i)) 0), (Z.eqb_spec (b_lri (W i)) 0); rewrite ?andb_true_r, ?andb_false_r; subst fi li; cbn [negb andb].
    all: destruct (Z.eqb_spec k f), (Z.eqb_spec k l); cbn [andb negb].
    all: repeat match goal with |- context [?a <=? ?b] => destruct (Z.leb_spec a b) | |- context [?a <? ?b] => destruct (Z.ltb_spec a b) end; cbn [andb]; auto; lia.
Qed.

Let cov i k := covers n p nblk B i k.
Let w i k := wr n p g nblk B i k.
Let u i k := us n p g nblk B i k.

Lemma blocks_spec ord (y fr lr : mem K) : any_order nblk ord -> n <= zlen y -> zlen fr = nblk -> zlen lr = nblk ->
  exists y' fr' lr', in_order ord (spmv_block rp cols vals x bs) (y, fr, lr) = Some (y', fr', lr') /\
    zlen y' = zlen y /\ zlen fr' = nblk /\ zlen lr' = nblk /\
    (forall i k, 0 <= i < nblk -> 0 <= k < n -> cov i k -> ld y' k = Some (w i k)) /\
    (forall k, ~ 0 <= k < n -> ld y' k = ld y k) /\
    (forall i, 0 <= i < nblk -> b_fri (W i) = 0 -> ld fr' i = Some (fsum n p g nblk B i)) /\
    (forall i, 0 <= i < nblk -> b_lri (W i) = 0 -> ld lr' i = Some (lsum' n p g nblk B i)).
Proof.
  intros Ho Hy Hf Hl.
  destruct (in_order_inv (fun done (z : mem K * mem K * mem K) => let '(y', fr', lr') := z in
    zlen y' = zlen y /\ zlen fr' = nblk /\ zlen lr' = nblk /\ (forall i, In i done -> 0 <= i < nblk) /\
    (forall i k, In i done -> 0 <= k < n -> cov i k -> ld y' k = Some (w i k)) /\
    (forall k, ~ 0 <= k < n -> ld y' k = ld y k) /\
    (forall i, In i done -> b_fri (W i) = 0 -> ld fr' i = Some (fsum n p g nblk B i)) /\
    (forall i, In i done -> b_lri (W i) = 0 -> ld lr' i = Some (lsum' n p g nblk B i)))
    (spmv_block rp cols vals x bs) ord [] (y, fr, lr)) as (z & done & E & I & Hd).
  - eapply any_order_nodup; eauto.
  - intros i _ [].
  - split; [auto|]. split; [auto|]. split; [auto|]. split; [intros i []|]. split; [intros i k []|]. split; [auto|]. split; intros i [].
  - intros done i ((y1 & fr1) & lr1) Hi Hnd (Z1 & Z2 & Z3 & Hr & I1 & I2 & I3 & I4).
    rewrite (any_order_in nblk ord i Ho) in Hi.
    destruct (block_spec i y1 fr1 lr1) as (y2 & fr2 & lr2 & E & Zy & Zf & Zl & Ly & Lo & Lf & Ll); auto; try lia.
    exists (y2, fr2, lr2). split; auto. split; [lia|]. split; [lia|]. split; [lia|].
    split; [intros j [<-|Hj]; auto|]. split; [|split; [|split]].
    + intros j k Hj Hk Hc. rewrite Ly.
      destruct (Z.leb_spec (b_first (W i)) k); destruct (Z.leb_spec k (b_last (W i))); cbn [andb].
      * f_equal. unfold w. destruct Hj as [<-|Hj]; auto.
        apply (wr_agree rp n p g HP nblk D B D1 Ds HB2); auto. unfold covers. fold (W i). lia.
      * destruct Hj as [<-|Hj]; [|auto]. unfold cov, covers in Hc. fold (W i) in Hc. lia.
      * destruct Hj as [<-|Hj]; [|auto]. unfold cov, covers in Hc. fold (W i) in Hc. lia.
      * destruct Hj as [<-|Hj]; [|auto]. unfold cov, covers in Hc. fold (W i) in Hc. lia.
    + intros k Hk. rewrite Ly. destruct (blk_facts rp n p HP nblk D B D1 HB2 i Hi) as (l0 & _ & _ & F3 & F4 & _). fold (W i) in F3, F4.
      destruct (Z.leb_spec (b_first (W i)) k); destruct (Z.leb_spec k (b_last (W i))); cbn [andb]; auto. lia.
    + intros j Hj Q. destruct (Z.eq_dec j i) as [->|N]; auto. destruct Hj as [->|Hj]; [congruence|]. rewrite (proj1 (Lo j N)). auto.
    + intros j Hj Q. destruct (Z.eq_dec j i) as [->|N]; auto. destruct Hj as [->|Hj]; [congruence|]. rewrite (proj2 (Lo j N)). auto.
  - destruct z as ((y' & fr') & lr'). destruct I as (Z1 & Z2 & Z3 & Hr & I1 & I2 & I3 & I4).
    exists y', fr', lr'. split; auto. split; [auto|]. split; [auto|]. split; [auto|].
    assert (Q : forall i, 0 <= i < nblk -> In i done). { intros i Hi. apply Hd. left. now apply (any_order_in nblk ord i Ho). }
    split; [|split; [|split]]; auto.
Qed.

Lemma spmv_spec ord (y fr lr : mem K) : any_order nblk ord -> n <= zlen y -> zlen fr = nblk -> zlen lr = nblk ->
  exists y' fr' lr', csrp_spmv rp cols vals x ord nblk bs y fr lr = Some (y', fr', lr') /\
    zlen y' = zlen y /\ zlen fr' = nblk /\ zlen lr' = nblk /\
    forall k, ld y' k = if (0 <=? k) && (k <? n) then Some (isum g (p k) (p (k + 1))) else ld y k.
Proof.
  intros Ho Hy Hf Hl. destruct (blocks_spec ord y fr lr Ho Hy Hf Hl) as (y1 & fr1 & lr1 & E & Z1 & Z2 & Z3 & I1 & I2 & I3 & I4).
  unfold csrp_spmv. rewrite E. cbn [bind].
  match goal with |- context [zfor 0 nblk ?body y1] => destruct (zfor_inv (fun j (y' : mem K) => zlen y' = zlen y /\
    (forall i k, 0 <= i < nblk -> 0 <= k < n -> cov i k -> ld y' k = Some (cadd (w i k) (rsum 0 j (fun i => u i k)))) /\
    forall k, ~ 0 <= k < n -> ld y' k = ld y k) 0 nblk body y1) as (y' & E' & Zy & A & A') end; try lia.
  - split; auto. split; auto. intros i k Hi Hk Hc. rewrite (I1 i k Hi Hk Hc), rsum_empty by lia. f_equal. ring.
  - intros j y2 Hj (Zy & A & A'). rewrite (proj1 (HB j Hj)). cbn [bind].
    destruct (blk_facts rp n p HP nblk D B D1 HB2 j Hj) as (l0 & _ & _ & F3 & F4 & _ & _ & _ & _ & _ & _ & F11 & _). fold (W j) in *.
    set (f := b_first (W j)) in *. set (l := b_last (W j)) in *.
    assert (Cf : cov j f) by (unfold cov, covers; fold (W j); unfold f in *; lia).
    assert (Cl : cov j l) by (unfold cov, covers; fold (W j); unfold f, l in *; lia).
    assert (Hfn : 0 <= f < n) by (clear F11; lia). assert (Hln : 0 <= l < n) by (clear F11; lia).
    set (a := fun k => if (b_fri (W j) =? 0) && (k =? f) then fsum n p g nblk B j else @c0 K).
    set (b := fun k => if (b_lri (W j) =? 0) && (k =? l) then lsum' n p g nblk B j else @c0 K).
    assert (X1 : exists y3 : mem K, (if b_fri (W j) =? 0 then r <- ld fr1 j; v <- ld y2 f; st y2 f (cadd v r) else Some y2) = Some y3 /\ zlen y3 = zlen y /\
      (forall i k, 0 <= i < nblk -> 0 <= k < n -> cov i k -> ld y3 k = Some (cadd (cadd (w i k) (rsum 0 j (fun i => u i k))) (a k))) /\
      forall k, ~ 0 <= k < n -> ld y3 k = ld y k).
    { unfold a. destruct (Z.eqb_spec (b_fri (W j)) 0) as [Q|Q].
      - rewrite (I3 j Hj Q), (A j f Hj Hfn Cf). cbn [bind].
        match goal with |- context [st y2 f ?t] => destruct (st_Some y2 f t) as [y3 E3]; [lia|] end. exists y3. split; auto.
        split. { now rewrite (st_zlen _ _ _ _ E3). } split.
        + intros i k Hi Hk Hc. rewrite (ld_st _ _ _ _ k E3). cbn [andb]. rewrite (Z.eqb_sym k f). destruct (Z.eqb_spec f k) as [<-|N].
          * unfold w. rewrite (wr_agree rp n p g HP nblk D B D1 Ds HB2 i j f); auto.
          * rewrite (A i k Hi Hk Hc). f_equal. ring.
        + intros k Hk. rewrite (ld_st _ _ _ _ k E3). destruct (Z.eqb_spec f k); [lia|auto].
      - exists y2. split; auto. split; auto. split; auto. intros i k Hi Hk Hc. rewrite (A i k Hi Hk Hc). cbn [andb]. f_equal. ring. }
    destruct X1 as (y3 & E3 & Zy3 & A3 & A3'). rewrite E3. cbn [bind].
    assert (X2 : exists y4 : mem K, (if b_lri (W j) =? 0 then r <- ld lr1 j; v <- ld y3 l; st y3 l (cadd v r) else Some y3) = Some y4 /\ zlen y4 = zlen y /\
      (forall i k, 0 <= i < nblk -> 0 <= k < n -> cov i k -> ld y4 k = Some (cadd (cadd (cadd (w i k) (rsum 0 j (fun i => u i k))) (a k)) (b k))) /\
      forall k, ~ 0 <= k < n -> ld y4 k = ld y k).
    { unfold b. destruct (Z.eqb_spec (b_lri (W j)) 0) as [Q|Q].
      - rewrite (I4 j Hj Q), (A3 j l Hj Hln Cl). cbn [bind].
        match goal with |- context [st y3 l ?t] => destruct (st_Some y3 l t) as [y4 E4]; [lia|] end. exists y4. split; auto.
        split. { now rewrite (st_zlen _ _ _ _ E4). } split.
        + intros i k Hi Hk Hc. rewrite (ld_st _ _ _ _ k E4). cbn [andb]. rewrite (Z.eqb_sym k l). destruct (Z.eqb_spec l k) as [<-|N].
          * unfold w. rewrite (wr_agree rp n p g HP nblk D B D1 Ds HB2 i j l); auto.
          * rewrite (A3 i k Hi Hk Hc). f_equal. ring.
        + intros k Hk. rewrite (ld_st _ _ _ _ k E4). destruct (Z.eqb_spec l k); [lia|auto].
      - exists y3. split; auto. split; auto. split; auto. intros i k Hi Hk Hc. rewrite (A3 i k Hi Hk Hc). cbn [andb]. f_equal. ring. }
    destruct X2 as (y4 & E4 & Zy4 & A4 & A4'). exists y4. split; auto. split; auto. split; auto.
    intros i k Hi Hk Hc. rewrite (A4 i k Hi Hk Hc), rsum_snoc by lia. f_equal.
    replace (u j k) with (cadd (a k) (b k)) by reflexivity. ring.
  - rewrite E'. cbn [bind]. exists y', fr1, lr1. split; auto. split; auto. split; auto. split; auto. intros k.
    destruct (Z.leb_spec 0 k); destruct (Z.ltb_spec k n); cbn [andb]; try (apply A'; lia).
    destruct (some_block rp n p HP nblk D B Hb D0 D1 HB2 k) as (i & Hi & Hc); [lia|].
    rewrite (A i k Hi ltac:(lia) Hc). f_equal. apply (total rp n p g HP nblk D B Hb D0 D1 Ds HB2 k i); auto.
Qed.
End Spmv.

(** The sum over the entries of a row is the sum over its columns. *)
Section RowSum.
Context {K : cring}.
Add Ring Kring2 : (cth K).
Lemma row_sum (m : Z) (p c : Z -> Z) (v X : Z -> K) i :
  (forall t, p i <= t < p (i + 1) -> 0 <= c t < m) ->
  isum (fun t => cmul (v t) (X (c t))) (p i) (p (i + 1)) = rsum 0 m (fun j => cmul (csr_entry p c v i j) (X j)).
Proof.
  intros Hc. unfold isum, csr_entry.
  rewrite (rsum_ext 0 m _ (fun j => rsum (p i) (p (i + 1)) (fun t => if j =? c t then cmul (v t) (X j) else c0))).
  - rewrite rsum_swap. apply rsum_ext. intros t Ht. rewrite (rsum_delta 0 m (c t) (fun j => cmul (v t) (X j))).
    specialize (Hc t Ht). destruct (Z.leb_spec 0 (c t)), (Z.ltb_spec (c t) m); cbn; auto; lia.
  - intros j Hj. rewrite <- rsum_mul_r. apply rsum_ext. intros t Ht. rewrite (Z.eqb_sym j). destruct (c t =? j); ring.
Qed.
End RowSum.

(** CSRP_optimize_NUMA copies every nonzero. *)
Lemma numa_spec {A} rp n p nblk bs ord (src : list A) : csr_rows rp n p -> 1 <= nblk <= p n -> csrp_partition n (p n) rp nblk = Some bs ->
  any_order nblk ord -> zlen src = p n -> numa_copy ord (p n) bs src = Some (full src).
Proof.
  intros HP Hb E Ho Hs. destruct (partition_spec rp n p HP nblk Hb) as (bs' & D & B & E' & _ & D0 & D1 & Ds & HB).
  rewrite E in E'. injection E' as <-. unfold numa_copy.
  assert (Dm := Dmono nblk D Ds).
  destruct (in_order_inv (fun done (d : mem A) => zlen d = p n /\ (forall i, In i done -> 0 <= i < nblk) /\
    forall i k, In i done -> D i <= k < D (i + 1) -> getz d k = option_map Some (getz src k))
    (fun i dst => b <- ld bs i; zfor (b_spos b) (b_epos b + 1) (fun k dst => v <- getz src k; st dst k v) dst) ord [] (alloc (p n))) as (d & done & E1 & (Zd & Hr & I) & Hd).
  - eapply any_order_nodup; eauto.
  - intros i _ [].
  - split; [apply zlen_alloc; lia|]. split; [intros ? []|intros ? ? []].
  - intros done i d Hi Hnd (Zd & Hr & I). rewrite (any_order_in nblk ord i Ho) in Hi.
    destruct (HB i Hi) as (E1 & E2 & E3 & _). rewrite E1. cbn [bind].
    assert (b_spos (widen n p nblk i (B i)) = D i /\ b_epos (widen n p nblk i (B i)) = D (i + 1) - 1) as (-> & ->).
    { unfold widen. destruct (Z.eqb_spec i (nblk - 1)) as [->|]; cbn [b_spos b_epos]; split; auto.
      replace (nblk - 1 + 1) with nblk by lia. now rewrite D1. }
    replace (D (i + 1) - 1 + 1) with (D (i + 1)) by lia.
    pose proof (Dm 0 i ltac:(lia) ltac:(lia)). pose proof (Dm (i + 1) nblk ltac:(lia) ltac:(lia)). specialize (Ds i Hi) as DD.
    destruct (zfor_inv (fun t (d' : mem A) => zlen d' = p n /\ forall k, getz d' k = if (D i <=? k) && (k <? t) then option_map Some (getz src k) else getz d k)
      (D i) (D (i + 1)) (fun k dst => v <- getz src k; st dst k v) d) as (d' & E4 & Zd' & L); try lia.
    + split; auto. intros k. destruct (Z.leb_spec (D i) k), (Z.ltb_spec k (D i)); cbn; auto; lia.
    + intros t d' Ht (Zd' & L). destruct (getz_in src t) as [v Ev]; [lia|]. rewrite Ev. cbn [bind].
      destruct (st_Some d' t v) as [d2 E5]; [lia|]. exists d2. split; auto. split. { now rewrite (st_zlen _ _ _ _ E5). }
      intros k. rewrite (getz_st _ _ _ _ k E5), L. destruct (Z.eqb_spec t k).
      * subst k. destruct (Z.leb_spec (D i) t), (Z.ltb_spec t (t + 1)); cbn; try lia. now rewrite Ev.
      * destruct (Z.leb_spec (D i) k), (Z.ltb_spec k t), (Z.ltb_spec k (t + 1)); cbn; auto; lia.
    + exists d'. split; auto. split; auto. split; [intros j [<-|Hj]; auto|]. intros j k Hj Hk. rewrite L.
      destruct (Z.leb_spec (D i) k), (Z.ltb_spec k (D (i + 1))); cbn [andb]; auto.
      all: destruct Hj as [<-|Hj]; [lia|eauto].
  - rewrite E1. f_equal. apply getz_ext. { now rewrite zlen_full, Zd. }
    intros k Hk. rewrite getz_full. rewrite Zd in Hk.
    assert (Q : forall j, 0 <= j -> j <= nblk -> k < D j -> exists i, 0 <= i < nblk /\ D i <= k < D (i + 1)).
    { apply (up_ind 0 (fun j => j <= nblk -> k < D j -> exists i, 0 <= i < nblk /\ D i <= k < D (i + 1))); [lia|].
      intros j Hj IH Hj' Hk'. destruct (Z.lt_ge_cases k (D j)); [apply IH; auto; lia|]. exists j. lia. }
    destruct (Q nblk) as (i & Hi & Hk2); try lia. apply (I i k); auto. apply Hd. left. now apply (any_order_in nblk ord i Ho).
Qed.
