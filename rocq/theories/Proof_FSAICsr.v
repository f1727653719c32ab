From Coq Require Import ZArith QArith List Lia Bool Permutation.
From Verif Require Import Base Mem Num CRing Model_CSR Spec_CSR Spec_Utils Proof_Utils Proof_Qsort Proof_CSR Model_FSAI Spec_FSAI Proof_Build Proof_FSAIKnn.
Import ListNotations.
Open Scope Z_scope.

(** ** COO2CSR is the conversion of H2Pack_utils.c with other value types *)
Lemma kv_up_scan fuel key : forall i mid, kv_up Z.ltb fuel key i mid = scan_up fuel key i mid.
Proof. reflexivity. Qed.
Lemma kv_down_scan fuel key : forall i mid, kv_down Z.ltb fuel key i mid = scan_down fuel key i mid.
Proof. reflexivity. Qed.
Lemma kv_part_loop {A} fuel : forall key (val : mem A) i j mid, kv_part Z.ltb fuel key val i j mid = part_loop fuel key val i j mid.
Proof.
  induction fuel; intros; cbn [kv_part part_loop]; auto. destruct (i <=? j); auto. rewrite kv_up_scan. destruct (scan_up _ key i mid); cbn [bind]; auto.
  rewrite kv_down_scan. destruct (scan_down _ key j mid); cbn [bind]; auto. destruct (z <=? z0); auto. unfold swap_pair, mswap.
  destruct (ld key z); cbn [bind]; auto. destruct (ld key z0); cbn [bind]; auto. destruct (st key z _); cbn [bind]; auto. destruct (st m z0 _); cbn [bind]; auto.
  destruct (ld val z); cbn [bind]; auto. destruct (ld val z0); cbn [bind]; auto. destruct (st val z _); cbn [bind]; auto. destruct (st m1 z0 _); cbn [bind]; auto.
Qed.
Lemma Qsort_kv {A} fuel : forall key (val : mem A) l r, Qsort_key_val Z.ltb fuel key val l r = qsort_kv fuel key val l r.
Proof.
  induction fuel; intros; cbn [Qsort_key_val qsort_kv]; auto. destruct (ld key _); cbn [bind]; auto. rewrite kv_part_loop.
  destruct (part_loop _ _ _ _ _ _) as [[[[k1 v1] i] j]|]; cbn [bind]; auto. rewrite IHfuel. destruct (if i <? r then _ else _) as [[k2 v2]|]; cbn [bind]; auto.
  rewrite IHfuel. auto.
Qed.
Lemma in_order_fold {S} ord (f : Z -> S -> option S) : forall o, (s <- o; in_order ord f s) = fold_left (fun o i => s <- o; f i s) ord o.
Proof.
  induction ord; intros; cbn [in_order fold_left]; [destruct o; auto|]. rewrite <- IHord. destruct o; cbn [bind]; auto.
Qed.
Lemma in_order_ext {S} ord (f g : Z -> S -> option S) : (forall i s, f i s = g i s) -> forall s, in_order ord f s = in_order ord g s.
Proof. intros H. induction ord; intros; cbn [in_order]; auto. rewrite H. destruct (g a s); cbn [bind]; auto. Qed.

Lemma zfor_ext_all {S} lo hi (f g : Z -> S -> option S) s : (forall i s, f i s = g i s) -> zfor lo hi f s = zfor lo hi g s.
Proof. intros H. apply zfor_ext. auto. Qed.

Lemma COO2CSR_is {A} nrow nnz row col (val : list A) ord :
  COO2CSR nrow nnz (full row) (full col) (full val) ord = coo_to_csr nrow nnz row col val (alloc (nrow + 1)) (alloc nnz) (alloc nnz) ord.
Proof.
  unfold COO2CSR, coo_to_csr.
  destruct (zfor 0 (nrow + 1) _ _) as [p1|]; cbn [bind]; auto.
  rewrite (zfor_ext_all 0 nnz _ (fun i p => r <- getz row i; c <- ld p (r + 1); st p (r + 1) (c + 1))) by (intros; now rewrite ld_full).
  destruct (zfor 0 nnz _ p1) as [p2|]; cbn [bind]; auto.
  destruct (zfor 2 (nrow + 1) _ p2) as [p3|]; cbn [bind]; auto.
  rewrite (zfor_ext_all 0 nnz _ (fun i (s : mem Z * mem Z * mem A) => let '(p, ci, va) := s in
      r <- getz row i; idx <- ld p r; c <- getz col i; ci' <- st ci idx c; v <- getz val i; va' <- st va idx v; p' <- st p r (idx + 1); Some (p', ci', va')) (p3, alloc nnz, alloc nnz))
    by (intros i ((p & ci) & va); now rewrite !ld_full).
  destruct (zfor 0 nnz _ (p3, _, _)) as [((p4 & ci) & va)|]; cbn [bind]; auto.
  destruct (zfor 0 nrow _ p4) as [p5|]; cbn [bind]; auto. destruct (st p5 0 0) as [p6|]; cbn [bind]; auto.
  match goal with |- context [in_order ord ?f (ci, va)] => change (in_order ord f (ci, va)) with (s <- Some (ci, va); in_order ord f s) end. rewrite in_order_fold.
  match goal with |- bind ?a _ = bind ?b _ => assert (E : a = b) end.
  { clear. generalize (Some (ci, va)). induction ord as [|i ord IH]; intros o; cbn [fold_left]; auto. rewrite IH. f_equal.
    destruct o as [[c v]|]; cbn [bind]; auto. destruct (ld p6 i); cbn [bind]; auto. destruct (ld p6 (i + 1)); cbn [bind]; auto. apply Qsort_kv. }
  rewrite E. destruct (fold_left _ ord _) as [[c v]|]; auto.
Qed.

Lemma coo2csr_spec {A} nrow nnz row col (val : list A) ord : 1 <= nrow -> 1 <= nnz -> zlen row = nnz -> zlen col = nnz -> zlen val = nnz ->
  (forall k, 0 <= k < nnz -> 0 <= nthz row k < nrow) -> any_order nrow ord ->
  exists rp ci va, COO2CSR nrow nnz (full row) (full col) (full val) ord = Some (rp, ci, va) /\ is_csr nrow nnz row col val rp ci va.
Proof.
  intros. rewrite COO2CSR_is. apply coo_to_csr_spec; auto; rewrite zlen_alloc; lia.
Qed.

Lemma mem_full {A} (m : mem A) : (forall k, 0 <= k < zlen m -> exists v, ld m k = Some v) -> exists l, m = full l.
Proof.
  induction m as [|o m IH]; intros H; [exists []; auto|]. destruct (H 0) as (v & Ev); [zlia|].
  destruct IH as (l & El).
  { intros k Hk. destruct (H (k + 1)) as (w & Ew); [zlia|]. exists w. rewrite <- Ew. unfold ld. rewrite getz_cons by lia.
    destruct (Z.eqb_spec (k + 1) 0); [lia|]. now replace (k + 1 - 1) with k by lia. }
  exists (v :: l). subst m. unfold ld in Ev. rewrite getz_0 in Ev. destruct o; [|discriminate]. injection Ev as ->. reflexivity.
Qed.

(** ** Sparse matrix times vector *)
Section SpMV.
Context {K : cring}.
Add Ring Kring : (cth K).
Local Open Scope ring_K.

Definition getk (l : list K) (i : Z) : K := match getz l i with Some v => v | None => c0 end.

Lemma lsum_filter {A} (f : A -> K) p l : lsum f (filter p l) = lsum (fun x => if p x then f x else c0) l.
Proof. induction l; cbn [filter]; auto. rewrite lsum_cons. destruct (p a); rewrite ?lsum_cons, IHl; auto. ring. Qed.

Lemma acc_loop a b (f : Z -> option K) (g : Z -> K) : (forall j, a <= j < b -> f j = Some (g j)) ->
  zfor a b (fun j r => v <- f j; Some (r + v)) c0 = Some (rsum a b g).
Proof.
  intros H. destruct (Z.le_gt_cases a b) as [Hab|Hab]; [|rewrite zfor_empty, rsum_empty by lia; auto].
  destruct (zfor_inv (fun j r => r = rsum a j g) a b (fun j r => v <- f j; Some (r + v)) c0) as (r & E & ->); auto.
  - now rewrite rsum_empty by lia.
  - intros j r Hj ->. rewrite H by lia. cbn [bind]. eexists. split; [reflexivity|]. now rewrite rsum_snoc by lia.
Qed.

Variables (nrow ncol nnz : Z) (row col : list Z) (val : list K) (rp ci : mem Z) (va : mem K).
Hypothesis Hnr : 0 <= nrow.
Hypothesis Lcol : zlen col = nnz.
Hypothesis Lval : zlen val = nnz.
Hypothesis Rcol : forall k, 0 <= k < nnz -> 0 <= nthz col k < ncol.
Hypothesis Hcsr : is_csr nrow nnz row col val rp ci va.

Lemma spmv_row r a b (x : mem K) xo (xv : Z -> K) : 0 <= r < nrow -> ld rp r = Some a -> ld rp (r + 1) = Some b ->
  (forall j, 0 <= j < ncol -> ld x (xo + j)%Z = Some (xv j)) ->
  zfor a b (fun j res => v <- ld va j; c <- ld ci j; xc <- ld x (xo + c)%Z; Some (res + v * xc)) c0 =
  Some (rsum 0 nnz (fun k => if (nthz row k =? r)%Z then getk val k * xv (nthz col k) else c0)).
Proof.
  intros Hr Ea Eb Hx. destruct Hcsr as (_ & _ & _ & H). destruct (H r Hr) as (a' & b' & Ea' & Eb' & Hab & Hbn & Hp & _).
  rewrite Ea in Ea'. injection Ea' as <-. rewrite Eb in Eb'. injection Eb' as <-.
  set (g := fun p : option Z * option K => match p with (Some c, Some v) => v * xv c | _ => c0 end).
  assert (Hin : forall j, a <= j < b -> exists c v, 0 <= c < ncol /\ ld ci j = Some c /\ ld va j = Some v).
  { intros j Hj. assert (I : In (ld ci j, ld va j) (coo_row nnz row col val r)).
    { eapply Permutation_in; [exact Hp|]. unfold cells. apply in_map_iff. exists j. split; auto. now apply In_zrange. }
    unfold coo_row in I. apply in_map_iff in I as (k & E & I). apply filter_In in I as (I & _). apply In_zrange in I. injection E as E1 E2.
    destruct (getz_in val k ltac:(lia)) as (v & Ev). exists (nthz col k), v. split; [auto|]. rewrite <- E1, <- E2, Ev. rewrite getz_nthz by lia. auto. }
  rewrite (zfor_ext a b _ (fun j r => v <- (v <- ld va j; c <- ld ci j; xc <- ld x (xo + c)%Z; Some (v * xc)); Some (r + v))).
  2:{ intros j s Hj. destruct (Hin j Hj) as (c & v & Hc & -> & ->). cbn [bind]. rewrite Hx by lia. reflexivity. }
  rewrite (acc_loop a b _ (fun j => g (ld ci j, ld va j))).
  2:{ intros j Hj. destruct (Hin j Hj) as (c & v & Hc & E1 & E2). rewrite E1, E2. cbn [bind]. rewrite Hx by lia. reflexivity. }
  f_equal. unfold rsum at 1. rewrite <- (lsum_map g (fun j => (ld ci j, ld va j))). fold (cells ci va a b).
  rewrite (lsum_perm g _ _ Hp). unfold coo_row. rewrite lsum_map, lsum_filter. apply lsum_ext. intros k Hk. apply In_zrange in Hk.
  destruct (nthz row k =? r)%Z; auto. unfold g, getk. rewrite (getz_nthz col k) by lia. destruct (getz_in val k ltac:(lia)) as (v & ->). auto.
Qed.

Lemma spmv_spec (x : mem K) xo xv (y : mem K) yo : (forall j, 0 <= j < ncol -> ld x (xo + j)%Z = Some (xv j)) -> 0 <= yo -> yo + nrow <= zlen y ->
  exists y', FSAI_CSR_SpMV nrow rp ci va x xo y yo = Some y' /\ zlen y' = zlen y /\
    forall c, ld y' c = if (yo <=? c)%Z && (c <? yo + nrow)%Z then Some (rsum 0 nnz (fun k => if (nthz row k =? c - yo)%Z then getk val k * xv (nthz col k) else c0)) else ld y c.
Proof.
  intros Hx Hyo Hz. unfold FSAI_CSR_SpMV.
  destruct (st_loop (fun i => rsum 0 nnz (fun k => if (nthz row k =? i)%Z then getk val k * xv (nthz col k) else c0)) yo nrow y) as (y' & E & Z1 & L1); auto.
  exists y'. split; [|split; auto]. rewrite <- E. apply zfor_ext. intros i s Hi.
  destruct Hcsr as (_ & _ & _ & H). destruct (H i Hi) as (a & b & Ea & Eb & _). rewrite Ea, Eb. cbn [bind].
  rewrite (spmv_row i a b x xo xv) by auto. reflexivity.
Qed.
End SpMV.
