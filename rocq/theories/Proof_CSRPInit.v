(** CSRP_init_with_COO_mat followed by the product. *)
From Coq Require Import ZArith List Lia Bool Ring Permutation.
From Verif Require Import Base Mem CRing Model_CSR Spec_CSR Proof_CSR Proof_BJLeaf Model_FSAI Spec_FSAI Model_CSRP Spec_CSRP Proof_CSRPPart Proof_CSRPFact Proof_CSRP.
Import ListNotations.
Open Scope Z_scope.

Lemma full_of {A} : forall m : mem A, (forall i, 0 <= i < zlen m -> exists v, ld m i = Some v) -> exists l, m = full l.
Proof.
  induction m as [|a m IH]; intros H; [exists []; reflexivity|].
  destruct (H 0) as [v Ev]. { rewrite zlen_cons. pose proof (zlen_nonneg m). lia. }
  apply ld_getz in Ev. rewrite getz_0 in Ev. injection Ev as ->.
  destruct IH as [l ->]; [|exists (v :: l); reflexivity].
  intros i Hi. destruct (H (i + 1)) as [w Ew]; [rewrite zlen_cons; lia|]. exists w. apply ld_getz in Ew. apply ld_getz.
  rewrite getz_cons in Ew by lia. now replace (i + 1 - 1) with i in Ew by lia.
Qed.

(** The sort and the bucket sort keep the lengths of the arrays. *)
Lemma mswap_len {A} (m m' : mem A) i j : mswap m i j = Some m' -> zlen m' = zlen m.
Proof. unfold mswap. intros H. inv_bind H a E1. inv_bind H b E2. inv_bind H m1 E3. rewrite (st_zlen _ _ _ _ H). apply (st_zlen _ _ _ _ E3). Qed.
Lemma part_loop_len {A} : forall fuel key (val : mem A) i j mid key' val' i' j',
  part_loop fuel key val i j mid = Some (key', val', i', j') -> zlen key' = zlen key /\ zlen val' = zlen val.
Proof.
  induction fuel as [|f IH]; intros key val i j mid key' val' i' j' H; cbn [part_loop] in H; [discriminate|].
  destruct (i <=? j); [|injection H as <- <- <- <-; auto].
  inv_bind H i1 E1. inv_bind H j1 E2. destruct (i1 <=? j1).
  - inv_bind H k1 E3. inv_bind H v1 E4. apply IH in H. apply mswap_len in E3, E4. lia.
  - apply IH in H. auto.
Qed.
Lemma qsort_len {A} : forall fuel key (val : mem A) l r key' val',
  qsort_kv fuel key val l r = Some (key', val') -> zlen key' = zlen key /\ zlen val' = zlen val.
Proof.
  induction fuel as [|f IH]; intros key val l r key' val' H; cbn [qsort_kv] in H; [discriminate|].
  inv_bind H mid E1. inv_bind H s E2. destruct s as (((k1 & v1) & i) & j). apply part_loop_len in E2.
  inv_bind H s E3. destruct s as (k2 & v2).
  assert (zlen k2 = zlen k1 /\ zlen v2 = zlen v1). { destruct (i <? r); [apply IH in E3; auto|injection E3 as <- <-; auto]. }
  assert (zlen key' = zlen k2 /\ zlen val' = zlen v2). { destruct (l <? j); [apply IH in H; auto|injection H as <- <-; auto]. }
  lia.
Qed.
Lemma init_len {A} n nnz row col (val : list A) rp0 ci0 va0 ord rp ci va : 0 <= nnz ->
  coo_to_csr n nnz row col val rp0 ci0 va0 ord = Some (rp, ci, va) -> zlen ci = zlen ci0 /\ zlen va = zlen va0.
Proof.
  intros Hz. unfold coo_to_csr. intros H. inv_bind H q1 E1. inv_bind H q2 E2. inv_bind H q3 E3. inv_bind H s E4.
  apply (zfor_inv_partial (fun _ (s : mem Z * mem Z * mem A) => zlen (snd (fst s)) = zlen ci0 /\ zlen (snd s) = zlen va0)) in E4; auto.
  2: { intros k ((p & ci1) & va1) t' _ (A1 & A2) B. cbn [fst snd] in A1, A2. inv_bind B r B1. inv_bind B idx B2. inv_bind B c B3. inv_bind B ci2 B4. inv_bind B v B5. inv_bind B va2 B6. inv_bind B p2 B7.
       injection B as <-. cbn [fst snd]. rewrite (st_zlen _ _ _ _ B4), (st_zlen _ _ _ _ B6). auto. }
  destruct s as ((p & ci1) & va1). cbn [fst snd] in E4. inv_bind H q4 E5. inv_bind H q5 E6. inv_bind H s E7. destruct s as (ci2 & va2). injection H as <- <- <-.
  clear - E4 E7. revert E7. revert E4. generalize ci1 va1.
  assert (NN : forall l, fold_left (fun (s : option (mem Z * mem A)) i =>
      '(ci, va) <- s; a <- ld q5 i; b <- ld q5 (i + 1); qsort_kv (Z.to_nat (b - 1 - a + 2)) ci va a (b - 1)) l None = None).
  { induction l; cbn [fold_left bind]; auto. }
  induction ord as [|i ord IH]; intros c1 w1 E4 E7; cbn [fold_left] in E7.
  - injection E7 as <- <-. auto.
  - cbn [bind] in E7. destruct (ld q5 i) as [a|]; cbn [bind] in E7; [|rewrite NN in E7; discriminate].
    destruct (ld q5 (i + 1)) as [b|]; cbn [bind] in E7; [|rewrite NN in E7; discriminate].
    destruct (qsort_kv (Z.to_nat (b - 1 - a + 2)) c1 w1 a (b - 1)) as [[c2 w2]|] eqn:E8; [|rewrite NN in E7; discriminate].
    apply qsort_len in E8. apply (IH c2 w2); auto. lia.
Qed.

Section Init.
Context {K : cring}.
Add Ring Kring : (cth K).

Lemma lsum_filter {A} (b : A -> bool) (f : A -> K) l : lsum f (filter b l) = lsum (fun x => if b x then f x else c0) l.
Proof. induction l as [|x l IH]; [reflexivity|]. cbn [filter]. rewrite lsum_cons. destruct (b x); rewrite ?lsum_cons, IH; ring. Qed.

Lemma init_spec n m nnz (row col : list Z) (val : list K) ord : 1 <= n -> 1 <= nnz ->
  zlen row = nnz -> zlen col = nnz -> zlen val = nnz ->
  (forall k, 0 <= k < nnz -> 0 <= nthz row k < n /\ 0 <= nthz col k < m) -> any_order n ord ->
  exists rp cols vals p v, csrp_init n nnz row col val ord = Some (full rp, full cols, full vals) /\
    csr_matrix rp cols vals n m p (nthz cols) v /\ p n = nnz /\
    (forall i t t', 0 <= i < n -> p i <= t <= t' -> t' < p (i + 1) -> nthz cols t <= nthz cols t') /\
    forall i j V, 0 <= i < n -> (forall k, 0 <= k < nnz -> getz val k = Some (V k)) -> csr_entry p (nthz cols) v i j = coo_entry nnz row col V i j.
Proof.
  intros Hn Hz L1 L2 L3 Hr Ho.
  destruct (coo_to_csr_spec n nnz row col val Hn Hz L1 L2 L3 (fun k Hk => proj1 (Hr k Hk)) (alloc (n + 1)) (alloc nnz) (alloc nnz) ord) as (rp & ci & va & E & (Z1 & R0 & Rn & HR)); try (rewrite zlen_alloc; lia); auto.
  destruct (init_len n nnz row col val _ _ _ ord rp ci va ltac:(lia) E) as (Z2 & Z3). rewrite zlen_alloc in Z2 by lia. rewrite zlen_alloc in Z3 by lia.
  destruct (full_of rp) as [rpl Erp].
  { intros i Hi. destruct (Z.eq_dec i n) as [->|]; eauto. destruct (HR i) as (a & b & A1 & _); [lia|eauto]. }
  set (p := nthz rpl).
  assert (Gp : forall i, 0 <= i <= n -> getz rpl i = Some (p i)). { intros i Hi. apply getz_nthz. rewrite Erp, zlen_full in Z1. lia. }
  assert (Lp : forall i, 0 <= i <= n -> ld rp i = Some (p i)). { intros i Hi. rewrite Erp, ld_full. auto. }
  assert (P0 : p 0 = 0). { rewrite Lp in R0 by lia. congruence. }
  assert (Pn : p n = nnz). { rewrite Lp in Rn by lia. congruence. }
  assert (HR2 : forall r, 0 <= r < n -> 0 <= p r <= p (r + 1) /\ p (r + 1) <= nnz /\ Permutation (cells ci va (p r) (p (r + 1))) (coo_row nnz row col val r) /\ sorted_cells ci (p r) (p (r + 1))).
  { intros r H. destruct (HR r H) as (a & b & A1 & A2 & A3 & A4 & A5 & A6). rewrite Lp in A1, A2 by lia. injection A1 as <-. injection A2 as <-. auto. }
  assert (HP : csr_rows rpl n p).
  { split; [lia|]. split; [rewrite Erp, zlen_full in Z1; auto|]. split; auto. split; auto. intros i Hi. apply HR2. auto. }
  assert (Cell : forall t, 0 <= t < nnz -> exists k, 0 <= k < nnz /\ ld ci t = getz col k /\ ld va t = getz val k).
  { intros t Ht.
    assert (Q : forall j, 0 <= j -> j <= n -> t < p j -> exists r, 0 <= r < n /\ p r <= t < p (r + 1)).
    { apply (up_ind 0 (fun j => j <= n -> t < p j -> exists r, 0 <= r < n /\ p r <= t < p (r + 1))); [lia|].
      intros j Hj IH Hj' Hk'. destruct (Z.lt_ge_cases t (p j)); [apply IH; auto; lia|]. exists j. lia. }
    destruct (Q n) as (r & Hr1 & Hr2); try lia. destruct (HR2 r Hr1) as (_ & _ & A5 & _).
    assert (I : In (ld ci t, ld va t) (coo_row nnz row col val r)).
    { eapply Permutation_in; [exact A5|]. unfold cells. apply in_map_iff. exists t. split; auto. now apply In_zrange. }
    unfold coo_row in I. apply in_map_iff in I. destruct I as (k & Ek & Ik). apply filter_In in Ik. destruct Ik as [Ik _].
    rewrite In_zrange in Ik. injection Ek as Q1 Q2. exists k. auto. }
  destruct (full_of ci) as [cl Ecl].
  { intros t Ht. destruct (Cell t) as (k & Hk & E1 & _); [lia|]. rewrite E1. apply getz_in. lia. }
  destruct (full_of va) as [vl Evl].
  { intros t Ht. destruct (Cell t) as (k & Hk & _ & E1); [lia|]. rewrite E1. apply getz_in. lia. }
  assert (Zc : zlen cl = nnz) by (rewrite Ecl, zlen_full in Z2; auto).
  assert (Zv : zlen vl = nnz) by (rewrite Evl, zlen_full in Z3; auto).
  set (v := fun t => match getz vl t with Some a => a | None => @c0 K end).
  exists rpl, cl, vl, p, v. split; [unfold csrp_init; now rewrite E, Erp, Ecl, Evl|].
  assert (Gc : forall t, 0 <= t < nnz -> getz cl t = Some (nthz cl t)) by (intros; apply getz_nthz; lia).
  assert (Gv : forall t, 0 <= t < nnz -> getz vl t = Some (v t)). { intros t Ht. destruct (getz_in vl t) as [a Ea]; [lia|]. unfold v. now rewrite Ea. }
  split; [|split; [auto|split]].
  - split; auto. rewrite Pn. intros t Ht. split; auto. split; auto.
    destruct (Cell t Ht) as (k & Hk & E1 & _). rewrite Ecl, ld_full, Gc in E1 by auto. rewrite getz_nthz in E1 by lia. injection E1 as ->. apply Hr; auto.
  - intros i t t' Hi Ht Ht'. destruct (HR2 i Hi) as (A1 & A2 & _ & (_ & S)).
    apply (S t t'); auto; rewrite Ecl, ld_full; apply Gc; lia.
  - intros i j V Hi HV. destruct (HR2 i Hi) as (A1 & A2 & A3 & _).
    set (h := fun x : option Z * option K => match x with (Some a, Some b) => if a =? j then b else @c0 K | _ => c0 end).
    assert (S : lsum h (cells ci va (p i) (p (i + 1))) = lsum h (coo_row nnz row col val i)) by (apply lsum_perm; auto).
    unfold cells, coo_row in S. rewrite !lsum_map, lsum_filter in S.
    unfold csr_entry, coo_entry. transitivity (lsum (fun t => h (ld ci t, ld va t)) (zrange (p i) (p (i + 1)))); [|rewrite S].
    + apply lsum_ext. intros t Ht. apply In_zrange in Ht. rewrite Ecl, Evl, !ld_full, Gc, Gv by lia. reflexivity.
    + apply lsum_ext. intros k Hk. apply In_zrange in Hk. rewrite (getz_nthz col) by lia. rewrite HV by auto. cbn [h].
      destruct (nthz row k =? i); reflexivity.
Qed.
End Init.
