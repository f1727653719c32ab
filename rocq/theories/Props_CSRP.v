(** Properties of the CSRPlus matrix of the examples (C67, C68). *)
From Coq Require Import ZArith List Lia Bool Permutation.
From Verif Require Import Base Mem CRing Model_CSR Proof_BJLeaf Model_FSAI Spec_FSAI Model_CSRP Spec_CSRP Proof_CSRPPart Proof_CSRPFact Proof_CSRP Proof_CSRPInit.
Import ListNotations.
Open Scope Z_scope.

(** C67: with at least one and at most nnz blocks, the partition is made, and CSRP_SpMV
    stores A x in y, whatever the order in which the blocks run, and whatever y and
    the work arrays held before; cells of y beyond the rows are left alone. *)
Theorem C67_product {K : cring} (rp cols : list Z) (vals : list K) n m p c v nblk :
  csr_matrix rp cols vals n m p c v -> 1 <= nblk <= p n ->
  exists bs, csrp_partition n (p n) rp nblk = Some bs /\ zlen bs = nblk /\
    forall ord (x y fr lr : mem K) X, any_order nblk ord -> (forall j, 0 <= j < m -> ld x j = Some (X j)) ->
      n <= zlen y -> zlen fr = nblk -> zlen lr = nblk ->
      exists y' fr' lr', csrp_spmv rp cols vals x ord nblk bs y fr lr = Some (y', fr', lr') /\
        zlen y' = zlen y /\ zlen fr' = nblk /\ zlen lr' = nblk /\
        (forall i, 0 <= i < n -> ld y' i = Some (rsum 0 m (fun j => cmul (csr_entry p c v i j) (X j)))) /\
        forall i, n <= i -> ld y' i = ld y i.
Proof.
  intros HM Hb. destruct (partition_spec rp n p (proj1 HM) nblk Hb) as (bs & D & B & E & Zb & D0 & D1 & Ds & HB).
  exists bs. split; auto. split; auto. intros ord x y fr lr X Ho HX Hy Hf Hl.
  destruct (spmv_spec rp cols vals x n m p c v X HM HX nblk bs D B (proj1 Hb) D0 D1 Ds HB ord y fr lr Ho Hy Hf Hl) as (y' & fr' & lr' & E' & Z1 & Z2 & Z3 & L).
  exists y', fr', lr'. split; auto. split; auto. split; auto. split; auto. split.
  - intros i Hi. rewrite L. destruct (Z.leb_spec 0 i), (Z.ltb_spec i n); cbn [andb]; try lia. f_equal. apply row_sum.
    intros t Ht. apply HM. pose proof (csr_mono rp n p (proj1 HM)) as M. pose proof (M 0 i). pose proof (M (i + 1) n). destruct HM as ((_ & _ & _ & P0 & _) & _). lia.
  - intros i Hi. rewrite L. destruct (Z.leb_spec 0 i), (Z.ltb_spec i n); cbn [andb]; auto; lia.
Qed.
Print Assumptions C67_product.

(** C67: CSRP_optimize_NUMA copies every nonzero, in whatever order the blocks run. *)
Theorem C67_numa_copy {A} rp n p nblk bs ord (src : list A) : csr_rows rp n p -> 1 <= nblk <= p n ->
  csrp_partition n (p n) rp nblk = Some bs -> any_order nblk ord -> zlen src = p n ->
  numa_copy ord (p n) bs src = Some (full src).
Proof. apply numa_spec. Qed.
Print Assumptions C67_numa_copy.

(** A 5 x 3 matrix with empty rows, in 1 to 4 blocks. *)
Definition rp5 : list Z := [0; 0; 3; 3; 4; 4].
Definition p5 (i : Z) : Z := nthz rp5 i.
Definition cols5 : list Z := [0; 1; 2; 1].
Definition vals5 : list Zring := [1; 2; 3; 5].
Definition x3 : mem Zring := full [10; 100; 1000].
Example ex_rows : csr_rows rp5 5 p5.
Proof.
  split; [lia|]. split; [reflexivity|]. split; [|split; [reflexivity|]].
  - intros i Hi. assert (H : i = 0 \/ i = 1 \/ i = 2 \/ i = 3 \/ i = 4 \/ i = 5) by lia.
    repeat (destruct H as [->|H]; [reflexivity|]). now subst.
  - intros i Hi. assert (H : i = 0 \/ i = 1 \/ i = 2 \/ i = 3 \/ i = 4) by lia.
    repeat (destruct H as [->|H]; [vm_compute; discriminate|]). subst. vm_compute; discriminate.
Qed.
Example ex_matrix : csr_matrix (K:=Zring) rp5 cols5 vals5 5 3 p5 (nthz cols5) (nthz vals5).
Proof.
  split; [apply ex_rows|]. intros t Ht. change (p5 5) with 4 in Ht.
  assert (H : t = 0 \/ t = 1 \/ t = 2 \/ t = 3) by lia.
  repeat (destruct H as [->|H]; [repeat split; try reflexivity; vm_compute; discriminate|]). subst. repeat split; try reflexivity; vm_compute; discriminate.
Qed.
Example ex_product : exists y' fr' lr' : mem Zring,
  (bs <- csrp_partition 5 4 rp5 3; csrp_spmv (K:=Zring) rp5 cols5 vals5 x3 [2; 0; 1] 3 bs (alloc 5) (alloc 3) (alloc 3)) = Some (y', fr', lr') /\
  y' = full [0; 3210; 0; 500; 0].
Proof. do 3 eexists. split; [vm_compute; reflexivity|reflexivity]. Qed.

(** C67 fails with more blocks than nonzeros: for the 1 x 1 matrix with one entry, the
    partition into two blocks is made, but CSRP_SpMV reads row_ptr past its end. *)
Theorem C67_more_blocks_than_nonzeros_refuted :
  exists bs, csrp_partition 1 1 [0; 1] 2 = Some bs /\
    forall ord, any_order 2 ord ->
      csrp_spmv (K:=Zring) [0; 1] [0] [1] (full [1]) ord 2 bs (alloc 1) (alloc 2) (alloc 2) = None.
Proof.
  eexists. split; [vm_compute; reflexivity|]. intros ord Ho.
  assert (H : ord = [0; 1] \/ ord = [1; 0]).
  { apply Permutation_sym in Ho. apply Permutation_length_2_inv in Ho. tauto. }
  destruct H as [->| ->]; vm_compute; reflexivity.
Qed.
Print Assumptions C67_more_blocks_than_nonzeros_refuted.

(** C67 fails for a matrix without nonzeros: the partition reads row_ptr[-1]. *)
Theorem C67_no_nonzeros_refuted : csrp_partition 2 0 [0; 0; 0] 1 = None.
Proof. reflexivity. Qed.
Print Assumptions C67_no_nonzeros_refuted.

(** C68: from coordinates: CSRP_init_with_COO_mat returns a compressed-row matrix with
    sorted rows, and then for every partition and schedule CSRP_SpMV stores A x, where
    A adds up repeated coordinates. *)
Theorem C68_product_from_coordinates {K : cring} n m nnz (row col : list Z) (val : list K) V ord0 :
  1 <= n -> 1 <= nnz -> zlen row = nnz -> zlen col = nnz -> zlen val = nnz ->
  (forall k, 0 <= k < nnz -> 0 <= nthz row k < n /\ 0 <= nthz col k < m /\ getz val k = Some (V k)) -> any_order n ord0 ->
  exists rp cols vals, csrp_init n nnz row col val ord0 = Some (full rp, full cols, full vals) /\
    (forall i t t', 0 <= i < n -> nthz rp i <= t <= t' -> t' < nthz rp (i + 1) -> nthz cols t <= nthz cols t') /\
    forall nblk, 1 <= nblk <= nnz -> exists bs, csrp_partition n nnz rp nblk = Some bs /\
      forall ord (x y fr lr : mem K) X, any_order nblk ord -> (forall j, 0 <= j < m -> ld x j = Some (X j)) ->
        zlen y = n -> zlen fr = nblk -> zlen lr = nblk ->
        exists fr' lr', csrp_spmv rp cols vals x ord nblk bs y fr lr =
          Some (map (fun i => Some (rsum 0 m (fun j => cmul (coo_entry nnz row col V i j) (X j)))) (zrange 0 n), fr', lr').
Proof.
  intros Hn Hz L1 L2 L3 Hr Ho.
  destruct (init_spec n m nnz row col val ord0 Hn Hz L1 L2 L3) as (rp & cols & vals & p & v & E & HM & Pn & S & En); auto.
  { intros k Hk. destruct (Hr k Hk) as (A1 & A2 & _). auto. }
  assert (Np : forall i, 0 <= i <= n -> nthz rp i = p i).
  { intros i Hi. pose proof (proj1 HM) as (_ & Z1 & G & _). specialize (G i Hi). rewrite getz_nthz in G by lia. congruence. }
  exists rp, cols, vals. split; auto. split.
  { intros i t t' Hi Ht Ht'. rewrite !Np in * by lia. eapply S; eauto. }
  intros nblk Hb. destruct (C67_product rp cols vals n m p (nthz cols) v nblk HM) as (bs & Eb & _ & H); [lia|].
  rewrite Pn in Eb. exists bs. split; auto. intros ord x y fr lr X Hord HX Hy Hf Hl.
  destruct (H ord x y fr lr X Hord HX) as (y' & fr' & lr' & E' & Zy & _ & _ & Ly & _); auto; [lia|].
  exists fr', lr'. rewrite E'. repeat f_equal. apply getz_ext.
  { rewrite zlen_map, zlen_zrange by lia. lia. }
  intros i Hi. rewrite Zy, Hy in Hi. rewrite getz_map, getz_zrange by lia. cbn [option_map]. rewrite Z.add_0_l.
  apply ld_getz. rewrite Ly by auto. f_equal. apply rsum_ext. intros j Hj. f_equal. apply En; auto. intros k Hk. apply Hr. auto.
Qed.
Print Assumptions C68_product_from_coordinates.

(** The 5 x 3 matrix again, from unsorted coordinates. *)
Example ex_init : csrp_init (A:=Zring) 5 4 [3; 1; 1; 1] [1; 2; 0; 1] [5; 3; 1; 2] [4; 1; 0; 3; 2] = Some (full rp5, full cols5, full vals5).
Proof. vm_compute. reflexivity. Qed.

(** C68 fails without nonzeros: the sort of row 0 reads col[0] of an empty array. *)
Theorem C68_no_nonzeros_refuted : forall n (ord : list Z), 1 <= n -> any_order n ord ->
  csrp_init (A:=Zring) n 0 [] [] [] ord = None.
Proof.
  intros n ord Hn Ho. destruct (csrp_init n 0 [] [] [] ord) as [((rp & ci) & va)|] eqn:E; auto. exfalso.
  unfold csrp_init, coo_to_csr in E. inv_bind E q1 E1. inv_bind E q2 E2. inv_bind E q3 E3. inv_bind E s E4.
  rewrite zfor_empty in E4 by lia. injection E4 as <-. inv_bind E q4 E5. inv_bind E q5 E6. inv_bind E s E7. clear E.
  destruct ord as [|i ord]. { apply Permutation_nil in Ho. assert (Q : In 0 (zrange 0 n)) by (apply In_zrange; lia). rewrite Ho in Q. destruct Q. }
  cbn [fold_left bind] in E7.
  assert (NN : forall l, fold_left (fun (s : option (mem Z * mem Zring)) i =>
      '(ci, va) <- s; a <- ld q5 i; b <- ld q5 (i + 1); qsort_kv (Z.to_nat (b - 1 - a + 2)) ci va a (b - 1)) l None = None).
  { induction l; cbn [fold_left bind]; auto. }
  assert (Q : forall a b, qsort_kv (Z.to_nat (b - 1 - a + 2)) (alloc 0) (@alloc Zring 0) a (b - 1) = None).
  { intros a b. destruct (Z.to_nat (b - 1 - a + 2)); cbn [qsort_kv]; auto.
    destruct (ld (alloc 0) (Z.quot (a + (b - 1)) 2)) eqn:L; auto. apply ld_range in L. rewrite zlen_alloc in L; lia. }
  destruct (ld q5 i) as [a|]; cbn [bind] in E7; [|rewrite NN in E7; discriminate].
  destruct (ld q5 (i + 1)) as [b|]; cbn [bind] in E7; [|rewrite NN in E7; discriminate].
  specialize (Q a b). change (ccar Zring) with Z in *. rewrite Q, NN in E7. discriminate.
Qed.
Print Assumptions C68_no_nonzeros_refuted.
