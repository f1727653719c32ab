(** Properties C23, C26, C27, C34. *)
From Coq Require Import ZArith QArith List Lia Bool Permutation.
From Verif Require Import Base Mem Num CRing Conc Model_Utils Spec_Utils Proof_Utils Model_Dense Spec_Dense Proof_Dense3 Model_CSR Spec_CSR Model_Partition Spec_Tree Spec_Partition
  Model_Pairs Spec_Pairs Props_Pairs Model_Matvec Spec_Matvec Proof_MvTop Proof_MvCor Props_Matvec Model_Build Spec_Build Proof_BuildUse Ex_Matvec Ex_Build.
Import ListNotations.
Open Scope Z_scope.

(** ** C26: the tables of blocks.  H2P_build succeeds, for every kernel and every
    schedule; the block slots are disjoint and fill the storage; each stored
    block is the kernel matrix on its rows and columns; the result is a
    well-formed representation covering every entry once (so C19, C20, C22, C30
    and C32 apply to it). *)
Theorem C26_build_fills_disjoint_slots_with_the_kernel :
  forall (F : num) (K : cring) (kern : list F -> list F -> Z -> Z -> K) fuel rnd pt_dim xpt_dim kdim n_point n_thread (coord0 : mem F)
    max_leaf_points max_leaf_size root_enbox alpha depth t ps U J Jc js blkB blkD0 blkD1 sc,
    build_inputs fuel rnd pt_dim xpt_dim kdim n_point n_thread coord0 max_leaf_points max_leaf_size root_enbox alpha depth t ps U J Jc js blkB blkD0 blkD1 sc ->
    exists h bm dm, h2_build kern pt_dim xpt_dim kdim n_point n_thread t ps U J Jc blkB blkD0 blkD1 sc = Some (h, bm, dm) /\
      slots_ok bm (zlen (h_adm h)) (h_Bdata h) /\ slots_ok dm (h_nleaf h + zlen (h_inadm h)) (h_Ddata h) /\
      blocks_are_kernel h js (kernel_matrix kern kdim (coords_of xpt_dim n_point coord0)) /\
      rep_ok h /\ covered_once h /\ h_t h = r_arrays t /\ h_adm h = ps_adm ps /\ h_inadm h = ps_inadm ps /\ h_kms h = kdim * n_point.
Proof.
  intros F K kern fuel rnd pt_dim xpt_dim kdim n_point n_thread coord0 mlp mls rbox alpha depth t ps U J Jc js blkB blkD0 blkD1 sc BI.
  destruct (build_all kern _ _ _ _ _ _ _ _ _ _ _ _ _ _ _ _ _ _ _ _ _ _ _ BI) as (h & bm & dm & E & R & C & BK & (E1 & E2 & E3 & E4 & E5 & E6 & E7 & E8 & E9 & E10) & _ & S1 & S2 & _).
  exists h, bm, dm. repeat (split; [assumption|]). assumption.
Qed.
Print Assumptions C26_build_fills_disjoint_slots_with_the_kernel.

(** ** C23: the two permutations are inverse of each other, and follow the
    reordering of the points. *)
Theorem C23_permutations_inverse :
  forall (F : num) (K : cring) (kern : list F -> list F -> Z -> Z -> K) fuel rnd pt_dim xpt_dim kdim n_point n_thread (coord0 : mem F)
    max_leaf_points max_leaf_size root_enbox alpha depth t ps U J Jc js blkB blkD0 blkD1 sc h bm dm,
    build_inputs fuel rnd pt_dim xpt_dim kdim n_point n_thread coord0 max_leaf_points max_leaf_size root_enbox alpha depth t ps U J Jc js blkB blkD0 blkD1 sc ->
    h2_build kern pt_dim xpt_dim kdim n_point n_thread t ps U J Jc blkB blkD0 blkD1 sc = Some (h, bm, dm) ->
    (* component j of the point at position i comes from component j of the user's point coord_idx[i] *)
    (forall i j o, 0 <= i < n_point -> 0 <= j < kdim -> ld (r_idx t) i = Some o -> nthz (h_fwd h) (i * kdim + j) = o * kdim + j) /\
    forall (x px y : mem K) (xf : Z -> K), (forall k, 0 <= k < kdim * n_point -> ld x k = Some (xf k)) -> kdim * n_point <= zlen px -> kdim * n_point <= zlen y ->
      (exists px' y', permute_vector_forward h x px = Some px' /\ permute_vector_backward h px' y = Some y' /\
        (forall p, 0 <= p < kdim * n_point -> ld px' p = Some (xf (nthz (h_fwd h) p))) /\
        forall k, 0 <= k < kdim * n_point -> ld y' k = Some (xf k)) /\
      (exists px' y', permute_vector_backward h x px = Some px' /\ permute_vector_forward h px' y = Some y' /\
        forall k, 0 <= k < kdim * n_point -> ld y' k = Some (xf k)).
Proof.
  intros F K kern fuel rnd pt_dim xpt_dim kdim n_point n_thread coord0 mlp mls rbox alpha depth t ps U J Jc js blkB blkD0 blkD1 sc h bm dm BI E.
  destruct (build_all kern _ _ _ _ _ _ _ _ _ _ _ _ _ _ _ _ _ _ _ _ _ _ _ BI) as (h' & bm' & dm' & E' & R & C & BK & (E1 & E2 & E3 & E4 & E5 & E6 & E7 & E8 & E9 & E10) & FW & _).
  rewrite E in E'. injection E' as <- <- <-.
  assert (D2 : 1 <= kdim) by (destruct (bi_dims _ _ _ _ _ _ _ _ _ _ _ _ _ _ _ _ _ _ _ _ _ _ _ BI); auto).
  split.
  - intros i j o Hi Hj Ho. destruct (Proof_BuildTop.divmod_cell kdim i j D2 Hj) as [Q1 Q2]. rewrite (FW (i * kdim + j) o) by (try rewrite Q1; auto; nia). now rewrite Q2.
  - intros x px y xf Hx Hpx Hy. destruct (ro_pmt _ R) as (Zf & Zb & P). rewrite E5 in *.
    unfold permute_vector_forward, permute_vector_backward. rewrite E5.
    assert (IF : forall i, In i (h_fwd h) -> 0 <= i < kdim * n_point) by (intros i Hi; apply In_getz in Hi as (k & Hk); pose proof (getz_range _ _ _ Hk); rewrite <- (nthz_eq _ _ _ Hk); apply P; lia).
    assert (IB : forall i, In i (h_bwd h) -> 0 <= i < kdim * n_point) by (intros i Hi; apply In_getz in Hi as (k & Hk); pose proof (getz_range _ _ _ Hk); rewrite <- (nthz_eq _ _ _ Hk); apply P; lia).
    assert (Hn : 0 <= kdim * n_point) by (rewrite <- Zf; apply zlen_nonneg).
    split.
    + destruct (gather_vector_spec (kdim * n_point) (h_fwd h) x px 0 0 xf (kdim * n_point)) as (px' & Ep & Zp & Gp & _); auto; try lia.
      destruct (gather_vector_spec (kdim * n_point) (h_bwd h) px' y 0 0 (fun p => xf (nthz (h_fwd h) p)) (kdim * n_point)) as (y' & Ey & Zy & Gy & _); auto; try lia.
      exists px', y'. split; auto. split; auto. split; [exact Gp|]. intros k Hk. specialize (Gy k Hk). rewrite Z.add_0_l in Gy. rewrite Gy. destruct (P k Hk) as (_ & _ & _ & ->). auto.
    + destruct (gather_vector_spec (kdim * n_point) (h_bwd h) x px 0 0 xf (kdim * n_point)) as (px' & Ep & Zp & Gp & _); auto; try lia.
      destruct (gather_vector_spec (kdim * n_point) (h_fwd h) px' y 0 0 (fun p => xf (nthz (h_bwd h) p)) (kdim * n_point)) as (y' & Ey & Zy & Gy & _); auto; try lia.
      exists px', y'. split; auto. split; auto. intros k Hk. specialize (Gy k Hk). rewrite Z.add_0_l in Gy. rewrite Gy. destruct (P k Hk) as (_ & _ & -> & _). auto.
Qed.
Print Assumptions C23_permutations_inverse.

(** ** C27: block retrieval. *)
Theorem C27_block_retrieval :
  forall (F : num) (K : cring) (kern : list F -> list F -> Z -> Z -> K) fuel rnd pt_dim xpt_dim kdim n_point n_thread (coord0 : mem F)
    max_leaf_points max_leaf_size root_enbox alpha depth t ps U J Jc js blkB blkD0 blkD1 sc h bm dm,
    build_inputs fuel rnd pt_dim xpt_dim kdim n_point n_thread coord0 max_leaf_points max_leaf_size root_enbox alpha depth t ps U J Jc js blkB blkD0 blkD1 sc ->
    h2_build kern pt_dim xpt_dim kdim n_point n_thread t ps U J Jc blkB blkD0 blkD1 sc = Some (h, bm, dm) ->
    let getB regen n0 n1 out := get_Bij kern (ctx_of pt_dim xpt_dim kdim n_point t Jc) bm (h_Bdata h) regen n0 n1 out in
    let getD regen n0 n1 out := get_Dij kern (ctx_of pt_dim xpt_dim kdim n_point t Jc) dm (h_Ddata h) regen n0 n1 out in
    forall (regen : bool) out, dm_ok out ->
    (* an admissible pair, asked for as stored and in reverse *)
    (forall k n0 n1, getz (h_adm h) k = Some (n0, n1) ->
      (exists o, getB regen n0 n1 out = Some (Some o) /\ block_view o false (Bnrow h k) (Bncol h k) (Bval h k)) /\
      (exists o, getB regen n1 n0 out = Some (Some o) /\ block_view o true (Bnrow h k) (Bncol h k) (Bval h k))) /\
    (* not an admissible pair *)
    (forall n0 n1, 0 <= n0 < h_nnode h -> ~ In (n0, n1) (h_adm h) -> ~ In (n1, n0) (h_adm h) -> getB regen n0 n1 out = Some None) /\
    (* an inadmissible pair *)
    (forall k n0 n1, getz (h_inadm h) k = Some (n0, n1) ->
      (exists o, getD regen n0 n1 out = Some (Some o) /\ block_view o false (msize h n0) (msize h n1) (Dval h (h_nleaf h + k))) /\
      (exists o, getD regen n1 n0 out = Some (Some o) /\ block_view o true (msize h n0) (msize h n1) (Dval h (h_nleaf h + k)))) /\
    (* a leaf with itself *)
    (forall k, 0 <= k < h_nleaf h ->
      exists o, getD regen (leaf h k) (leaf h k) out = Some (Some o) /\ block_view o false (msize h (leaf h k)) (msize h (leaf h k)) (Dval h k)) /\
    (* anything else *)
    (forall n0 n1, 0 <= n0 < h_nnode h -> ~ In (n0, n1) (h_inadm h) -> ~ In (n1, n0) (h_inadm h) ->
      ~ (n0 = n1 /\ exists k, 0 <= k < h_nleaf h /\ n0 = leaf h k) -> getD regen n0 n1 out = Some None).
Proof.
  intros F K kern fuel rnd pt_dim xpt_dim kdim n_point n_thread coord0 mlp mls rbox alpha depth t ps U J Jc js blkB blkD0 blkD1 sc h bm dm BI E getB getD regen out Ho.
  destruct (build_all kern _ _ _ _ _ _ _ _ _ _ _ _ _ _ _ _ _ _ _ _ _ _ _ BI) as (h' & bm' & dm' & E' & _ & _ & _ & _ & _ & _ & _ & _ & G1 & G2 & G3 & G4 & G5).
  rewrite E in E'. injection E' as <- <- <-. split; [|split; [|split; [|split]]]; eauto.
Qed.
Print Assumptions C27_block_retrieval.

(** ** C34: from the points to the product.  If the bases interpolate exactly on
    the far field (as the interpolative decomposition does at full rank, C25),
    then partitioning, pairing, building and multiplying gives the kernel matrix
    of the user's points times the user's vector. *)
Theorem C34_exact_interpolation_gives_the_kernel_product :
  forall (F : num) (K : cring) (kern : list F -> list F -> Z -> Z -> K) fuel rnd pt_dim xpt_dim kdim n_point n_thread (coord0 : mem F)
    max_leaf_points max_leaf_size root_enbox alpha depth t ps U J Jc js blkB blkD0 blkD1 sc h bm dm,
    let KM := kernel_matrix kern kdim (coords_of xpt_dim n_point coord0) in
    build_inputs fuel rnd pt_dim xpt_dim kdim n_point n_thread coord0 max_leaf_points max_leaf_size root_enbox alpha depth t ps U J Jc js blkB blkD0 blkD1 sc ->
    h2_build kern pt_dim xpt_dim kdim n_point n_thread t ps U J Jc blkB blkD0 blkD1 sc = Some (h, bm, dm) ->
    (forall p q a b, kern p q a b = kern q p b a) -> interpolates h js KM ->
    forall msc s (x y : mem K) (xf : Z -> K), schedule_ok h msc -> state_ok h s ->
    (forall j, 0 <= j < kdim * n_point -> ld x j = Some (xf j)) -> kdim * n_point <= zlen y ->
    exists s' y', matvec h msc s x y = Some (s', y') /\
      forall i, 0 <= i < kdim * n_point -> ld y' i = Some (rsum 0 (kdim * n_point) (fun j => cmul (KM i j) (xf j))).
Proof.
  intros F K kern fuel rnd pt_dim xpt_dim kdim n_point n_thread coord0 mlp mls rbox alpha depth t ps U J Jc js blkB blkD0 blkD1 sc h bm dm KM BI E Sym HI msc s x y xf Hs Hst Hx Hy.
  destruct (build_all kern _ _ _ _ _ _ _ _ _ _ _ _ _ _ _ _ _ _ _ _ _ _ _ BI) as (h' & bm' & dm' & E' & R & C & BK & (E1 & E2 & E3 & E4 & E5 & E6 & E7 & E8 & E9 & E10) & _ & _ & _ & Own & _).
  rewrite E in E'. injection E' as <- <- <-. rewrite <- E5 in *.
  apply C22_exact_blocks_give_the_kernel_product; auto.
  - apply (interpolation_exact h R js KM); auto. intros i j. unfold KM, kernel_matrix. apply Sym.
  - intros i j. unfold KM, kernel_matrix. apply Sym.
Qed.
Print Assumptions C34_exact_interpolation_gives_the_kernel_product.

(** ** The hypotheses can be met *)

(** Five unsorted points, kernel with 2x2 blocks, two threads. *)
Example C26_example : exists h bm dm, h2_build kern5 1 1 2 5 2 tree5b ps5 U5 J5 Jc5 (iv1 []) (iv1 []) (iv1 []) bsched5 = Some (h, bm, dm) /\
  rep_ok h /\ covered_once h /\ h_fwd h = [2; 3; 0; 1; 6; 7; 8; 9; 4; 5] /\ zlen (h_Bdata h) = 20.
Proof.
  destruct (C26_build_fills_disjoint_slots_with_the_kernel _ _ kern5 _ _ _ _ _ _ _ _ _ _ _ _ _ _ _ _ _ _ _ _ _ _ _ inputs5) as (h & bm & dm & E & _ & _ & _ & R & C & _).
  exists h, bm, dm. split; [exact E|]. split; auto. split; auto. rewrite built5_eq in E. assert (h = h5) as -> by (injection E; intros; symmetry; assumption). split; reflexivity.
Qed.
(** Forward then backward on a concrete vector. *)
Example C23_example : exists px y, permute_vector_forward h5 (map Some [10; 11; 20; 21; 30; 31; 40; 41; 50; 51] : mem Zring) (alloc 10) = Some px /\
  permute_vector_backward h5 px (alloc 10) = Some y /\ px = map Some [20; 21; 10; 11; 40; 41; 50; 51; 30; 31] /\ y = map Some [10; 11; 20; 21; 30; 31; 40; 41; 50; 51].
Proof. eexists _, _. repeat split; vm_compute; reflexivity. Qed.
(** Retrieval of the block of (0, 5) and of (5, 0), and of no block. *)
Example C27_example :
  let getB n0 n1 := get_Bij kern5 (ctx_of 1 1 2 5 tree5b Jc5) (snd (fst built5)) (h_Bdata h5) true n0 n1 (dm1 0 0 []) in
  getB 0 5 = Some (Some (dm1 2 2 [2; 1; 1; 3])) /\ getB 5 0 = Some (Some (mkDM 2 2 (-2) 4 (map Some [2; 1; 1; 3] : mem Zring))) /\ getB 0 1 = Some None.
Proof. repeat split; vm_compute; reflexivity. Qed.

Definition sched5b : schedule := {|
  sc_fwd := lev5; sc_team := [1; 0];
  sc_mid := [(1, 3); (0, 0); (0, 1); (1, 4); (0, 2)];
  sc_sum := [(0, 8); (1, 0); (0, 1); (0, 2); (1, 5); (1, 4); (0, 3); (0, 6); (1, 7)];
  sc_bwd := lev5;
  sc_den := [(1, (false, 3)); (0, (false, 0)); (0, (false, 1)); (1, (false, 4)); (1, (true, 3)); (0, (false, 2)); (0, (true, 0)); (0, (true, 1)); (0, (true, 2))];
  sc_red := [1; 0]
|}.
Lemma sched5b_ok : schedule_ok h5 sched5b.
Proof.
  constructor.
  - intros i n Hi En. cbn [h_minlevel h_maxlevel h5] in Hi. assert (i = 2 \/ i = 3) as [-> | ->] by lia; vm_compute in En; injection En as <-; apply omp_for_check; reflexivity.
  - apply zperm_ok. reflexivity.
  - exists [[0]; [1]]. split; [reflexivity|]. apply (weave_inter [1; 0; 0; 1; 0]%nat). reflexivity.
  - apply omp_for_check. reflexivity.
  - intros i n Hi En. cbn [h_minlevel h_maxlevel h5] in Hi. assert (i = 2 \/ i = 3) as [-> | ->] by lia; vm_compute in En; injection En as <-; apply omp_for_check; reflexivity.
  - exists [[0]; [1]], [[0]; [1]]. split; [reflexivity|]. split; [reflexivity|]. apply (weave_inter [1; 0; 0; 1; 1; 0; 0; 0; 0]%nat). reflexivity.
  - apply zperm_ok. reflexivity.
Qed.
Definition fresh5b : mvst Zring := MvSt None None [alloc 10; alloc 10] [dm_init 0 0; dm_init 0 0] (alloc 10) (alloc 10) (alloc 10).
Lemma fresh5b_ok : state_ok h5 fresh5b.
Proof. constructor; cbn; try (vm_compute; discriminate); auto; split; auto; repeat constructor. Qed.
Example C34_example : exists s' y', matvec h5 sched5b fresh5b (map Some [1; 2; 3; 4; 5; 6; 7; 8; 9; 10] : mem Zring) (alloc 10) = Some (s', y') /\
  forall i, 0 <= i < 10 -> ld y' i = Some (rsum 0 10 (fun j => @cmul Zring (KM5b i j) (j + 1))).
Proof.
  apply (C34_exact_interpolation_gives_the_kernel_product _ _ kern5 _ _ _ _ _ _ _ _ _ _ _ _ _ _ _ _ _ _ _ _ _ _ _ _ _ _ inputs5 built5_eq kern5_sym interp5 sched5b fresh5b (map Some [1; 2; 3; 4; 5; 6; 7; 8; 9; 10]) (alloc 10) (fun j => j + 1) sched5b_ok fresh5b_ok).
  - intros j Hj. cases_below 10%nat Hj; reflexivity.
  - vm_compute. discriminate.
Qed.

(** ** Where it fails *)

(** No admissible pair (here two points, two adjacent leaves): building the table
    of far-field blocks reads outside its arrays, for every kernel and schedule.
    (bi_some is needed.) *)
Definition pts2 : mem Qred_num := map Some ([0; 1])%Q.
Definition tree2 : tree_result Qred_num :=
  Eval vm_compute in match build_tree 6 (fun _ => (1#3)%Q : Qred_num) 1 1 2 pts2 1 (0%Q : Qred_num) None with
                     | Some (Some t) => t
                     | _ => TRes [] [] 0 0 0 (TArr [] [] [] [] [] [] [] [] [] [] []) end.
Theorem C26_no_pairs_refuted :
  build_tree 6 (fun _ => (1#3)%Q : Qred_num) 1 1 2 pts2 1 (0%Q : Qred_num) None = Some (Some tree2) /\
  exists ps, calc_reduced_adm_pairs 6 1 ALPHA_H2 0 (r_n_node tree2) (r_max_level tree2) (r_arrays tree2) = Some ps /\ ps_adm ps = [] /\ ps_inadm ps = [(0, 1)] /\
    forall (kern : list Qred_num -> list Qred_num -> Z -> Z -> Zring) n_thread U J Jc blkB blkD0 blkD1 sc, Permutation (bs_ordB sc) (zrange 0 (r_n_node tree2)) ->
      h2_build kern 1 1 1 2 n_thread tree2 ps U J Jc blkB blkD0 blkD1 sc = None.
Proof.
  split; [vm_compute; reflexivity|]. eexists. split; [vm_compute; reflexivity|]. split; [reflexivity|]. split; [reflexivity|]. intros kern n_thread U J Jc blkB blkD0 blkD1 sc HP.
  unfold h2_build. cbn [ps_adm].
  assert (X : gen_B_metadata 1 (r_n_node tree2) n_thread 1 false (a_level (r_arrays tree2)) (a_cluster (r_arrays tree2)) J [] (bs_ordB sc) blkB = None).
  { unfold gen_B_metadata. change (zlen (@nil (Z * Z))) with 0. change (r_n_node tree2) with 3 in *.
    assert (Y : pair_index 3 (0 * 2) [] (bs_ordB sc) = None).
    { destruct (bs_ordB sc) as [|i ord]; [apply Permutation_length in HP; discriminate HP|].
      assert (Hi : 0 <= i < 3) by (apply In_zrange, (Permutation_in _ HP); left; reflexivity). clear HP.
      cases_below 3%nat Hi; (induction ord as [|o ord IH]; [reflexivity|exact IH]). }
    match goal with |- bind ?e _ = None => replace e with (Some [Some 0]) by reflexivity end. cbn [bind].
    match goal with |- bind ?e _ = None => replace e with (Some [Some 0; Some 0; Some 0]) by reflexivity end. cbn [bind].
    rewrite zfor_empty by lia. cbn [bind b_ptr b_ps b_tot]. rewrite Y.
    repeat match goal with |- bind ?e _ = None => destruct e as [?|]; cbn [bind]; [|reflexivity] end.
    reflexivity. }
  change (ps_adm _) with (@nil (Z * Z)). rewrite X. reflexivity.
Qed.
Print Assumptions C26_no_pairs_refuted.

(** A team smaller than n_thread (omp_get_dynamic, nested parallelism, a thread
    limit): the blocks of the missing threads are never filled.  Here one thread
    instead of two; everything else as in the example. *)
Theorem C26_small_team_refuted :
  exists sc bm bB nr, gen_B_metadata 2 (r_n_node tree5b) 2 1 false (a_level (r_arrays tree5b)) (a_cluster (r_arrays tree5b)) J5 (ps_adm ps5) (bs_ordB sc) (iv1 []) = Some (bm, nr, bB) /\
    (* what a team of one thread does with the two blocks of work *)
    inter (thread_items bB (map (own_block (iv_len bB - 1)) (zrange 0 1))) (bs_evB sc) /\
    exists h, h2_build kern5 1 1 2 5 2 tree5b ps5 U5 J5 Jc5 (iv1 []) (iv1 []) (iv1 []) sc = Some (h, bm, snd built5) /\
      exists c, 0 <= c < zlen (h_Bdata h) /\ ld (h_Bdata h) c = None.
Proof.
  exists {| bs_ordB := bs_ordB bsched5; bs_ordD := bs_ordD bsched5; bs_evB := [(0, 0); (0, 1); (0, 2)]; bs_evD := bs_evD bsched5 |}.
  eexists _, _, _. split; [vm_compute; reflexivity|]. split; [apply (weave_inter [0; 0; 0]%nat); reflexivity|].
  eexists. split; [vm_compute; reflexivity|]. exists 12. split; [vm_compute; split; congruence|reflexivity].
Qed.
Print Assumptions C26_small_team_refuted.
