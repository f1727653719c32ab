(** Properties C41, C42, C43, C44: the product of a periodic system. *)
From Coq Require Import ZArith QArith List Lia Bool Permutation Reals Lra.
From Verif Require Import Base Mem Num CRing Conc Model_Utils Spec_Utils Proof_Utils Model_Dense Spec_Dense Model_CSR Spec_CSR Model_Partition Spec_Tree Spec_Partition
  Model_Pairs Spec_Pairs Props_Pairs Model_Matvec Spec_Matvec Model_Build Spec_Build Model_Matmul Spec_Matmul FNum Spec_ID Proof_IDMath Proof_Approx
  Model_Periodic Spec_Periodic Model_PerBuild Proof_PerBlock Proof_PerRoot Proof_PerExact Proof_PerUse Proof_PerFinal Model_Lattice Proof_Lattice Ex_Matvec Ex_Build Ex_Periodic.
Import ListNotations.
Open Scope Z_scope.

(** The working buffers of a handle on which any number of periodic products were
    computed, whatever their inputs, batch widths, layouts and schedules. *)
Inductive after_per_calls {F : num} {K : cring} (kern : list F -> list F -> Z -> Z -> K) (h : h2rep F K) (c : pctx F K) : pst F K -> Prop :=
| per_fresh m0 m1 ty px py yT : zlen m0 = h_nthread h -> zlen m1 = h_nthread h -> Forall (fun m => m = dm_init 0 0) m0 -> Forall (fun m => m = dm_init 0 0) m1 ->
    after_per_calls kern h c (MvSt None None ty m0 px py yT, m1)
| per_call z mmx col sc n_vec x ldx y ldy z' y' : after_per_calls kern h c z -> 1 <= mmx -> 0 <= n_vec -> (forall b, mm_sched_ok h (sc b)) ->
    (forall j v, 0 <= j < h_kms h -> 0 <= v < n_vec -> exists w, ld x (mat_cell col ldx j v) = Some w) ->
    mat_fits col (h_kms h) n_vec ldy (zlen y) ->
    matmul_periodic kern h c mmx col sc n_vec z x ldx y ldy = Some (z', y') -> after_per_calls kern h c z'.

Lemma after_per_calls_ok {F : num} {K : cring} kern (h : h2rep F K) pt js adm inadm sB sD O c z :
  per_rep_ok h adm -> per_ok h pt js adm inadm sB sD O c -> after_per_calls kern h c z -> pst_ok h z.
Proof.
  intros R PO A. induction A as [m0 m1 ty px py yT Z0 Z1 F0 F1|z mmx col sc n_vec x ldx y ldy z' y' A IH Hm Hv Hs Hx Hy E].
  - constructor; cbn [fst snd s_y0 s_y1 s_m0]; try exact I; (split; [assumption|]); (eapply Forall_impl; [|eassumption]); cbv beta; intros m ->; reflexivity.
  - assert (Hx' : forall j v, 0 <= j < h_kms h -> 0 <= v < n_vec -> ld x (mat_cell col ldx j v) = Some (val c0 (ld x (mat_cell col ldx j v)))) by (intros j v Hj Hv'; destruct (Hx j v Hj Hv') as (w & ->); reflexivity).
    destruct (matmul_per_rep kern h pt js adm inadm sB sD O c mmx col sc n_vec z x ldx y ldy _ R PO Hm Hv Hs IH Hx' Hy) as (z2 & y2 & E2 & Z2 & _). congruence.
Qed.

(** For every well-formed periodic handle (tree, bases, pairs with their shifts,
    root block), previous calls, layout, number of columns, batch width and thread
    schedules: the product runs without an illegal access, stores in the output
    the matrix made of the leaves' blocks, the shifted blocks of the listed pairs
    and the root block, times the input, and touches no other cell. *)
Theorem C41_periodic_product_applies_the_operator :
  forall (F : num) (K : cring) (kern : list F -> list F -> Z -> Z -> K) (h : h2rep F K) pt js adm inadm sB sD O c z
    mmx col_major sc n_vec (x : mem K) ldx (y : mem K) ldy (xf : Z -> Z -> K),
    per_rep_ok h adm -> per_ok h pt js adm inadm sB sD O c -> after_per_calls kern h c z ->
    1 <= mmx -> 0 <= n_vec -> (forall b, mm_sched_ok h (sc b)) ->
    (forall j v, 0 <= j < h_kms h -> 0 <= v < n_vec -> ld x (mat_cell col_major ldx j v) = Some (xf j v)) ->
    mat_fits col_major (h_kms h) n_vec ldy (zlen y) ->
    exists z' y', matmul_periodic kern h c mmx col_major sc n_vec z x ldx y ldy = Some (z', y') /\ after_per_calls kern h c z' /\ zlen y' = zlen y /\
      (forall i v, 0 <= i < h_kms h -> 0 <= v < n_vec -> ld y' (mat_cell col_major ldy i v) =
         Some (rsum 0 (h_kms h) (fun j => cmul (Hper kern h pt js adm inadm sB sD O (nthz (h_bwd h) i) (nthz (h_bwd h) j)) (xf j v)))) /\
      forall k, (forall i v, 0 <= i < h_kms h -> 0 <= v < n_vec -> k <> mat_cell col_major ldy i v) -> getz y' k = getz y k.
Proof.
  intros F K kern h pt js adm inadm sB sD O c z mmx col sc n_vec x ldx y ldy xf R PO A Hm Hv Hs Hx Hy.
  destruct (matmul_per_rep kern h pt js adm inadm sB sD O c mmx col sc n_vec z x ldx y ldy xf R PO Hm Hv Hs (after_per_calls_ok _ _ _ _ _ _ _ _ _ _ _ R PO A) Hx Hy) as (z' & y' & E & _ & Z' & V' & G' & _).
  exists z', y'. split; [exact E|]. split; [|auto]. eapply per_call; eauto.
Qed.
Print Assumptions C41_periodic_product_applies_the_operator.

(** From the user's points and lattices to the product: H2P_build_periodic turns
    any partitioned periodic point set with bases and skeletons into a handle, and
    every later product on that handle applies the operator [Hper] made from the
    listed pairs (each shifted by its own lattice vector), the leaves and the root
    block (the periodic kernel minus the lattice copies, on the root skeleton). *)
Theorem C42_periodic_build_and_product :
  forall (F : num) (K : cring) (kern pkern : list F -> list F -> Z -> Z -> K) fuel rnd pt_dim xpt_dim kdim n_point n_thread (coord0 : mem F)
    max_leaf_points max_leaf_size root_enbox alpha depth t n_lattice lattices ts adm inadm U J Jc js blkB blkD0 blkD1 ordB ordD m0 m1,
    per_inputs fuel rnd pt_dim xpt_dim kdim n_point n_thread coord0 max_leaf_points max_leaf_size root_enbox alpha depth t n_lattice lattices ts adm inadm U J Jc js blkB blkD0 blkD1 ordB ordD m0 m1 ->
    let sh := lattice_shift pt_dim lattices t in
    let pt := coords_of xpt_dim n_point (r_coord t) in
    exists h c, build_periodic kern pkern pt_dim xpt_dim kdim n_point n_thread t n_lattice lattices adm inadm U J Jc blkB blkD0 blkD1 ordB ordD m0 m1 = Some (h, c) /\
      h_kms h = kdim * n_point /\
      forall z mmx col_major sc n_vec (x : mem K) ldx (y : mem K) ldy (xf : Z -> Z -> K),
      after_per_calls kern h c z -> 1 <= mmx -> 0 <= n_vec -> (forall b, mm_sched_ok h (sc b)) ->
      (forall j v, 0 <= j < kdim * n_point -> 0 <= v < n_vec -> ld x (mat_cell col_major ldx j v) = Some (xf j v)) ->
      mat_fits col_major (kdim * n_point) n_vec ldy (zlen y) ->
      exists z' y', matmul_periodic kern h c mmx col_major sc n_vec z x ldx y ldy = Some (z', y') /\ after_per_calls kern h c z' /\ zlen y' = zlen y /\
        (forall i v, 0 <= i < kdim * n_point -> 0 <= v < n_vec -> ld y' (mat_cell col_major ldy i v) =
           Some (rsum 0 (kdim * n_point) (fun j => cmul (Hper kern h pt js (map fst (of_kind true ts)) (map fst (of_kind false ts))
             (fun k => sh (lattice_of (of_kind true ts) k)) (fun k => sh (lattice_of (of_kind false ts) k))
             (root_block kern pkern kdim n_lattice (fun k => pt (nthz (js (r_n_node t - 1)) k)) sh) (nthz (h_bwd h) i) (nthz (h_bwd h) j)) (xf j v)))) /\
        forall k, (forall i v, 0 <= i < kdim * n_point -> 0 <= v < n_vec -> k <> mat_cell col_major ldy i v) -> getz y' k = getz y k.
Proof.
  intros F K kern pkern fuel rnd pt_dim xpt_dim kdim n_point n_thread coord0 mlp mls rbox alpha depth t nl lattices ts adm inadm U J Jc js blkB blkD0 blkD1 ordB ordD m0 m1 PI sh pt.
  destruct (per_all kern pkern _ _ _ _ _ _ _ _ _ _ _ _ _ _ _ _ _ _ _ _ _ _ _ _ _ _ _ _ _ _ PI) as (h & c & E & R & PO & (E1 & E2 & E3 & E4 & E5 & E6 & E7 & E8) & KM).
  exists h, c. split; [exact E|]. split; [exact E6|]. rewrite <- E6.
  intros z mmx col sc n_vec x ldx y ldy xf A Hm Hv Hs Hx Hy.
  exact (C41_periodic_product_applies_the_operator F K kern h pt js _ _ _ _ _ c z mmx col sc n_vec x ldx y ldy xf R PO A Hm Hv Hs Hx Hy).
Qed.
Print Assumptions C42_periodic_build_and_product.

Section Top.
Context {F : num} {K : cring}.
Variables (kern pkern : list F -> list F -> Z -> Z -> K) (fuel : nat) (rnd : Z -> F) (pt_dim xpt_dim kdim n_point n_thread : Z) (coord0 : mem F) (mlp : Z) (mls : F) (rbox : option (mem F)) (alpha : F) (depth : nat)
  (t : tree_result F) (nl : Z) (lattices : mem F) (ts : list (bool * (Z * Z * Z))) (adm inadm : mem Z * mem F)
  (U : list (dmat K)) (J : list int_vec) (Jc : list (dmat F)) (js : Z -> list Z) (blkB blkD0 blkD1 : int_vec) (ordB ordD : list Z) (m0 : dmat F) (m1 : dmat K).
Hypothesis PI : per_inputs fuel rnd pt_dim xpt_dim kdim n_point n_thread coord0 mlp mls rbox alpha depth t nl lattices ts adm inadm U J Jc js blkB blkD0 blkD1 ordB ordD m0 m1.
Variables (h : h2rep F K) (c : pctx F K).
Hypothesis EB : build_periodic kern pkern pt_dim xpt_dim kdim n_point n_thread t nl lattices adm inadm U J Jc blkB blkD0 blkD1 ordB ordD m0 m1 = Some (h, c).
Notation sh := (lattice_shift pt_dim lattices t).
Notation pt := (coords_of xpt_dim n_point (r_coord t)).
Notation ta := (of_kind true ts).
Notation ti := (of_kind false ts).

Lemma top_facts : per_rep_ok h (map fst ta) /\
  per_ok h pt js (map fst ta) (map fst ti) (fun k => sh (lattice_of ta k)) (fun k => sh (lattice_of ti k)) (root_block kern pkern kdim nl (fun k => pt (nthz (js (r_n_node t - 1)) k)) sh) c /\
  h_kms h = kdim * n_point /\ h_kdim h = kdim /\ h_nnode h = r_n_node t /\ h_npoint h = n_point /\ h_t h = r_arrays t /\
  (forall k n0 n1 l, getz ta k = Some (n0, n1, l) -> 0 <= n0 < h_nnode h /\ 0 <= n1 < h_nnode h /\ 0 <= l < nl) /\
  (forall k n0 n1 l, getz ti k = Some (n0, n1, l) -> 0 <= n0 < h_nnode h /\ 0 <= n1 < h_nnode h /\ 0 <= l < nl) /\
  (forall i j, 0 <= i < h_kms h -> 0 <= j < h_kms h ->
     pentry h pt pkern (nthz (h_bwd h) i) (nthz (h_bwd h) j) = kernel_matrix pkern kdim (coords_of xpt_dim n_point coord0) i j).
Proof.
  destruct (per_all kern pkern _ _ _ _ _ _ _ _ _ _ _ _ _ _ _ _ _ _ _ _ _ _ _ _ _ _ _ _ _ _ PI) as (h' & c' & E & R & PO & (E1 & E2 & E3 & E4 & E5 & E6 & E7 & E8) & KM).
  assert (X : (h', c') = (h, c)) by congruence. injection X as -> ->.
  split; [exact R|]. split; [exact PO|]. do 5 (split; [assumption|]). split; [|split; [|exact KM]]; intros k n0 n1 l G; rewrite E4; eapply triple_range; eauto using getz_In.
Qed.

Lemma bwd_range i : 0 <= i < h_kms h -> 0 <= nthz (h_bwd h) i < h_kms h.
Proof. intros Hi. destruct top_facts as (R & _). apply (pr_pmt _ _ R). exact Hi. Qed.
End Top.

(** Exactness: if one of the lattices is the unshifted box, moving the root
    skeleton to the lattice copies and back is exact, the listed pairs' blocks are
    reproduced from their skeletons and the remaining images from the skeleton of
    the root, then the product is the periodic kernel matrix of the user's points,
    in the user's order, times the input: each image is counted exactly once. *)
Theorem C43_periodic_product_is_the_periodic_kernel :
  forall (F : num) (K : cring) (kern pkern : list F -> list F -> Z -> Z -> K) fuel rnd pt_dim xpt_dim kdim n_point n_thread (coord0 : mem F)
    max_leaf_points max_leaf_size root_enbox alpha depth t n_lattice lattices ts adm inadm U J Jc js blkB blkD0 blkD1 ordB ordD m0 m1 h c l0,
    per_inputs fuel rnd pt_dim xpt_dim kdim n_point n_thread coord0 max_leaf_points max_leaf_size root_enbox alpha depth t n_lattice lattices ts adm inadm U J Jc js blkB blkD0 blkD1 ordB ordD m0 m1 ->
    build_periodic kern pkern pt_dim xpt_dim kdim n_point n_thread t n_lattice lattices adm inadm U J Jc blkB blkD0 blkD1 ordB ordD m0 m1 = Some (h, c) ->
    let sh := lattice_shift pt_dim lattices t in
    let pt := coords_of xpt_dim n_point (r_coord t) in
    one_unshifted pt_dim lattices t n_lattice l0 ->
    (forall p, In p (js (r_n_node t - 1)) -> undone sh n_lattice (pt p)) ->
    pair_interpolates kern h pt js (of_kind true ts) sh ->
    root_interpolates kern h pt js pkern n_lattice sh ->
    forall z mmx col_major sc n_vec (x : mem K) ldx (y : mem K) ldy (xf : Z -> Z -> K),
    after_per_calls kern h c z -> 1 <= mmx -> 0 <= n_vec -> (forall b, mm_sched_ok h (sc b)) ->
    (forall j v, 0 <= j < kdim * n_point -> 0 <= v < n_vec -> ld x (mat_cell col_major ldx j v) = Some (xf j v)) ->
    mat_fits col_major (kdim * n_point) n_vec ldy (zlen y) ->
    exists z' y', matmul_periodic kern h c mmx col_major sc n_vec z x ldx y ldy = Some (z', y') /\
      forall i v, 0 <= i < kdim * n_point -> 0 <= v < n_vec -> ld y' (mat_cell col_major ldy i v) =
        Some (rsum 0 (kdim * n_point) (fun j => cmul (kernel_matrix pkern kdim (coords_of xpt_dim n_point coord0) i j) (xf j v))).
Proof.
  intros F K kern pkern fuel rnd pt_dim xpt_dim kdim n_point n_thread coord0 mlp mls rbox alpha depth t nl lattices ts adm inadm U J Jc js blkB blkD0 blkD1 ordB ordD m0 m1 h c l0 PI EB sh pt One Und PIn RIn
    z mmx col sc n_vec x ldx y ldy xf A Hm Hv Hs Hx Hy.
  destruct (top_facts _ _ _ _ _ _ _ _ _ _ _ _ _ _ _ _ _ _ _ _ _ _ _ _ _ _ _ _ _ _ _ _ PI h c EB) as (R & PO & Ek & Ed & En & Ep & Et & Hta & Hti & KM).
  rewrite <- Ek in Hx, Hy |- *.
  destruct (C41_periodic_product_applies_the_operator F K kern h pt js _ _ _ _ _ c z mmx col sc n_vec x ldx y ldy xf R PO A Hm Hv Hs Hx Hy) as (z' & y' & E & _ & _ & V & _).
  exists z', y'. split; [exact E|]. intros i v Hi Hvv. rewrite (V i v Hi Hvv). f_equal. apply rsum_ext. intros j Hj. f_equal. rewrite <- KM by auto.
  pose proof (bwd_range _ _ _ _ _ _ _ _ _ _ _ _ _ _ _ _ _ _ _ _ _ _ _ _ _ _ _ _ _ _ _ _ PI h c EB) as BR.
  apply (Hper_exact kern pkern h pt js _ _ sh _ nl l0 R Hta Hti); auto.
  - eapply per_covered; eauto.
  - destruct One as (O1 & O2 & _). auto.
  - intros r c' Hr Hc. rewrite <- Ed. unfold root in *. rewrite <- En.
    destruct (po_js _ _ _ _ _ _ _ _ _ PO (h_nnode h - 1)) as (Rk & _).
    { pose proof (proj1 (ct_root _ _ _ _ _ _ (pr_tree _ _ R))). lia. }
    destruct (pr_dims _ _ R) as (_ & D2 & _).
    apply root_block_rest with (l0 := l0); [destruct One as (O1 & O2 & _); auto|exact D2|]. apply Und. rewrite <- En.
    rewrite Rk in Hc. apply (getz_In _ (c' / h_kdim h)). apply getz_nthz.
    split; [apply Z.div_pos; lia|]. apply Z.div_lt_upper_bound; [lia|]. unfold root. lia.
Qed.
Print Assumptions C43_periodic_product_is_the_periodic_kernel.

(** Accuracy over the reals: if every listed pair's compressed block is within [e]
    of the shifted kernel block and the root's compressed block within [ef] of the
    remaining images, every entry of the result is within (n_lattice * e + ef)
    times the 1-norm of the input column of the periodic kernel product. *)
Theorem C44_periodic_product_error :
  forall (F : num) (kern pkern : list F -> list F -> Z -> Z -> R) fuel rnd pt_dim xpt_dim kdim n_point n_thread (coord0 : mem F)
    max_leaf_points max_leaf_size root_enbox alpha depth t n_lattice lattices ts adm inadm U J Jc js blkB blkD0 blkD1 ordB ordD m0 m1 h c l0 e ef,
    @per_inputs F Rring fuel rnd pt_dim xpt_dim kdim n_point n_thread coord0 max_leaf_points max_leaf_size root_enbox alpha depth t n_lattice lattices ts adm inadm U J Jc js blkB blkD0 blkD1 ordB ordD m0 m1 ->
    @build_periodic F Rring kern pkern pt_dim xpt_dim kdim n_point n_thread t n_lattice lattices adm inadm U J Jc blkB blkD0 blkD1 ordB ordD m0 m1 = Some (h, c) ->
    let sh := lattice_shift pt_dim lattices t in
    let pt := coords_of xpt_dim n_point (r_coord t) in
    let adm_pairs := of_kind true ts in
    one_unshifted pt_dim lattices t n_lattice l0 -> (0 <= e)%R -> (0 <= ef)%R ->
    (forall k n0 n1 l p q, getz adm_pairs k = Some (n0, n1, l) -> inside h n0 p = true -> inside h n1 q = true ->
       (Rabs (@per_adm F Rring kern h pt js (map fst adm_pairs) (fun k => sh (lattice_of adm_pairs k)) k p q - @kshift F Rring kern h pt (sh l) p q) <= e)%R) ->
    (forall p q, 0 <= p < kdim * n_point -> 0 <= q < kdim * n_point ->
       (Rabs (@per_far F Rring h (@root_block F Rring kern pkern kdim n_lattice (fun k => pt (nthz (js (r_n_node t - 1)%Z) k)) sh) p q - @rest F Rring kern h pt pkern n_lattice sh p q) <= ef)%R) ->
    forall z mmx col_major sc n_vec (x : mem R) ldx (y : mem R) ldy (xf : Z -> Z -> R),
    @after_per_calls F Rring kern h c z -> 1 <= mmx -> 0 <= n_vec -> (forall b, mm_sched_ok h (sc b)) ->
    (forall j v, 0 <= j < kdim * n_point -> 0 <= v < n_vec -> ld x (mat_cell col_major ldx j v) = Some (xf j v)) ->
    mat_fits col_major (kdim * n_point) n_vec ldy (zlen y) ->
    exists z' y', @matmul_periodic F Rring kern h c mmx col_major sc n_vec z x ldx y ldy = Some (z', y') /\
      forall i v, 0 <= i < kdim * n_point -> 0 <= v < n_vec -> exists w, ld y' (mat_cell col_major ldy i v) = Some w /\
        (Rabs (w - Rsum 0 (kdim * n_point)%Z (fun j => @kernel_matrix F Rring pkern kdim (coords_of xpt_dim n_point coord0) i j * xf j v))
           <= (IZR n_lattice * e + ef) * Rsum 0 (kdim * n_point)%Z (fun j => Rabs (xf j v)))%R.
Proof.
  intros F kern pkern fuel rnd pt_dim xpt_dim kdim n_point n_thread coord0 mlp mls rbox alpha depth t nl lattices ts adm inadm U J Jc js blkB blkD0 blkD1 ordB ordD m0 m1 h c l0 e ef PI EB sh pt ap One He Hef HA HR
    z mmx col sc n_vec x ldx y ldy xf A Hm Hv Hs Hx Hy.
  destruct (top_facts (K := Rring) _ _ _ _ _ _ _ _ _ _ _ _ _ _ _ _ _ _ _ _ _ _ _ _ _ _ _ _ _ _ _ _ PI h c EB) as (R_ok & PO & Ek & Ed & En & Ep & Et & Hta & Hti & KM).
  pose proof (bwd_range (K := Rring) _ _ _ _ _ _ _ _ _ _ _ _ _ _ _ _ _ _ _ _ _ _ _ _ _ _ _ _ _ _ _ _ PI h c EB) as BR.
  rewrite <- Ek in Hx, Hy, HR |- *.
  destruct (C41_periodic_product_applies_the_operator F Rring kern h pt js _ _ _ _ _ c z mmx col sc n_vec x ldx y ldy xf R_ok PO A Hm Hv Hs Hx Hy) as (z' & y' & E & _ & _ & V & _).
  exists z', y'. split; [exact E|]. intros i v Hi Hvv. eexists. split; [exact (V i v Hi Hvv)|].
  assert (En2 : forall j, 0 <= j < h_kms h -> (Rabs (@Hper F Rring kern h pt js (map fst ap) (map fst (of_kind false ts)) (fun k => sh (lattice_of ap k)) (fun k => sh (lattice_of (of_kind false ts) k))
     (@root_block F Rring kern pkern kdim nl (fun k => pt (nthz (js (r_n_node t - 1)%Z) k)) sh) (nthz (h_bwd h) i) (nthz (h_bwd h) j) - @kernel_matrix F Rring pkern kdim (coords_of xpt_dim n_point coord0) i j) <= IZR nl * e + ef)%R).
  { intros j Hj. rewrite <- KM by auto. apply (Hper_close kern pkern h pt js ap (of_kind false ts) sh _ nl l0 R_ok Hta Hti); auto.
    - eapply (per_covered (K := Rring)); eauto.
    - destruct One as (O1 & O2 & _). auto.
    - intros k n0 n1 l G I1 I2. eapply HA; eauto. }
  assert (HB : (0 <= IZR nl * e + ef)%R).
  { destruct One as (O1 & _). assert (0 <= IZR nl)%R by (apply IZR_le; lia). pose proof (Rmult_le_pos _ _ H He). lra. }
  change (Rsum 0 (h_kms h) (fun j => @kernel_matrix F Rring pkern kdim (coords_of xpt_dim n_point coord0) i j * xf j v)%R) with (sumR 0 (h_kms h) (fun j => @kernel_matrix F Rring pkern kdim (coords_of xpt_dim n_point coord0) i j * xf j v)%R).
  cbn [cmul Rring]. rewrite <- sumR_sub. eapply Rle_trans; [apply sumR_abs|].
  change (Rsum 0 (h_kms h) (fun j => Rabs (xf j v))) with (sumR 0 (h_kms h) (fun j => Rabs (xf j v))). rewrite <- sumR_mul_l. apply sumR_le. intros j Hj.
  specialize (En2 j Hj). match goal with |- (Rabs (?a * ?x - ?b * ?x) <= _)%R => replace (a * x - b * x)%R with ((a - b) * x)%R by ring end.
  rewrite Rabs_mult. apply Rmult_le_compat_r; [apply Rabs_pos|exact En2].
Qed.
Print Assumptions C44_periodic_product_error.

(** The lattices H2P_run_RPY_Ewald sets up, in two and three dimensions: every
    neighbour vector of {-1, 0, 1}^pt_dim once; and, in exact arithmetic, for any
    points whose root box is wider than the code's threshold 1e-10 and any
    alpha > 0, they meet what C42 and C43 ask of lattices: only the middle one is
    unshifted, the root is never listed as well separated from an image, and
    moving a point (coordinates in lowest terms) to an image and back is exact. *)
Theorem C45_standard_lattices_qualify :
  forall fuel (rnd : Z -> Qred_num) pt_dim xpt_dim n_point (coord0 : mem Qred_num) max_leaf_points max_leaf_size root_enbox t (alpha : Qred_num) depth ts n_lattice (lattices : mem Qred_num),
    pt_dim = 2 \/ pt_dim = 3 -> run_RPY_Ewald pt_dim = (n_lattice, lattices) ->
    n_lattice = 3 ^ pt_dim /\ filled lattices (n_lattice * pt_dim) /\
    (forall v, zlen v = pt_dim -> Forall (fun x => -1 <= x <= 1) v -> exists l, 0 <= l < n_lattice /\
       (forall j, 0 <= j < pt_dim -> ld lattices (l * pt_dim + j) = Some (inject_Z (nthz v j))) /\
       forall l', 0 <= l' < n_lattice -> (forall j, 0 <= j < pt_dim -> ld lattices (l' * pt_dim + j) = Some (inject_Z (nthz v j))) -> l' = l) /\
    (points_ok pt_dim xpt_dim n_point coord0 root_enbox ->
     build_tree fuel rnd pt_dim xpt_dim n_point coord0 max_leaf_points max_leaf_size root_enbox = Some (Some t) ->
     (forall j, 0 <= j < pt_dim -> exists w, boxwidth pt_dim (r_arrays t) (r_n_node t - 1) j = Some w /\ (e10 1 10 < w)%Q) ->
     one_unshifted pt_dim lattices t n_lattice ((3 ^ pt_dim - 1) / 2) /\
     ((0 < (alpha : Q))%Q -> 2 * r_n_node t <= Z.of_nat depth -> all_pairs_per depth pt_dim alpha n_lattice lattices (r_n_node t) (r_arrays t) = Some ts ->
      forall n1 l, ~ In (r_n_node t - 1, n1, l) (of_kind true ts)) /\
     forall q, (forall x, In x q -> Qred x = x) -> undone (lattice_shift pt_dim lattices t) n_lattice q).
Proof.
  intros fuel rnd pt_dim xpt_dim n_point coord0 mlp mls rbox t alpha depth ts nl lats Hd Er.
  assert (En : nl = fst (@run_RPY_Ewald Qred_num pt_dim)) by (rewrite Er; reflexivity). assert (El : lats = snd (@run_RPY_Ewald Qred_num pt_dim)) by (rewrite Er; reflexivity). clear Er. subst nl lats.
  destruct (@table_len Qred_num pt_dim Hd) as (T1 & T2).
  assert (EE : forall l j, 0 <= l < 3 ^ pt_dim -> 0 <= j < pt_dim -> ld (snd (@run_RPY_Ewald Qred_num pt_dim)) (l * pt_dim + j) = Some (inject_Z (entry pt_dim (table pt_dim) l j))).
  { intros l j Hl Hj. rewrite (table_cells pt_dim Hd) by nia. cbn [nlit Qred_num]. rewrite Qred_inj_Z. reflexivity. }
  split; [exact T1|]. split; [|split].
  - rewrite T1. split; [exact T2|]. intros k Hk. eexists. apply (table_cells pt_dim Hd). exact Hk.
  - rewrite T1. intros v Zv Hv. destruct (entry_all pt_dim v Hd Zv Hv) as (l & Hl & Hj & U). exists l. split; [auto|]. split.
    + intros j Hjr. rewrite EE, Hj by auto. reflexivity.
    + intros l' Hl' H'. apply U; auto. intros j Hjr. specialize (H' j Hjr). rewrite EE in H' by auto. injection H' as H'. exact H'.
  - intros Hok Ht Hw. split; [|split].
    + eapply standard_unshifted; eauto.
    + intros Ha Hf Et. eapply standard_root; eauto.
    + intros q Hq. apply undone_lowest. exact Hq.
Qed.
Print Assumptions C45_standard_lattices_qualify.

(** ** The hypotheses can be met *)
Lemma fresh3_ok kern : after_per_calls kern h3 c3 fresh3.
Proof. apply per_fresh; try reflexivity; repeat constructor. Qed.
Definition x3 : mem Zring := map Some [5; 0; -2; 7; 7; 11; 1; 3; -4].
Lemma x3_val j v : 0 <= j < 3 -> 0 <= v < 3 -> ld x3 (mat_cell true 3 j v) = Some (nthz [5; 0; -2; 7; 7; 11; 1; 3; -4] (3 * v + j) : Zring).
Proof. intros Hj Hv. cases_below 3%nat Hj; cases_below 3%nat Hv; reflexivity. Qed.
(** C42, C43 on three points and their two neighbouring images: three columns in
    batches of two, column-major with padding. *)
Example C43_example : exists z' y', matmul_periodic kern3 h3 c3 2 true (fun _ => msched3) 3 fresh3 x3 3 (alloc 20) 7 = Some (z', y') /\
  forall i v, 0 <= i < 3 -> 0 <= v < 3 -> ld y' (v * 7 + i) =
    Some (rsum 0 3 (fun j => @cmul Zring (kernel_matrix pkern3 1 (coords_of 1 3 pts3) i j) (nthz [5; 0; -2; 7; 7; 11; 1; 3; -4] (3 * v + j)))).
Proof.
  apply (C43_periodic_product_is_the_periodic_kernel _ _ kern3 pkern3 _ _ _ _ _ _ _ _ _ _ _ _ _ _ _ _ _ _ _ _ _ _ _ _ _ _ _ _ _ _ _ _ 1 inputs3 built3_eq unshifted3 undone3 pairs_interp3 root_interp3
    fresh3 2 true (fun _ => msched3) 3 x3 3 (alloc 20) 7 (fun j v => nthz [5; 0; -2; 7; 7; 11; 1; 3; -4] (3 * v + j) : Zring));
  [exact (fresh3_ok kern3)|lia|lia|intros _; exact msched3_ok|exact x3_val|].
  unfold mat_fits. rewrite zlen_alloc; lia.
Qed.
(** The same run, computed. *)
Example C43_computed : match matmul_periodic kern3 h3 c3 2 true (fun _ => msched3) 3 fresh3 x3 3 (alloc 20) 7 with Some (_, y) => map (ld y) [0; 1; 2; 7; 8; 9; 14; 15; 16] | None => [] end
  = map Some [35; 35; -35; 15; 15; -15; 40; 40; -40].
Proof. vm_compute. reflexivity. Qed.

Example C42_example : exists z' y', matmul_periodic kern3 h3 c3 1 false (fun _ => msched3) 1 fresh3 (map Some [1; 2; 3] : mem Zring) 1 (alloc 3) 1 = Some (z', y') /\ after_per_calls kern3 h3 c3 z'.
Proof.
  destruct (C42_periodic_build_and_product _ _ kern3 pkern3 _ _ _ _ _ _ _ _ _ _ _ _ _ _ _ _ _ _ _ _ _ _ _ _ _ _ _ _ _ _ inputs3) as (h & c & E & _ & G).
  rewrite built3_eq in E. injection E as <- <-.
  destruct (G fresh3 1 false (fun _ => msched3) 1 (map Some [1; 2; 3] : mem Zring) 1 (alloc 3) 1 (fun j _ => j + 1 : Zring) (fresh3_ok kern3)) as (z' & y' & E & A & _); try lia.
  - intros _. exact msched3_ok.
  - intros j v Hj Hv. assert (v = 0) by lia. subst v. cases_below 3%nat Hj; reflexivity.
  - unfold mat_fits. rewrite zlen_alloc; lia.
  - eauto.
Qed.

(** C44: the same points over the reals, with an inexact basis: the second entry
    of the basis of node 2 is -9/8 instead of -1.  Every compressed block is within
    1/2 of its kernel block, and the root's within 1. *)
Definition dmR (r c : Z) (l : list R) : dmat Rring := mkDM r c c (zlen l) (map Some l : mem Rring).
Definition U3R : list (dmat Rring) := [dmR 1 1 [1]; dmR 1 1 [1]; dmR 2 1 [1; -(9/8)]; dmR 1 1 [1]; dmR 2 1 [1; 1]]%R.
Definition kern3R (p q : list Qred_num) (a b : Z) : R := (IZR (sgn3 p) * IZR (sgn3 q))%R.
Definition pkern3R (p q : list Qred_num) (a b : Z) : R := (5 * IZR (sgn3 p) * IZR (sgn3 q))%R.
Lemma skel3R : @skeletons_ok Qred_num R 1 1 1 3 5 0 (r_coord tree3) (r_arrays tree3) U3R J3 Jc3 js3.
Proof.
  destruct skel3 as [(_ & L2 & L3) K2 K3 K4 K5]. constructor; auto. clear -K5.
  intros i V H. assert (Hi : 0 <= i < 5) by (apply getz_range in H; exact H).
  cases_below 5%nat Hi; cbv [getz U3R nth_error Z.to_nat Pos.to_nat Pos.iter_op Z.leb Z.compare Init.Nat.add] in H; injection H as <-; (split; [intros HH; vm_compute in HH; discriminate HH|]); intros HH;
      (split; [vm_compute; discriminate|]); (split; [reflexivity|]); (split; [reflexivity|]); (split; [unfold fits; cbn; zlia|]);
      intros r c Hr Hc; cbn [dm_nrow dm_ncol dmR] in Hr, Hc; first [cases_below 1%nat Hr | cases_below 2%nat Hr]; cases_below 1%nat Hc; eexists; reflexivity.
Qed.
Lemma inputs3R : @per_inputs Qred_num Rring 6 (fun _ => (1#3)%Q : Qred_num) 1 1 1 3 2 pts3 1 (0%Q : Qred_num) None ALPHA_H2 10 tree3 3 lat3 ts3 (fst arrs3) (snd arrs3)
  U3R J3 Jc3 js3 (iv1 []) (iv1 []) (iv1 []) ord3 ord3 (dm_init 0 0) (dm_init 0 0).
Proof. destruct inputs3. constructor; auto. exact skel3R. Qed.
Definition h3R : h2rep Qred_num Rring := H2Rep 1 3 1 2 5 2 3 2 0 3 (h_t h3) (h_mcl h3) U3R (h_adm h3) (h_inadm h3) (h_nr h3) (h_Bnrow h3) (h_Bncol h3) (h_Bptr h3) [] (h_Dnrow h3) (h_Dncol h3) (h_Dptr h3) []
  (h_Bblk h3) (h_D0blk h3) (h_D1blk h3) (h_fwd h3) (h_bwd h3).
Lemma built3R : exists c, @build_periodic Qred_num Rring kern3R pkern3R 1 1 1 3 2 tree3 3 lat3 (fst arrs3) (snd arrs3) U3R J3 Jc3 (iv1 []) (iv1 []) (iv1 []) ord3 ord3 (dm_init 0 0) (dm_init 0 0) = Some (h3R, c).
Proof. eexists. cbv -[Rplus Rmult Rminus Ropp Rdiv Rinv IZR]. reflexivity. Qed.
Ltac calcR := cbv -[Rplus Rmult Rminus Ropp Rdiv Rinv IZR Rabs Rle]; apply Rabs_le; lra.
Lemma near3R k n0 n1 l p q : getz (of_kind true ts3) k = Some (n0, n1, l) -> inside h3R n0 p = true -> inside h3R n1 q = true ->
  (Rabs (@per_adm Qred_num Rring kern3R h3R pt3 js3 (map fst (of_kind true ts3)) (fun k => sh3 (lattice_of (of_kind true ts3) k)) k p q - @kshift Qred_num Rring kern3R h3R pt3 (sh3 l) p q) <= 1 / 2)%R.
Proof.
  intros G Ip Iq. change (inside h3R) with (inside h3) in Ip, Iq. change (of_kind true ts3) with [(2, 2, 0); (1, 3, 0); (3, 2, 0); (3, 3, 0); (0, 3, 1); (3, 0, 1); (2, 2, 2); (2, 3, 2); (3, 1, 2); (3, 3, 2)] in *.
  destruct (adm3_nodes n0 n1 l (getz_In _ _ _ G)) as (N0 & N1). pose proof (inside3 _ _ N0 Ip) as Hp. pose proof (inside3 _ _ N1 Iq) as Hq.
  getz_split G.
  all: cases_below 3%nat Hp; try discriminate Ip; cases_below 3%nat Hq; try discriminate Iq.
  all: calcR.
Qed.
Lemma far3R p q : 0 <= p < 3 -> 0 <= q < 3 ->
  (Rabs (@per_far Qred_num Rring h3R (@root_block Qred_num Rring kern3R pkern3R 1 3 (fun k => pt3 (nthz (js3 4) k)) sh3) p q - @rest Qred_num Rring kern3R h3R pt3 pkern3R 3 sh3 p q) <= 1)%R.
Proof. intros Hp Hq. cases_below 3%nat Hp; cases_below 3%nat Hq; calcR. Qed.
Example C44_example : exists c z' y', @build_periodic Qred_num Rring kern3R pkern3R 1 1 1 3 2 tree3 3 lat3 (fst arrs3) (snd arrs3) U3R J3 Jc3 (iv1 []) (iv1 []) (iv1 []) ord3 ord3 (dm_init 0 0) (dm_init 0 0) = Some (h3R, c) /\
  @matmul_periodic Qred_num Rring kern3R h3R c 2 true (fun _ => msched3) 1 (MvSt None None [] [dm_init 0 0; dm_init 0 0] [] [] [], [dm_init 0 0; dm_init 0 0]) [Some 1; Some 2; Some 3]%R 3 (alloc 3) 3 = Some (z', y') /\
  forall i, 0 <= i < 3 -> exists w, ld y' i = Some w /\
    (Rabs (w - Rsum 0 3 (fun j => @kernel_matrix Qred_num Rring pkern3R 1 (coords_of 1 3 pts3) i j * IZR (j + 1))) <= (3 * (1 / 2) + 1) * 6)%R.
Proof.
  destruct built3R as (c & E). exists c.
  destruct (C44_periodic_product_error Qred_num kern3R pkern3R _ _ _ _ _ _ _ _ _ _ _ _ _ _ _ _ _ _ _ _ _ _ _ _ _ _ _ _ _ _ h3R c 1 (1 / 2)%R 1%R inputs3R E unshifted3 ltac:(lra) ltac:(lra) near3R far3R
    (MvSt None None [] [dm_init 0 0; dm_init 0 0] [] [] [], [dm_init 0 0; dm_init 0 0]) 2 true (fun _ => msched3) 1 [Some 1; Some 2; Some 3]%R 3 (alloc 3) 3 (fun j _ => IZR (j + 1))) as (z' & y' & E2 & G).
  - apply per_fresh; try reflexivity; repeat constructor.
  - lia.
  - lia.
  - intros _. destruct msched3_ok. constructor; assumption.
  - intros j v Hj Hv. assert (v = 0) by lia. subst v. cases_below 3%nat Hj; reflexivity.
  - unfold mat_fits. rewrite zlen_alloc; lia.
  - exists z', y'. split; [exact E|]. split; [exact E2|]. intros i Hi. destruct (G i 0 Hi ltac:(lia)) as (w & Ew & B). exists w. split; [exact Ew|].
    change (1 * 3) with 3 in B. replace (Rsum 0 3 (fun j => Rabs (IZR (j + 1)))) with 6%R in B; [exact B|].
    unfold Rsum. change (zrange 0 3) with [0; 1; 2]. cbn [map fold_right]. change (0 + 1)%Z with 1%Z. change (1 + 1)%Z with 2%Z. change (2 + 1)%Z with 3%Z. rewrite !Rabs_pos_eq by lra. lra.
Qed.

(** C45: two points in the plane. *)
Definition pts2d : mem Qred_num := map Some ([0; 1; 0; 1#2])%Q.
Definition tree2d : tree_result Qred_num :=
  Eval vm_compute in match build_tree 6 (fun _ => (1#3)%Q : Qred_num) 2 2 2 pts2d 1 (0%Q : Qred_num) None with
                     | Some (Some t) => t
                     | _ => TRes [] [] 0 0 0 (TArr [] [] [] [] [] [] [] [] [] [] []) end.
Example C45_example : one_unshifted 2 (snd (@run_RPY_Ewald Qred_num 2)) tree2d 9 4.
Proof.
  destruct (C45_standard_lattices_qualify 6 (fun _ => (1#3)%Q) 2 2 2 pts2d 1 (0%Q : Qred_num) None tree2d ALPHA_H2 10 [] 9 (snd (@run_RPY_Ewald Qred_num 2)) (or_introl eq_refl) eq_refl) as (_ & _ & _ & G).
  apply G.
  - split; [lia|]. split; [lia|]. split; [|exact I]. split; [reflexivity|]. intros k Hk. cases_below 4%nat Hk; eexists; reflexivity.
  - vm_compute. reflexivity.
  - intros j Hj. cases_below 2%nat Hj; eexists; (split; [vm_compute; reflexivity|vm_compute; reflexivity]).
Qed.
