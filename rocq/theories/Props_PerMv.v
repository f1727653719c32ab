(** Property C58: the single-vector product of a periodic system
    (H2P_matvec_periodic). *)
From Coq Require Import ZArith QArith List Lia Bool Permutation Reals Lra.
From Verif Require Import Base Mem Num CRing Conc Model_Utils Spec_Utils Proof_Utils Model_Dense Spec_Dense Model_CSR Spec_CSR Model_Partition Spec_Tree Spec_Partition
  Model_Pairs Spec_Pairs Props_Pairs Model_Matvec Spec_Matvec Model_Build Spec_Build Model_Matmul Spec_Matmul FNum Spec_ID Proof_IDMath Proof_Approx
  Model_Periodic Spec_Periodic Model_PerBuild Proof_PerBlock Proof_PerRoot Proof_PerExact Proof_PerUse Proof_PerFinal Model_Lattice Proof_Lattice Model_JIT Model_PerMv Proof_PerMvTop Proof_PerMvUse
  Props_Periodic Ex_Matvec Ex_Build Ex_Periodic.
Import ListNotations.
Open Scope Z_scope.

(** The working memory of a periodic handle after any number of products of either
    kind, in any order: the matvec (whatever the SIMD width, the threads and
    whether the kernel has a vector form) and the product with several columns.
    The last component is xT. *)
Inductive after_periodic_calls {F : num} {K : cring} (kern : list F -> list F -> Z -> Z -> K) (h : h2rep F K) (c : pctx F K) : pst F K * mem K -> Prop :=
| pc_fresh m0 m1 ty px py yT xT : zlen m0 = h_nthread h -> zlen m1 = h_nthread h -> Forall (fun m => m = dm_init 0 0) m0 -> Forall (fun m => m = dm_init 0 0) m1 ->
    zlen px = h_kms h -> zlen py = h_kms h -> zlen yT = h_kms h -> zlen xT = h_kms h ->
    after_periodic_calls kern h c (MvSt None None ty m0 px py yT, m1, xT)
| pc_matvec z simd mv sc x y z' y' : after_periodic_calls kern h c z -> 1 <= simd -> pv_sched_ok h sc ->
    (forall j, 0 <= j < h_kms h -> exists w, ld x j = Some w) -> h_kms h <= zlen y ->
    matvec_periodic kern simd 1 mv h c sc z x y = Some (z', y') -> after_periodic_calls kern h c z'
| pc_matmul z xT mmx col sc n_vec x ldx y ldy z' y' : after_periodic_calls kern h c (z, xT) -> 1 <= mmx -> 0 <= n_vec -> (forall b, mm_sched_ok h (sc b)) ->
    (forall j v, 0 <= j < h_kms h -> 0 <= v < n_vec -> exists w, ld x (mat_cell col ldx j v) = Some w) ->
    mat_fits col (h_kms h) n_vec ldy (zlen y) ->
    matmul_periodic kern h c mmx col sc n_vec z x ldx y ldy = Some (z', y') -> after_periodic_calls kern h c (z', xT).

Lemma after_periodic_calls_ok {F : num} {K : cring} kern (h : h2rep F K) pt js adm inadm sB sD O c z :
  per_rep_ok h adm -> per_ok h pt js adm inadm sB sD O c -> after_periodic_calls kern h c z -> pst_ok h (fst z) /\ vecs_ok h z.
Proof.
  intros R PO A. induction A as [m0 m1 ty px py yT xT Z0 Z1 F0 F1 L1 L2 L3 L4|z simd mv sc x y z' y' A [IH1 IH2] Hs Hsc Hx Hy E|z xT mmx col sc n_vec x ldx y ldy z' y' A [IH1 IH2] Hm Hv Hs Hx Hy E].
  - split; [|unfold vecs_ok; cbn [fst snd s_px s_py s_yT]; repeat (split; [lia|]); lia].
    constructor; cbn [fst snd s_y0 s_y1 s_m0]; try exact I; (split; [assumption|]); (eapply Forall_impl; [|eassumption]); cbv beta; intros m ->; reflexivity.
  - assert (Hx' : forall j, 0 <= j < h_kms h -> ld x j = Some (val c0 (ld x j))) by (intros j Hj; destruct (Hx j Hj) as (w & ->); reflexivity).
    destruct (matvec_per_rep kern simd mv h pt js adm inadm sB sD O c sc z x y _ Hs R PO Hsc IH1 IH2 Hx' Hy) as (z2 & y2 & E2 & Z2 & V2 & _).
    replace z' with z2 by congruence. auto.
  - assert (Hx' : forall j v, 0 <= j < h_kms h -> 0 <= v < n_vec -> ld x (mat_cell col ldx j v) = Some (val c0 (ld x (mat_cell col ldx j v)))) by (intros j v Hj Hv'; destruct (Hx j v Hj Hv') as (w & ->); reflexivity).
    destruct (matmul_per_rep kern h pt js adm inadm sB sD O c mmx col sc n_vec z x ldx y ldy _ R PO Hm Hv Hs IH1 Hx' Hy) as (z2 & y2 & E2 & Z2 & _ & _ & _ & B1 & B2 & B3).
    replace z' with z2 by congruence. split; [exact Z2|]. destruct IH2 as (_ & _ & Q3 & Q4). unfold vecs_ok. cbn [fst snd] in *. rewrite B3. auto.
Qed.

(** For every well-formed periodic handle, previous calls, SIMD width, kernel
    form and thread schedules: the matvec runs without an illegal access, stores in
    the output exactly the operator of [C41] times the input and touches no cell
    past the end of the vector; the handle stays fit for further products. *)
Theorem C58_periodic_matvec_applies_the_operator :
  forall (F : num) (K : cring) (kern : list F -> list F -> Z -> Z -> K) (h : h2rep F K) pt js adm inadm sB sD O c z
    simd mv sc (x y : mem K) (xf : Z -> K),
    per_rep_ok h adm -> per_ok h pt js adm inadm sB sD O c -> after_periodic_calls kern h c z -> 1 <= simd -> pv_sched_ok h sc ->
    (forall j, 0 <= j < h_kms h -> ld x j = Some (xf j)) -> h_kms h <= zlen y ->
    exists z' y', matvec_periodic kern simd 1 mv h c sc z x y = Some (z', y') /\ after_periodic_calls kern h c z' /\ zlen y' = zlen y /\
      (forall i, 0 <= i < h_kms h -> ld y' i =
         Some (rsum 0 (h_kms h) (fun j => cmul (Hper kern h pt js adm inadm sB sD O (nthz (h_bwd h) i) (nthz (h_bwd h) j)) (xf j)))) /\
      forall i, h_kms h <= i -> getz y' i = getz y i.
Proof.
  intros F K kern h pt js adm inadm sB sD O c z simd mv sc x y xf R PO A Hs Hsc Hx Hy.
  destruct (after_periodic_calls_ok _ _ _ _ _ _ _ _ _ _ _ R PO A) as (I1 & I2).
  destruct (matvec_per_rep kern simd mv h pt js adm inadm sB sD O c sc z x y xf Hs R PO Hsc I1 I2 Hx Hy) as (z' & y' & E & _ & _ & Z' & V' & G').
  exists z', y'. split; [exact E|]. split; [|auto]. eapply pc_matvec; eauto.
Qed.
Print Assumptions C58_periodic_matvec_applies_the_operator.

(** The matvec and the product with several columns agree: whatever happened
    before on either handle state, column v of the product equals the matvec of
    column v of the input. *)
Theorem C58_matvec_agrees_with_matmul :
  forall (F : num) (K : cring) (kern : list F -> list F -> Z -> Z -> K) (h : h2rep F K) pt js adm inadm sB sD O c z1 z2
    simd mv sc (x y : mem K) mmx col_major scm n_vec (xm : mem K) ldx (ym : mem K) ldy (xf : Z -> Z -> K) v,
    per_rep_ok h adm -> per_ok h pt js adm inadm sB sD O c -> after_periodic_calls kern h c z1 -> after_periodic_calls kern h c z2 ->
    1 <= simd -> pv_sched_ok h sc -> 1 <= mmx -> (forall b, mm_sched_ok h (scm b)) -> 0 <= v < n_vec ->
    (forall j w, 0 <= j < h_kms h -> 0 <= w < n_vec -> ld xm (mat_cell col_major ldx j w) = Some (xf j w)) -> mat_fits col_major (h_kms h) n_vec ldy (zlen ym) ->
    (forall j, 0 <= j < h_kms h -> ld x j = Some (xf j v)) -> h_kms h <= zlen y ->
    exists z1' y' z2' ym', matvec_periodic kern simd 1 mv h c sc z1 x y = Some (z1', y') /\ matmul_periodic kern h c mmx col_major scm n_vec (fst z2) xm ldx ym ldy = Some (z2', ym') /\
      forall i, 0 <= i < h_kms h -> exists w, ld y' i = Some w /\ ld ym' (mat_cell col_major ldy i v) = Some w.
Proof.
  intros F K kern h pt js adm inadm sB sD O c z1 z2 simd mv sc x y mmx col scm n_vec xm ldx ym ldy xf v R PO A1 A2 Hs Hsc Hm Hscm Hv Hxm Hym Hx Hy.
  destruct (C58_periodic_matvec_applies_the_operator F K kern h pt js adm inadm sB sD O c z1 simd mv sc x y (fun j => xf j v) R PO A1 Hs Hsc Hx Hy) as (z1' & y' & E1 & _ & _ & V1 & _).
  destruct (after_periodic_calls_ok _ _ _ _ _ _ _ _ _ _ _ R PO A2) as (I2 & _).
  destruct (matmul_per_rep kern h pt js adm inadm sB sD O c mmx col scm n_vec (fst z2) xm ldx ym ldy xf R PO Hm ltac:(lia) Hscm I2 Hxm Hym) as (z2' & ym' & E2 & _ & _ & V2 & _).
  exists z1', y', z2', ym'. split; [exact E1|]. split; [exact E2|]. intros i Hi. eexists. split; [exact (V1 i Hi)|exact (V2 i v Hi Hv)].
Qed.
Print Assumptions C58_matvec_agrees_with_matmul.

(** Without just-in-time blocks the function returns at once, with a message and
    without touching the output. *)
Theorem C58_matvec_needs_jit :
  forall (F : num) (K : cring) (kern : list F -> list F -> Z -> Z -> K) (h : h2rep F K) c simd jit mv sc z (x y : mem K),
    jit <> 1 -> matvec_periodic kern simd jit mv h c sc z x y = Some (z, y).
Proof.
  intros. destruct z as [[s ms] xT]. unfold matvec_periodic. rewrite (proj2 (Z.eqb_neq jit 1)) by auto. reflexivity.
Qed.
Print Assumptions C58_matvec_needs_jit.

(** From the user's points and lattices: under the conditions of C43 the matvec is
    the periodic kernel matrix of the user's points, in the user's order, times the
    input. *)
Definition mm_of {K : cring} (sc : pv_sched K) : mm_sched := {| mc_fwd := pc_fwd sc; mc_mid := pc_mid sc; mc_bwd := pc_bwd sc; mc_den := pc_den sc |}.
Lemma mm_of_ok {F : num} {K : cring} (h : h2rep F K) sc : pv_sched_ok h sc -> mm_sched_ok h (mm_of sc).
Proof. intros H. destruct H. constructor; assumption. Qed.
Lemma init_mats {A : Type} n : 0 <= n -> zlen (repeat (dm_init 0 0 : dmat A) (Z.to_nat n)) = n /\ Forall (fun m => m = dm_init 0 0) (repeat (dm_init 0 0 : dmat A) (Z.to_nat n)).
Proof. intros Hn. split; [unfold zlen; rewrite repeat_length; lia|]. apply Forall_forall. intros m Hm. now apply repeat_spec in Hm. Qed.

Theorem C58_periodic_matvec_is_the_periodic_kernel :
  forall (F : num) (K : cring) (kern pkern : list F -> list F -> Z -> Z -> K) fuel rnd pt_dim xpt_dim kdim n_point n_thread (coord0 : mem F)
    max_leaf_points max_leaf_size root_enbox alpha depth t n_lattice lattices ts adm inadm U J Jc js blkB blkD0 blkD1 ordB ordD m0 m1 h c l0,
    per_inputs fuel rnd pt_dim xpt_dim kdim n_point n_thread coord0 max_leaf_points max_leaf_size root_enbox alpha depth t n_lattice lattices ts adm inadm U J Jc js blkB blkD0 blkD1 ordB ordD m0 m1 ->
    build_periodic kern pkern pt_dim xpt_dim kdim n_point n_thread t n_lattice lattices adm inadm U J Jc blkB blkD0 blkD1 ordB ordD m0 m1 = Some (h, c) ->
    let sh := lattice_shift pt_dim lattices t in
    let pt := coords_of xpt_dim n_point (r_coord t) in
    one_unshifted pt_dim lattices t n_lattice l0 ->
    (forall p, In p (js (r_n_node t - 1)) -> undone sh n_lattice (pt p)) ->
    pair_interpolates kern h pt js (of_kind true ts) sh ->
    root_interpolates kern h pt js pkern n_lattice sh ->
    forall z simd mv sc (x y : mem K) (xf : Z -> K),
    after_periodic_calls kern h c z -> 1 <= simd -> pv_sched_ok h sc ->
    (forall j, 0 <= j < kdim * n_point -> ld x j = Some (xf j)) -> kdim * n_point <= zlen y ->
    exists z' y', matvec_periodic kern simd 1 mv h c sc z x y = Some (z', y') /\
      forall i, 0 <= i < kdim * n_point -> ld y' i = Some (rsum 0 (kdim * n_point) (fun j => cmul (kernel_matrix pkern kdim (coords_of xpt_dim n_point coord0) i j) (xf j))).
Proof.
  intros F K kern pkern fuel rnd pt_dim xpt_dim kdim n_point n_thread coord0 mlp mls rbox alpha depth t nl lattices ts adm inadm U J Jc js blkB blkD0 blkD1 ordB ordD m0 m1 h c l0 PI EB sh pt One Und PIn RIn
    z simd mv sc x y xf A Hs Hsc Hx Hy.
  destruct (top_facts _ _ _ _ _ _ _ _ _ _ _ _ _ _ _ _ _ _ _ _ _ _ _ _ _ _ _ _ _ _ _ _ PI h c EB) as (R & PO & Ek & _).
  assert (Hk : 0 <= kdim * n_point) by (destruct PI as [(D1 & D2 & D3 & D4 & D5) Hok _ _ _ _ _ _ _ _ _ _ _ _]; pose proof (proj1 (proj2 Hok)); nia).
  assert (Nt : 0 <= h_nthread h) by (pose proof (pr_dims _ _ R); lia).
  destruct (@init_mats K (h_nthread h) Nt) as (I1 & I2). destruct (@init_mats F (h_nthread h) Nt) as (I3 & I4).
  set (z0 := (MvSt None None [] (repeat (dm_init 0 0) (Z.to_nat (h_nthread h))) [] [] [] : mvst K, repeat (dm_init 0 0) (Z.to_nat (h_nthread h)) : list (dmat F))).
  assert (A0 : after_per_calls kern h c z0) by (apply per_fresh; auto).
  assert (Hx' : forall j v, 0 <= j < kdim * n_point -> 0 <= v < 1 -> ld x (mat_cell true (kdim * n_point) j v) = Some (xf j)).
  { intros j v Hj Hv. replace (mat_cell true (kdim * n_point) j v) with j by (unfold mat_cell; nia). auto. }
  assert (Hy' : mat_fits true (kdim * n_point) 1 (kdim * n_point) (zlen y)) by (unfold mat_fits; lia).
  destruct (C43_periodic_product_is_the_periodic_kernel F K kern pkern _ _ _ _ _ _ _ coord0 _ _ _ _ _ _ _ _ _ _ _ _ _ _ _ _ _ _ _ _ _ _ h c l0 PI EB One Und PIn RIn z0 1 true (fun _ => mm_of sc) 1 x (kdim * n_point) y (kdim * n_point) (fun j _ => xf j)
    A0 ltac:(lia) ltac:(lia) (fun _ => mm_of_ok h sc Hsc) Hx' Hy') as (zm & ym & Em & Vm).
  rewrite <- Ek in *.
  destruct (C41_periodic_product_applies_the_operator F K kern h pt js _ _ _ _ _ c z0 1 true (fun _ => mm_of sc) 1 x (h_kms h) y (h_kms h) (fun j _ => xf j) R PO A0 ltac:(lia) ltac:(lia) (fun _ => mm_of_ok h sc Hsc) Hx' Hy') as (zm' & ym' & Em' & _ & _ & Vm' & _).
  assert (X : (zm', ym') = (zm, ym)) by congruence. injection X as -> ->.
  destruct (C58_periodic_matvec_applies_the_operator F K kern h pt js _ _ _ _ _ c z simd mv sc x y xf R PO A Hs Hsc Hx Hy) as (z' & y' & E & _ & _ & V & _).
  exists z', y'. split; [exact E|]. intros i Hi. rewrite (V i Hi). rewrite <- (Vm i 0 Hi ltac:(lia)). symmetry. apply (Vm' i 0 Hi). lia.
Qed.
Print Assumptions C58_periodic_matvec_is_the_periodic_kernel.

(** Accuracy over the reals, as in C44. *)
Theorem C58_periodic_matvec_error :
  forall (F : num) (kern pkern : list F -> list F -> Z -> Z -> R) fuel rnd pt_dim xpt_dim kdim n_point n_thread (coord0 : mem F)
    max_leaf_points max_leaf_size root_enbox alpha depth t n_lattice lattices ts adm inadm U J Jc js blkB blkD0 blkD1 ordB ordD m0 m1 h c l0 e ef,
    @per_inputs F Rring fuel rnd pt_dim xpt_dim kdim n_point n_thread coord0 max_leaf_points max_leaf_size root_enbox alpha depth t n_lattice lattices ts adm inadm U J Jc js blkB blkD0 blkD1 ordB ordD m0 m1 ->
    @build_periodic F Rring kern pkern pt_dim xpt_dim kdim n_point n_thread t n_lattice lattices adm inadm U J Jc blkB blkD0 blkD1 ordB ordD m0 m1 = Some (h, c) ->
    let sh := lattice_shift pt_dim lattices t in
    let pt := coords_of xpt_dim n_point (r_coord t) in
    let adm_pairs := of_kind true ts in
    one_unshifted pt_dim lattices t n_lattice l0 -> (0 <= e)%R -> (0 <= ef)%R ->
    (forall k n0 n1 l p q, getz adm_pairs k = Some (n0, n1, l) -> inside h n0 p = true -> inside h n1 q = true ->
       (Rabs (@per_adm F Rring kern h pt js (map fst adm_pairs) (fun k => sh (lattice_of adm_pairs k)) k p q - @kshift F Rring kern h pt (sh l) p q) <= e)%R) ->
    (forall p q, 0 <= p < kdim * n_point -> 0 <= q < kdim * n_point ->
       (Rabs (@per_far F Rring h (@root_block F Rring kern pkern kdim n_lattice (fun k => pt (nthz (js (r_n_node t - 1)%Z) k)) sh) p q - @rest F Rring kern h pt pkern n_lattice sh p q) <= ef)%R) ->
    forall z simd mv sc (x y : mem R) (xf : Z -> R),
    @after_periodic_calls F Rring kern h c z -> 1 <= simd -> @pv_sched_ok F Rring h sc ->
    (forall j, 0 <= j < kdim * n_point -> ld x j = Some (xf j)) -> kdim * n_point <= zlen y ->
    exists z' y', @matvec_periodic F Rring kern simd 1 mv h c sc z x y = Some (z', y') /\
      forall i, 0 <= i < kdim * n_point -> exists w, ld y' i = Some w /\
        (Rabs (w - Rsum 0 (kdim * n_point)%Z (fun j => @kernel_matrix F Rring pkern kdim (coords_of xpt_dim n_point coord0) i j * xf j))
           <= (IZR n_lattice * e + ef) * Rsum 0 (kdim * n_point)%Z (fun j => Rabs (xf j)))%R.
Proof.
  intros F kern pkern fuel rnd pt_dim xpt_dim kdim n_point n_thread coord0 mlp mls rbox alpha depth t nl lattices ts adm inadm U J Jc js blkB blkD0 blkD1 ordB ordD m0 m1 h c l0 e ef PI EB sh pt ap One He Hef HA HR
    z simd mv sc x y xf A Hs Hsc Hx Hy.
  destruct (top_facts (K := Rring) _ _ _ _ _ _ _ _ _ _ _ _ _ _ _ _ _ _ _ _ _ _ _ _ _ _ _ _ _ _ _ _ PI h c EB) as (R & PO & Ek & _).
  assert (Hk : 0 <= kdim * n_point) by (destruct PI as [(D1 & D2 & D3 & D4 & D5) Hok _ _ _ _ _ _ _ _ _ _ _ _]; pose proof (proj1 (proj2 Hok)); nia).
  assert (Nt : 0 <= h_nthread h) by (pose proof (pr_dims _ _ R); lia).
  destruct (@init_mats Rring (h_nthread h) Nt) as (I1 & I2). destruct (@init_mats F (h_nthread h) Nt) as (I3 & I4).
  set (z0 := (MvSt None None [] (repeat (dm_init 0 0) (Z.to_nat (h_nthread h))) [] [] [] : mvst Rring, repeat (dm_init 0 0) (Z.to_nat (h_nthread h)) : list (dmat F))).
  assert (A0 : @after_per_calls F Rring kern h c z0) by (apply (@per_fresh F Rring); auto).
  assert (Hx' : forall j v, 0 <= j < kdim * n_point -> 0 <= v < 1 -> ld x (mat_cell true (kdim * n_point) j v) = Some (xf j)).
  { intros j v Hj Hv. replace (mat_cell true (kdim * n_point) j v) with j by (unfold mat_cell; nia). auto. }
  assert (Hy' : mat_fits true (kdim * n_point) 1 (kdim * n_point) (zlen y)) by (unfold mat_fits; lia).
  destruct (C44_periodic_product_error F kern pkern _ _ _ _ _ _ _ coord0 _ _ _ _ _ _ _ _ _ _ _ _ _ _ _ _ _ _ _ _ _ _ h c l0 e ef PI EB One He Hef HA HR z0 1 true (fun _ => mm_of sc) 1 x (kdim * n_point) y (kdim * n_point) (fun j _ => xf j)
    A0 ltac:(lia) ltac:(lia) (fun _ => mm_of_ok (K := Rring) h sc Hsc) Hx' Hy') as (zm & ym & Em & Vm).
  rewrite <- Ek in *.
  destruct (C41_periodic_product_applies_the_operator F Rring kern h pt js _ _ _ _ _ c z0 1 true (fun _ => mm_of sc) 1 x (h_kms h) y (h_kms h) (fun j _ => xf j) R PO A0 ltac:(lia) ltac:(lia) (fun _ => mm_of_ok (K := Rring) h sc Hsc) Hx' Hy') as (zm' & ym' & Em' & _ & _ & Vm' & _).
  assert (X : (zm', ym') = (zm, ym)) by congruence. injection X as -> ->.
  destruct (C58_periodic_matvec_applies_the_operator F Rring kern h pt js _ _ _ _ _ c z simd mv sc x y xf R PO A Hs Hsc Hx Hy) as (z' & y' & E & _ & _ & V & _).
  exists z', y'. split; [exact E|]. intros i Hi. destruct (Vm i 0 Hi ltac:(lia)) as (w & Ew & Bw). exists w. split; [|exact Bw].
  rewrite (V i Hi), <- Ew. symmetry. apply (Vm' i 0 Hi). lia.
Qed.
Print Assumptions C58_periodic_matvec_error.

(** ** Non-vacuity: three points on a line, three lattices, two threads. *)
Definition pvsched3 : pv_sched Zring := {| pc_fwd := lev3; pc_t0 := [(0, 3); (1, 1); (1, 2); (0, 0); (1, 4)]; pc_team := [1; 0]; pc_zero := [(1, 4); (1, 1); (1, 2); (0, 0); (0, 3)];
  pc_mid := [(1, 0); (0, 2); (0, 1); (1, 4); (1, 3)]; pc_t1 := [(0, 3); (1, 1); (1, 2); (0, 0); (1, 4)]; pc_bwd := lev3; pc_den := [(0, 3); (1, 1); (1, 2); (0, 0); (1, 4)];
  pc_ordx := @concat _; pc_ordy := @concat _ |}.
Lemma pvsched3_ok : pv_sched_ok h3 pvsched3.
Proof.
  constructor; try (apply omp_for_check; reflexivity); try (intros ths; apply inter_concat);
    try (intros i n Hi En; cbn [h_minlevel h_maxlevel h3] in Hi; (assert (i = 0 \/ i = 1 \/ i = 2) as [-> | [-> | ->]] by lia); vm_compute in En; injection En as <-; apply omp_for_check; reflexivity).
  cbn. apply perm_swap.
Qed.
Definition freshv3 : pst Qred_num Zring * mem Zring := (MvSt None None [] [dm_init 0 0; dm_init 0 0] (alloc 3) (alloc 3) (alloc 3), [dm_init 0 0; dm_init 0 0], alloc 3).
Lemma freshv3_ok : after_periodic_calls kern3 h3 c3 freshv3.
Proof. apply pc_fresh; try reflexivity; repeat constructor. Qed.
Definition xv3 : mem Zring := map Some [5; 0; -2].

Example C58_example : exists z' y', matvec_periodic kern3 2 1 true h3 c3 pvsched3 freshv3 xv3 (alloc 3) = Some (z', y') /\
  forall i, 0 <= i < 3 -> ld y' i = Some (rsum 0 3 (fun j => @cmul Zring (kernel_matrix pkern3 1 (coords_of 1 3 pts3) i j) (nthz [5; 0; -2] j))).
Proof.
  apply (C58_periodic_matvec_is_the_periodic_kernel _ _ kern3 pkern3 _ _ _ _ _ _ _ _ _ _ _ _ _ _ _ _ _ _ _ _ _ _ _ _ _ _ _ _ _ _ _ _ 1 inputs3 built3_eq unshifted3 undone3 pairs_interp3 root_interp3
    freshv3 2 true pvsched3 xv3 (alloc 3) (fun j => nthz [5; 0; -2] j : Zring)).
  - exact freshv3_ok.
  - lia.
  - exact pvsched3_ok.
  - intros j Hj. cases_below 3%nat Hj; reflexivity.
  - rewrite zlen_alloc; lia.
Qed.
Example C58_computed : match matvec_periodic kern3 2 1 true h3 c3 pvsched3 freshv3 xv3 (alloc 3) with Some (_, y) => y | None => [] end = map Some [35; 35; -35].
Proof. vm_compute. reflexivity. Qed.
