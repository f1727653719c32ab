(** C21: H2P_matvec with BD_JIT == 1. *)
From Coq Require Import ZArith QArith List Lia Bool Permutation.
From Verif Require Import Base Mem Num CRing Conc Model_Utils Spec_Utils Proof_Utils Model_Dense Spec_Dense Model_Partition Spec_Tree Spec_Partition Model_Pairs Spec_Pairs Model_Matvec Spec_Matvec
  Model_Build Spec_Build Proof_Build Proof_BuildTop Proof_MvTree Proof_MvTop Proof_BuildUse Props_Matvec Model_JIT Spec_JIT Proof_Sched Proof_JitTop Proof_JitMain Proof_JitUse Ex_Matvec Ex_Build Props_Build.
Import ListNotations.
Open Scope Z_scope.

(** On the inputs on which H2P_build with BD_JIT == 0 delivers [h], H2P_build with
    BD_JIT == 1 delivers some [hj], and whatever the schedules of the two
    products, the previous contents of the working buffers, the SIMD length, and
    whether the user gave a bi-matvec or (given room for the blocks) only a kernel
    evaluation, H2P_matvec on [h] and H2P_matvec on [hj] both succeed, return the
    same y (that of the H2 matrix in exact arithmetic), and the second one leaves
    the buffers fit for the next call. *)
Theorem C21_jit_equals_stored_blocks :
  forall (F : num) (K : cring) (kern : list F -> list F -> Z -> Z -> K) fuel rnd pt_dim xpt_dim kdim n_point n_thread coord0 mlp mls rbox alpha depth t ps U J Jc js
    blkB blkD0 blkD1 sc blkB' blkD0' blkD1' ordB' ordD' (h : h2rep F K) bm dm,
  build_inputs fuel rnd pt_dim xpt_dim kdim n_point n_thread coord0 mlp mls rbox alpha depth t ps U J Jc js blkB blkD0 blkD1 sc ->
  h2_build kern pt_dim xpt_dim kdim n_point n_thread t ps U J Jc blkB blkD0 blkD1 sc = Some (h, bm, dm) ->
  (exists l, iv_holds blkB' l) -> (exists l, iv_holds blkD0' l) -> (exists l, iv_holds blkD1' l) ->
  Permutation ordB' (zrange 0 (r_n_node t)) -> Permutation ordD' (zrange 0 (r_n_node t)) ->
  exists hj bmj dmj,
    h2_build_jit pt_dim xpt_dim kdim n_point n_thread t ps U J Jc blkB' blkD0' blkD1' ordB' ordD' = Some (hj, bmj, dmj) /\
    forall simd esz bimv msc mjs s sx x y yj (xf : Z -> K),
      1 <= simd -> 1 <= esz -> (bimv = false -> rows_fit_buffer hj esz) ->
      schedule_ok h msc -> state_ok h s -> jschedule_ok hj mjs -> jit_state_ok hj sx ->
      (forall j, 0 <= j < kdim * n_point -> ld x j = Some (xf j)) -> kdim * n_point <= zlen y -> kdim * n_point <= zlen yj ->
      exists s' y' sj' xT' yj',
        matvec h msc s x y = Some (s', y') /\
        matvec_jit kern simd esz hj (JCtx xpt_dim (r_coord t) Jc bimv) mjs sx x yj = Some (sj', xT', yj') /\
        jit_state_ok hj (sj', xT') /\
        (forall i, 0 <= i < kdim * n_point -> exists v, ld y' i = Some v /\ ld yj' i = Some v /\
           v = rsum 0 (kdim * n_point) (fun j => cmul (Hmat h (nthz (h_bwd h) i) (nthz (h_bwd h) j)) (xf j))) /\
        zlen yj' = zlen yj /\ forall i, kdim * n_point <= i -> getz yj' i = getz yj i.
Proof.
  intros F K kern fuel rnd pt_dim xpt_dim kdim n_point n_thread coord0 mlp mls rbox alpha depth t ps U J Jc js blkB blkD0 blkD1 sc blkB' blkD0' blkD1' ordB' ordD' h bm dm BI EB H1 H2 H3 H4 H5.
  destruct (build_jit_spec kern fuel rnd pt_dim xpt_dim kdim n_point n_thread coord0 mlp mls rbox alpha depth t ps U J Jc js blkB blkD0 blkD1 sc BI h bm dm EB blkB' blkD0' blkD1' ordB' ordD' (conj H1 (conj H2 H3)) (conj H4 H5))
    as (bmj & dmj & vB & v0 & v1 & EJ & R & RJ).
  exists (no_data (with_threads h n_thread vB v0 v1)), bmj, dmj. split; [exact EJ|].
  intros simd esz bimv msc mjs s [sj xT] x y yj xf Hs He Hf Hsc Hst Hjs Hjst Hx Hy Hyj.
  assert (Ek : h_kms h = kdim * n_point).
  { destruct (build_all kern _ _ _ _ _ _ _ _ _ _ _ _ _ _ _ _ _ _ _ _ _ _ _ BI) as (h' & bm' & dm' & E & _ & _ & _ & (_ & _ & _ & _ & Ek & _) & _). assert (X : (h', bm', dm') = (h, bm, dm)) by congruence. injection X as -> -> ->. exact Ek. }
  assert (Hxd : 0 <= xpt_dim) by (destruct (bi_points _ _ _ _ _ _ _ _ _ _ _ _ _ _ _ _ _ _ _ _ _ _ _ BI); lia).
  destruct (build_jit_data kern fuel rnd pt_dim xpt_dim kdim n_point n_thread coord0 mlp mls rbox alpha depth t ps U J Jc js blkB blkD0 blkD1 sc BI h bm dm EB simd esz bimv vB v0 v1 Hxd Hs He Hf) as (CP & SP & JD).
  rewrite <- Ek in *.
  destruct (matvec_spec h R msc s x y xf Hsc Hst Hx Hy) as (s' & y' & E & _ & _ & V & _).
  destruct (matvec_jit_spec kern simd esz _ (ctxJ xpt_dim t Jc bimv) RJ CP SP JD mjs sj xT x yj xf) as (sj' & xT' & yj' & E' & St & Zy & V' & O'); auto.
  { apply jschedule_no_data. exact Hjs. }
  { apply jstate_no_data. exact Hjst. }
  exists s', y', sj', xT', yj'. split; [exact E|]. split; [rewrite matvec_jit_no_data; exact E'|]. split; [apply jstate_no_data in St; exact St|]. split; [|split; [exact Zy|exact O']].
  intros i Hi. eexists. split; [apply V; auto|]. split; [|reflexivity]. rewrite (V' i Hi). f_equal. apply rsum_ext. intros j Hj. now rewrite Hmat_threads.
Qed.
Print Assumptions C21_jit_equals_stored_blocks.

(** There are such schedules and states, whatever the representation. *)
Lemma dyn_assignment_exists nth nblk : 1 <= nth -> exists a, dyn_assignment nth nblk a.
Proof.
  intros H. exists (zrange 0 nblk :: map (fun _ => []) (zrange 1 nth)). split.
  - unfold zlen. cbn [length]. rewrite map_length. pose proof (zlen_zrange 1 nth H) as Q. unfold zlen in Q. lia.
  - cbn [concat]. rewrite concat_nils; [now rewrite app_nil_r|]. apply Forall_forall. intros l Hl. apply in_map_iff in Hl as (i & <- & _). reflexivity.
Qed.
Lemma jschedule_exists {F : num} {K : cring} (h : h2rep F K) : 1 <= h_nthread h -> exists js, jschedule_ok h js.
Proof.
  intros Ht. destruct (schedule_exists h Ht) as (sc & S).
  destruct (dyn_assignment_exists (h_nthread h) (iv_len (h_Bblk h) - 1) Ht) as (aB & HB).
  destruct (dyn_assignment_exists (h_nthread h) (iv_len (h_D0blk h) - 1) Ht) as (a0 & H0).
  destruct (dyn_assignment_exists (h_nthread h) (iv_len (h_D1blk h) - 1) Ht) as (a1 & H1).
  eexists {| jc_sc := {| sc_fwd := sc_fwd sc; sc_team := sc_team sc; sc_mid := _; sc_sum := sc_sum sc; sc_bwd := sc_bwd sc; sc_den := _; sc_red := sc_red sc |};
             jc_t0 := map (fun i => (0, i)) (zrange 0 (h_nnode h)); jc_t1 := map (fun i => (0, i)) (zrange 0 (h_nnode h)); jc_ordx := @concat _; jc_ordy := @concat _ |}.
  constructor; cbn [jc_sc jc_t0 jc_t1 jc_ordx jc_ordy sc_fwd sc_team sc_mid sc_sum sc_bwd sc_den sc_red].
  - apply (so_fwd _ _ S).
  - apply (so_team _ _ S).
  - exists aB. split; [exact HB|apply inter_concat].
  - apply (so_sum _ _ S).
  - apply (so_bwd _ _ S).
  - exists a0, a1. split; [exact H0|]. split; [exact H1|apply inter_concat].
  - apply (so_red _ _ S).
  - apply omp_for_exists. lia.
  - apply omp_for_exists. lia.
  - intros. apply inter_concat.
  - intros. apply inter_concat.
Qed.

(** ** An example: krnl_dim 2, two threads, both ways of applying a block *)
Definition builtj5 : h2rep Qred_num Zring * bmeta * bmeta := Eval vm_compute in
  match h2_build_jit 1 1 2 5 2 tree5b ps5 U5 J5 Jc5 (iv1 []) (iv1 []) (iv1 []) (zrange 0 9) (zrange 0 9) with Some r => r | None => (h5, snd (fst built5), snd built5) end.
Definition hj5 : h2rep Qred_num Zring := Eval cbv [builtj5 fst] in fst (fst builtj5).
Lemma builtj5_eq : h2_build_jit 1 1 2 5 2 tree5b ps5 U5 J5 Jc5 (iv1 []) (iv1 []) (iv1 []) (zrange 0 9) (zrange 0 9) = Some builtj5.
Proof. vm_compute. reflexivity. Qed.
Lemma fresh5j_ok : jit_state_ok hj5 (fresh5b, alloc 10).
Proof.
  split; [|split].
  - constructor; cbn; try (vm_compute; discriminate); auto; split; auto; repeat constructor.
  - discriminate.
  - vm_compute. discriminate.
Qed.
Example C21_example : forall bimv mjs, jschedule_ok hj5 mjs -> let x := map Some [1; 2; 3; 4; 5; 6; 7; 8; 9; 10] : mem Zring in
  exists s' y' sj' xT' yj', matvec h5 sched5b fresh5b x (alloc 10) = Some (s', y') /\
    matvec_jit kern5 4 8 hj5 (JCtx 1 (r_coord tree5b) Jc5 bimv) mjs (fresh5b, alloc 10) x (alloc 10) = Some (sj', xT', yj') /\
    forall i, 0 <= i < 10 -> exists v, ld y' i = Some v /\ ld yj' i = Some v.
Proof.
  intros bimv mjs Hjs x.
  assert (I0 : exists l, iv_holds (iv1 []) l) by (exists []; apply iv1_holds).
  destruct (C21_jit_equals_stored_blocks _ _ kern5 _ _ _ _ _ _ _ _ _ _ _ _ _ _ _ _ _ _ _ _ _ _ _ (iv1 []) (iv1 []) (iv1 []) (zrange 0 9) (zrange 0 9) _ _ _ inputs5 built5_eq I0 I0 I0 (Permutation_refl _) (Permutation_refl _))
    as (hj & bmj & dmj & E & H).
  rewrite builtj5_eq in E. injection E as <- <- <-.
  assert (F8 : bimv = false -> rows_fit_buffer hj5 8).
  { intros _. split; intros k Hk.
    - change (0 <= k < 5) in Hk. cases_below 5%nat Hk; vm_compute; discriminate.
    - change (0 <= k < 9) in Hk. cases_below 9%nat Hk; vm_compute; discriminate. }
  assert (X : forall j, 0 <= j < 2 * 5 -> ld x j = Some (j + 1)) by (intros j Hj; change (0 <= j < 10) in Hj; cases_below 10%nat Hj; reflexivity).
  destruct (H 4 8 bimv sched5b mjs fresh5b (fresh5b, alloc 10) x (alloc 10) (alloc 10) (fun j => j + 1) ltac:(lia) ltac:(lia) F8 sched5b_ok fresh5b_ok Hjs fresh5j_ok X ltac:(vm_compute; discriminate) ltac:(vm_compute; discriminate))
    as (s' & y' & sj' & xT' & yj' & E1 & E2 & _ & V & _).
  exists s', y', sj', xT', yj'. split; [exact E1|]. split; [exact E2|]. intros i Hi. destruct (V i Hi) as (v & A & B & _). eauto.
Qed.
Example C21_example_schedule : exists mjs, jschedule_ok hj5 mjs.
Proof. apply jschedule_exists. vm_compute. discriminate. Qed.

(** ** Where it fails *)

(** C21 without the assumption on the buffer is false: if one point's rows of a
    block need more than 128 KB (more than 16384 columns of doubles with krnl_dim
    1), the number of points per step is 0 and the loop over the block never
    ends. *)
Theorem C21_wide_block_refuted : forall (F : num) (K : cring) (kern : list F -> list F -> Z -> Z -> K) St dim kdim esz cs0 o0 ld0 n0 cs1 o1 ld1 n1 in0 in1
    (add0 add1 : Z -> K -> mem K * St -> option (mem K * St)) x,
  1 <= kdim -> 1 <= n0 -> 1 <= n1 -> 1 <= esz -> 131072 < esz * (n1 * kdim) * kdim ->
  exists blk, jit_blk esz kdim (n1 * kdim) = Some blk /\
    forall steps, eval_bimv_loop kern dim kdim cs0 o0 ld0 n0 cs1 o1 ld1 n1 in0 in1 add0 add1 blk steps 0 x = None.
Proof.
  intros F K kern St dim kdim esz cs0 o0 ld0 n0 cs1 o1 ld1 n1 in0 in1 add0 add1 x Hk Hn0 Hn1 He Hw. exists 0. split.
  - unfold jit_blk. destruct (Z.eqb_spec (n1 * kdim) 0); [nia|]. f_equal. rewrite Z.div_div by nia. apply Z.div_small. nia.
  - intros steps. revert x. induction steps as [|n IH]; intros x; cbn [eval_bimv_loop]; (destruct (Z.ltb_spec 0 n0); [|lia]); [reflexivity|].
    destruct (krnl_eval _ _ _ _ _ _ _ _ _ _ _ _ _ _) as [m|]; [|reflexivity]. cbn [bind]. destruct (bi_gemv_g _ _ _ _ _ _ _ _ _) as [x'|]; [|reflexivity]. cbn [bind]. apply IH.
Qed.
Print Assumptions C21_wide_block_refuted.

(** C21 for a pair one of whose nodes has rank 0 (its skeleton is empty) is false
    too, with or without a bi-matvec: the code divides by the number of columns. *)
Theorem C21_empty_skeleton_refuted : forall (F : num) (K : cring) (kern : list F -> list F -> Z -> Z -> K) simd esz (h : h2rep F K) c x tid k s,
  ld (h_Bncol h) k = Some 0 -> jmid_pair kern simd esz h c x tid k s = None.
Proof.
  intros F K kern simd esz h c x tid k s E. unfold jmid_pair. destruct (getz (h_adm h) k) as [[n0 n1]|]; [|reflexivity]. cbn [bind].
  destruct (ld _ n0); [|reflexivity]. cbn [bind]. destruct (ld _ n1); [|reflexivity]. cbn [bind]. destruct (ld (h_Bnrow h) k); [|reflexivity]. cbn [bind]. rewrite E. reflexivity.
Qed.
Print Assumptions C21_empty_skeleton_refuted.
