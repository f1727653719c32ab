(** Block Jacobi of a representation that was built from the user's points. *)
From Coq Require Import ZArith QArith Reals List Lia Lra Bool Permutation.
From Verif Require Import Base Mem Num CRing FNum Model_Utils Spec_Utils Spec_Matvec Spec_Dense Model_Dense Model_Partition Spec_Partition Spec_Tree Model_Pairs Model_Matvec Model_Build Spec_Build Spec_Lapack Spec_SPD Blk Model_ULV Model_FSAI Model_BJ Spec_BJ Spec_FSAI Proof_Utils Props_Partition Proof_Build Proof_BuildFill Proof_BuildTop Proof_ULVMath Proof_AFNTop Proof_BJLeaf Proof_BJTop Proof_BJReal.
Import ListNotations.
Open Scope Z_scope.

Section Use.
Context {F : num} {K : cring}.
Variable kern : list F -> list F -> Z -> Z -> K.
Variables (fuel : nat) (rnd : Z -> F).
Variables (pt_dim xpt_dim kdim n_point n_thread : Z) (coord0 : mem F) (mlp : Z) (mls : F) (root : option (mem F)).
Variables (t : tree_result F) (ps : pairs) (U : list (dmat K)) (J : list int_vec) (Jc : list (dmat F)) (blkB blkD0 blkD1 : int_vec) (sc : build_sched) (h : h2rep F K) (bm dm : bmeta).
Hypothesis Hk : 1 <= kdim.
Hypothesis Hok : points_ok pt_dim xpt_dim n_point coord0 root.
Hypothesis Ht : build_tree fuel rnd pt_dim xpt_dim n_point coord0 mlp mls root = Some (Some t).
Hypothesis HB : h2_build kern pt_dim xpt_dim kdim n_point n_thread t ps U J Jc blkB blkD0 blkD1 sc = Some (h, bm, dm).

Lemma bj_ctx : exists perm, (1 <= pt_dim /\ 1 <= kdim /\ 1 <= n_point) /\
  cluster_tree pt_dim n_point (r_n_node t) (r_max_level t) (r_n_leaf t) (r_arrays t) /\ reordered xpt_dim n_point coord0 (r_coord t) (r_idx t) /\
  (forall d q, (0 <= d < xpt_dim)%Z -> (0 <= q < n_point)%Z -> exists v, ld coord0 (d * n_point + q) = Some v) /\
  Permutation perm (zrange 0 n_point) /\ (forall i, (0 <= i < n_point)%Z -> ld (r_idx t) i = getz perm i) /\
  (h_t h = r_arrays t /\ h_kdim h = kdim /\ h_npoint h = n_point /\ h_nleaf h = r_n_leaf t /\ h_kms h = kdim * n_point) /\
  (forall k, (0 <= k < r_n_leaf t)%Z -> ld (h_Dnrow h) k = Some (Dk kdim t k)) /\
  zlen (h_fwd h) = kdim * n_point /\ zlen (h_bwd h) = kdim * n_point /\
  (forall p, (0 <= p < kdim * n_point)%Z -> nthz (h_fwd h) p = (nthz perm (p / kdim) * kdim + p mod kdim)%Z) /\
  (forall p, (0 <= p < kdim * n_point)%Z -> (0 <= nthz (h_fwd h) p < kdim * n_point /\ 0 <= nthz (h_bwd h) p < kdim * n_point /\ nthz (h_bwd h) (nthz (h_fwd h) p) = p /\ nthz (h_fwd h) (nthz (h_bwd h) p) = p)%Z).
Proof.
  pose proof (C14_cluster_tree _ _ _ _ _ _ _ _ _ _ _ Hok Ht) as CT. destruct (C13_partition_permutes_points _ fuel rnd _ _ _ _ mlp mls _ Hok) as (r0 & E0 & RE0). rewrite Ht in E0. injection E0 as <-. pose proof (RE0 t eq_refl) as RE. clear RE0.
  destruct Hok as (P1 & P2 & P3 & _). assert (Hd : 1 <= pt_dim /\ 1 <= kdim /\ 1 <= n_point) by lia. pose proof RE as [(perm & Hp & Hi) _].
  pose proof HB as HQ. unfold h2_build in HQ. cbv zeta in HQ. inv_bind HQ mcl G0. inv_bind HQ x1 G1. destruct x1 as [[bm0 nr] bB]. cbv beta iota in HQ. inv_bind HQ Bd G2. inv_bind HQ x3 G3. destruct x3 as [[dm0 bD0] bD1]. cbv beta iota in HQ. inv_bind HQ Dd G4. inv_bind HQ x5 G5. destruct x5 as [fw bw]. cbv beta iota in HQ. inv_bind HQ fwl G6. inv_bind HQ bwl G7. injection HQ as <- _ _.
  cbn [h_t h_kdim h_npoint h_nleaf h_kms h_Dnrow h_fwd h_bwd].
  destruct (pmt_indices_spec n_point kdim (r_idx t) perm Hk ltac:(lia) Hp Hi) as (fw' & bw' & fl & bl & F1 & F2 & F3 & F4 & F5 & F6 & F7).
  rewrite F1 in G5. injection G5 as <- <-. rewrite F2 in G6. injection G6 as <-. rewrite F3 in G7. injection G7 as <-. rewrite (Z.mul_comm n_point) in *.
  exists perm. repeat match goal with |- _ /\ _ => split end; auto; try lia.
  - intros d q H1 H2. apply P3. nia.
  - intros k Hkk. assert (ML : 0 <= r_max_level t) by (eapply maxlv with (kdim := kdim); eauto). destruct (leaf_seq pt_dim n_point t ltac:(lia) ML CT) as (_ & L & _).
    destruct (leaf_data pt_dim n_point t ltac:(lia) ML CT k Hkk) as (lv & (D1 & D2 & _) & _). rewrite Z.add_0_r in D1. rewrite (Z.mul_comm (lf t k) 2) in D1, D2.
    rewrite (D_nrow_leaf _ _ _ _ _ _ _ _ _ _ _ _ _ _ _ G3 k (lf t k) (cs t (lf t k)) (ce t (lf t k)) Hkk); auto. apply L; auto.
Qed.
End Use.
