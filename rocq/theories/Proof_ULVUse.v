(** The ULV factorisation on what H2P_build returns in HSS mode. *)
From Coq Require Import ZArith List Lia Bool Permutation.
From Verif Require Import Base Mem Num CRing Conc Model_Utils Spec_Utils Proof_Utils Model_Dense Spec_Dense Proof_Dense Proof_Dense2 Model_Partition Spec_Tree Spec_Partition Model_CSR Model_Pairs Spec_Pairs Model_Matvec Spec_Matvec
  Model_Build Spec_Build Proof_Build Proof_BuildFill Proof_BuildTop Proof_Gemv Proof_MvTree Proof_MvFwd Proof_MvMid Proof_MvBwd Proof_MvTop Proof_MvCor Proof_BuildUse Model_Matmul Proof_Gemm Proof_MmFwd Proof_MmMid Proof_MmBwd Proof_MmTop Proof_MmFam Proof_MmUse Spec_Lapack Spec_ULV.
Import ListNotations.
Open Scope Z_scope.

Section Inputs.
Context {F : num} {K : cring}.
Variables (kern : list F -> list F -> Z -> Z -> K) (fuel : nat) (rnd : Z -> F) (pt_dim xpt_dim kdim n_point n_thread : Z) (coord0 : mem F) (mlp : Z) (mls : F) (rbox : option (mem F))
  (alpha : F) (depth : nat) (t : tree_result F) (ps : pairs) (U : list (dmat K)) (J : list int_vec) (Jc : list (dmat F)) (js : Z -> list Z) (blkB blkD0 blkD1 : int_vec) (sc : build_sched).
Hypothesis BI : build_inputs fuel rnd pt_dim xpt_dim kdim n_point n_thread coord0 mlp mls rbox alpha depth t ps U J Jc js blkB blkD0 blkD1 sc.
Variables (h : h2rep F K) (bm dm : bmeta).
Hypothesis EB : h2_build kern pt_dim xpt_dim kdim n_point n_thread t ps U J Jc blkB blkD0 blkD1 sc = Some (h, bm, dm).
Notation ctx := (ctx_of pt_dim xpt_dim kdim n_point t Jc).


Lemma build_gets_ok regenB regenD : gets_ok h (get_Bij kern ctx bm (h_Bdata h) regenB) (get_Dij kern ctx dm (h_Ddata h) regenD).
Proof.
  destruct (build_rows kern _ _ _ _ _ _ _ _ _ _ _ _ _ _ _ _ _ _ _ _ _ _ _ BI _ _ _ EB) as (R & _).
  destruct (build_all kern _ _ _ _ _ _ _ _ _ _ _ _ _ _ _ _ _ _ _ _ _ _ _ BI) as (h' & bm' & dm' & E & _ & _ & _ & _ & _ & _ & _ & _ & GB & _ & GD & GL & _).
  assert (X : (h', bm', dm') = (h, bm, dm)) by congruence. injection X as -> -> ->.
  assert (V : forall (o : dmat K) tr nr nc f, block_view o tr nr nc f -> 0 <= nr -> 0 <= nc -> 0 <= dm_nrow o /\ 0 <= dm_ncol o) by (intros o tr nr nc f (-> & -> & _) ? ?; auto).
  split.
  - intros q n0 n1 o G Ho. destruct (Bdims h R _ _ _ G) as (_ & _ & _ & _ & _ & P1 & P2). destruct (GB _ _ _ regenB o G Ho) as ((o1 & G1 & V1) & _).
    exists o1. split; [exact G1|]. split; [|exact V1]. eapply (get_block_ok (eval_B kern ctx)); [apply eval_B_zlen|exact Ho|exact G1|apply (V _ _ _ _ _ V1); lia|apply (V _ _ _ _ _ V1); lia].
  - intros k o Hk Ho. destruct (leaf_at h R _ Hk) as (_ & Rl). destruct (cluster_range h R _ Rl) as (_ & C & _). destruct (GL _ regenD o Hk Ho) as (o1 & G1 & V1).
    exists o1. split; [exact G1|]. split; [|exact V1]. eapply (get_block_ok (eval_D kern ctx)); [apply eval_D_zlen|exact Ho|exact G1|apply (V _ _ _ _ _ V1); lia|apply (V _ _ _ _ _ V1); lia].
Qed.
(** The diagonal blocks are kernel blocks: symmetric when the kernel is. *)
Lemma build_diag_sym : (forall p q a b, kern p q a b = kern q p b a) -> diag_sym h.
Proof.
  intros Hsym. destruct (build_rows kern _ _ _ _ _ _ _ _ _ _ _ _ _ _ _ _ _ _ _ _ _ _ _ BI _ _ _ EB) as (R & _).
  destruct (build_all kern _ _ _ _ _ _ _ _ _ _ _ _ _ _ _ _ _ _ _ _ _ _ _ BI) as (h' & bm' & dm' & E & _ & _ & BK & _).
  assert (X : (h', bm', dm') = (h, bm, dm)) by congruence. injection X as -> -> ->.
  destruct BK as (BD & _). intros k r c Hk Hr Hc. rewrite !BD by auto. unfold KMp, kernel_matrix. apply Hsym.
Qed.
Lemma build_Suser shift : (forall p q a b, kern p q a b = kern q p b a) -> interpolates h js (kernel_matrix kern kdim (coords_of xpt_dim n_point coord0)) ->
  h_kms h = kdim * n_point /\ forall i j, 0 <= i < h_kms h -> 0 <= j < h_kms h ->
    Suser h shift i j = cadd (kernel_matrix kern kdim (coords_of xpt_dim n_point coord0) i j) (cmul shift (delta i j)).
Proof.
  intros Sym HI. destruct (build_all kern _ _ _ _ _ _ _ _ _ _ _ _ _ _ _ _ _ _ _ _ _ _ _ BI) as (h' & bm' & dm' & E' & R & C & BK & (E1 & E2 & E3 & E4 & E5 & E6 & E7 & E8 & E9 & E10) & _ & _ & _ & Own & _).
  assert (X : (h', bm', dm') = (h, bm, dm)) by congruence. injection X as -> -> ->. split; [exact E5|]. intros i j Hi Hj.
  destruct (ro_pmt _ R) as (_ & _ & Hpm). destruct (Hpm i Hi) as (_ & Bi & _ & Fi). destruct (Hpm j Hj) as (_ & Bj & _ & Fj).
  set (KM := kernel_matrix kern kdim (coords_of xpt_dim n_point coord0)) in *.
  assert (Ksym : forall i j, KM i j = KM j i) by (intros; unfold KM, kernel_matrix; apply Sym).
  unfold Suser, Smat. rewrite (exact_Hmat h R KM); auto; [|apply (interpolation_exact h R js KM); auto].
  unfold KMp. rewrite Fi, Fj. do 2 f_equal. unfold delta. destruct (Z.eqb_spec i j) as [->|Hne]; [now rewrite Z.eqb_refl|].
  destruct (Z.eqb_spec (nthz (h_bwd h) i) (nthz (h_bwd h) j)) as [Eq|]; auto. exfalso. apply Hne. rewrite <- Fi, <- Fj. now f_equal.
Qed.
End Inputs.
