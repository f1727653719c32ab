(** C61, C62: the block Jacobi preconditioner (examples/SPDHSS-H2/block_jacobi_precond.c). *)
From Coq Require Import ZArith QArith Reals List Lia Lra Bool Permutation.
From Verif Require Import Base Mem Num CRing FNum Model_Utils Spec_Utils Spec_Matvec Spec_Dense Model_Dense Model_Partition Spec_Partition Spec_Tree Model_Pairs Model_Matvec Model_Build Spec_Build Spec_Lapack Spec_SPD Blk Model_ULV Model_FSAI Model_BJ Spec_BJ Spec_FSAI
  Proof_Utils Proof_BuildTop Proof_BuildUse Proof_ULVMath Proof_FSAIKnn Proof_AFNTop Proof_BJLeaf Proof_BJTop Proof_BJReal Proof_BJUse Proof_Lapack Proof_NysMath Ex_Matvec Ex_Build Ex_BJ.
Import ListNotations.
Open Scope Z_scope.

(** ** C61: what the preconditioner is *)

(** If the construction returns, its result solves the systems with the diagonal
    blocks of the kernel matrix of the user's points (plus the shift), one block per
    leaf of the tree, whatever the orders in which the blocks are built and used and
    whatever the buffers hold; cells of x beyond the vector are left alone. *)
Theorem C61_block_jacobi_inverts_the_leaf_blocks :
  forall (F : num) (K : cring) (kern : list F -> list F -> Z -> Z -> K) la fuel rnd pt_dim xpt_dim kdim n_point n_thread (coord0 : mem F)
    max_leaf_points max_leaf_size root_enbox t ps U J Jc blkB blkD0 blkD1 sc h bm dm shift ord p,
    let n := kdim * n_point in
    lapack_ok la -> 1 <= kdim -> points_ok pt_dim xpt_dim n_point coord0 root_enbox ->
    build_tree fuel rnd pt_dim xpt_dim n_point coord0 max_leaf_points max_leaf_size root_enbox = Some (Some t) ->
    h2_build kern pt_dim xpt_dim kdim n_point n_thread t ps U J Jc blkB blkD0 blkD1 sc = Some (h, bm, dm) ->
    any_order (r_n_leaf t) ord -> BJ_build kern la h (r_coord t) xpt_dim shift ord = Some p ->
    (forall o, 0 <= o < n_point -> exists k, in_leaf t k o) /\
    exists B M, leaf_diagonal t n_point kdim (kernel_matrix kern kdim (coords_of xpt_dim n_point coord0)) shift B /\ right_inverse n B M /\
    forall ord' (b x pb px : mem K) bf, any_order (r_n_leaf t) ord' ->
      (forall i, 0 <= i < n -> ld b i = Some (bf i)) -> n <= zlen x -> n <= zlen pb -> n <= zlen px ->
      exists x' pb' px' xf, BJ_apply p ord' b x pb px = Some (x', pb', px') /\ zlen x' = zlen x /\ zlen pb' = zlen pb /\ zlen px' = zlen px /\
        (forall i, 0 <= i < n -> ld x' i = Some (xf i) /\ xf i = rsum 0 n (fun j => cmul (M i j) (bf j)) /\ rsum 0 n (fun j => cmul (B i j) (xf j)) = bf i) /\
        (forall c, n <= c -> ld x' c = ld x c).
Proof.
  intros F K kern la fuel rnd pt_dim xpt_dim kdim n_point n_thread coord0 mlp mls root t ps U J Jc blkB blkD0 blkD1 sc h bm dm shift ord p n LA Hk Hok Ht HB Ho E.
  destruct (bj_ctx kern _ _ _ _ _ _ _ _ _ _ _ _ _ _ _ _ _ _ _ _ _ _ _ Hk Hok Ht HB) as (perm & Hd & CT & RE & HC & Hp & Hi & Hh & HD & Zf & Zb & Hf & Hfb).
  destruct (build_result kern la pt_dim xpt_dim kdim n_point coord0 t h shift LA Hd CT RE HC Hh HD ord p Ho E) as (HP & HL & X & HX).
  split. { intros o Hoo. apply (in_leaf_ex pt_dim kdim n_point t h perm Hd CT Hp Hi Hf Hfb o Hoo). }
  pose proof (BU_MU kern pt_dim xpt_dim kdim n_point t h shift Hd CT Hfb p X HX) as HI.
  exists (BU kern xpt_dim kdim n_point t h shift), (MU kdim t h X). split; [|split; [exact HI|]].
  { apply (BU_leaf kern pt_dim xpt_dim kdim n_point coord0 t h shift perm Hd CT RE Hp Hi Hf Hfb). }
  intros ord' b x pb px bf Ho' Hb Zx Zpb Zpx.
  destruct (apply_spec kern pt_dim xpt_dim kdim n_point t h shift Hd CT Zf Zb Hfb p X HP HL HX ord' b x pb px bf Ho' Hb Zx Zpb Zpx) as (x' & pb' & px' & E1 & Z1 & Z2 & Z3 & G & Fr).
  exists x', pb', px', (fun i => rsum 0 n (fun j => cmul (MU kdim t h X i j) (bf j))). do 4 (split; [assumption|]). split; [|exact Fr].
  intros i Hii. split; [apply G; exact Hii|]. split; [reflexivity|].
  rewrite (rsum_assoc n n (BU kern xpt_dim kdim n_point t h shift i) (MU kdim t h X) bf).
  rewrite (rsum_ext 0 n _ (fun j => cmul (delta i j) (bf j))) by (intros j Hj; rewrite HI by auto; reflexivity). apply rsum_delta_l; auto.
Qed.
Print Assumptions C61_block_jacobi_inverts_the_leaf_blocks.

(** Without a shift the construction fails (the program is stopped by an assertion)
    as soon as one leaf holds two points with the same coordinates. *)
Theorem C61_coincident_points_refuted :
  forall (F : num) (K : cring) (kern : list F -> list F -> Z -> Z -> K) la fuel rnd pt_dim xpt_dim kdim n_point n_thread (coord0 : mem F)
    max_leaf_points max_leaf_size root_enbox t ps U J Jc blkB blkD0 blkD1 sc h bm dm ord k o o',
    lapack_ok la -> 1 <= kdim -> points_ok pt_dim xpt_dim n_point coord0 root_enbox ->
    build_tree fuel rnd pt_dim xpt_dim n_point coord0 max_leaf_points max_leaf_size root_enbox = Some (Some t) ->
    h2_build kern pt_dim xpt_dim kdim n_point n_thread t ps U J Jc blkB blkD0 blkD1 sc = Some (h, bm, dm) ->
    any_order (r_n_leaf t) ord ->
    0 <= o < n_point -> 0 <= o' < n_point -> o <> o' -> in_leaf t k o -> in_leaf t k o' ->
    (forall d, 0 <= d < xpt_dim -> ld coord0 (d * n_point + o) = ld coord0 (d * n_point + o')) -> (c1 : K) <> c0 ->
    BJ_build kern la h (r_coord t) xpt_dim c0 ord = None.
Proof.
  intros F K kern la fuel rnd pt_dim xpt_dim kdim n_point n_thread coord0 mlp mls root t ps U J Jc blkB blkD0 blkD1 sc h bm dm ord k o o' LA Hk Hok Ht HB Ho H1 H2 Ne I1 I2 Hc N10.
  destruct (BJ_build kern la h (r_coord t) xpt_dim c0 ord) as [p|] eqn:E; [|reflexivity]. exfalso.
  destruct (C61_block_jacobi_inverts_the_leaf_blocks F K kern la fuel rnd pt_dim xpt_dim kdim n_point n_thread coord0 mlp mls root t ps U J Jc blkB blkD0 blkD1 sc h bm dm c0 ord p LA Hk Hok Ht HB Ho E) as (Ex & B & M & (S1 & S2) & HI & _).
  assert (R1 : 0 <= o * kdim < kdim * n_point) by nia. assert (R2 : 0 <= o' * kdim < kdim * n_point) by nia. assert (NN : o * kdim <> o' * kdim) by nia.
  assert (D1 : o * kdim / kdim = o) by (apply Z.div_mul; lia). assert (D2 : o' * kdim / kdim = o') by (apply Z.div_mul; lia).
  assert (HBB : forall j, 0 <= j < kdim * n_point -> B (o * kdim) j = B (o' * kdim) j).
  { intros j Hj. assert (Rj : 0 <= j / kdim < n_point) by (split; [apply Z.div_pos; lia|apply Z.div_lt_upper_bound; lia]). destruct (Ex (j / kdim) Rj) as (l & Il). destruct (Z.eq_dec k l) as [->|Nl].
    - rewrite (S1 (o * kdim) j l), (S1 (o' * kdim) j l) by (auto; rewrite ?D1, ?D2; auto).
      assert (EK : kernel_matrix kern kdim (coords_of xpt_dim n_point coord0) (o * kdim) j = kernel_matrix kern kdim (coords_of xpt_dim n_point coord0) (o' * kdim) j).
      { unfold kernel_matrix. rewrite D1, D2, !Z.mod_mul by lia. f_equal. unfold coords_of. apply map_ext_in. intros d Hd. apply In_zrange in Hd. now rewrite Hc by auto. }
      rewrite EK. f_equal. destruct (o * kdim =? j), (o' * kdim =? j); reflexivity.
    - rewrite (S2 (o * kdim) j k l), (S2 (o' * kdim) j k l) by (auto; rewrite ?D1, ?D2; auto). reflexivity. }
  pose proof (HI (o * kdim) (o * kdim) R1 R1) as E1. pose proof (HI (o' * kdim) (o * kdim) R2 R1) as E2. unfold delta in E1, E2. rewrite Z.eqb_refl in E1.
  destruct (Z.eqb_spec (o' * kdim) (o * kdim)); [congruence|]. apply N10. rewrite <- E1, <- E2. apply rsum_ext. intros l Hl. now rewrite HBB.
Qed.
Print Assumptions C61_coincident_points_refuted.

(** ** C62: a shift that makes the kernel matrix positive definite is enough *)
Theorem C62_block_jacobi_is_symmetric_positive_definite :
  forall (F : num) (kern : list F -> list F -> Z -> Z -> R) (la : lapack Rring) fuel rnd pt_dim xpt_dim kdim n_point n_thread (coord0 : mem F)
    max_leaf_points max_leaf_size root_enbox t ps U J Jc blkB blkD0 blkD1 sc h bm dm (shift : R) ord,
    let n := kdim * n_point in
    let KM := @kernel_matrix F Rring kern kdim (coords_of xpt_dim n_point coord0) : Z -> Z -> R in
    lapack_ok la -> lapack_exact la -> 1 <= kdim -> points_ok pt_dim xpt_dim n_point coord0 root_enbox ->
    build_tree fuel rnd pt_dim xpt_dim n_point coord0 max_leaf_points max_leaf_size root_enbox = Some (Some t) ->
    @h2_build F Rring kern pt_dim xpt_dim kdim n_point n_thread t ps U J Jc blkB blkD0 blkD1 sc = Some (h, bm, dm) ->
    any_order (r_n_leaf t) ord ->
    (forall i j, 0 <= i < n -> 0 <= j < n -> KM i j = KM j i) -> pos_def n (fun i j => (KM i j + (if (i =? j)%Z then shift else 0))%R) ->
    exists p M, @BJ_build F Rring kern la h (r_coord t) xpt_dim shift ord = Some p /\
      (forall i j, 0 <= i < n -> 0 <= j < n -> M i j = M j i) /\ pos_def n M /\
      forall ord' (b x pb px : mem R) bf, any_order (r_n_leaf t) ord' ->
      (forall i, 0 <= i < n -> ld b i = Some (bf i)) -> n <= zlen x -> n <= zlen pb -> n <= zlen px ->
      exists x' pb' px', @BJ_apply Rring p ord' b x pb px = Some (x', pb', px') /\
        forall i, 0 <= i < n -> ld x' i = Some (@rsum Rring 0 n (fun j => (M i j * bf j)%R)).
Proof.
  intros F kern la fuel rnd pt_dim xpt_dim kdim n_point n_thread coord0 mlp mls root t ps U J Jc blkB blkD0 blkD1 sc h bm dm shift ord n KM LA LE Hk Hok Ht HB Ho Sym PD.
  destruct (bj_ctx (K := Rring) kern _ _ _ _ _ _ _ _ _ _ _ _ _ _ _ _ _ _ _ _ _ _ _ Hk Hok Ht HB) as (perm & Hd & CT & RE & HC & Hp & Hi & Hh & HD & Zf & Zb & Hf & Hfb).
  destruct (@BJ_build F Rring kern la h (r_coord t) xpt_dim shift ord) as [p|] eqn:E.
  2: { exfalso. eapply build_succeeds; eauto. }
  destruct (build_result (K := Rring) kern la pt_dim xpt_dim kdim n_point coord0 t h shift LA Hd CT RE HC Hh HD ord p Ho E) as (HP & HL & X & HX).
  pose proof (BU_MU (K := Rring) kern pt_dim xpt_dim kdim n_point t h shift Hd CT Hfb p X HX) as HI.
  exists p, (MU kdim t h X). split; [reflexivity|]. split; [|split].
  - apply (inv_symm n _ _ (BU_sym kern pt_dim xpt_dim kdim n_point coord0 t h shift perm Hd CT RE Hp Hi Hf Hfb Sym) HI).
  - apply (inv_pd n _ _ HI). eapply BU_pd; eauto.
  - intros ord' b x pb px bf Ho' Hb Zx Zpb Zpx.
    destruct (apply_spec (K := Rring) kern pt_dim xpt_dim kdim n_point t h shift Hd CT Zf Zb Hfb p X HP HL HX ord' b x pb px bf Ho' Hb Zx Zpb Zpx) as (x' & pb' & px' & E1 & Z1 & Z2 & Z3 & G & Fr).
    exists x', pb', px'. split; [exact E1|]. intros i Hii. apply G. exact Hii.
Qed.
Print Assumptions C62_block_jacobi_is_symmetric_positive_definite.

(** ** The hypotheses can be met *)

(** Six points in four leaves, of two, one, one and two points; shift 1; the
    preconditioner couples the two points of a leaf and no others. *)
Lemma in_leaf6 : in_leaf tree6 0 1 /\ in_leaf tree6 0 5 /\ in_leaf tree6 1 0 /\ in_leaf tree6 3 2 /\ in_leaf tree6 3 4.
Proof.
  repeat split; try (vm_compute; congruence).
  - exists 0, 0, 1, 0. repeat split; vm_compute; congruence.
  - exists 0, 0, 1, 1. repeat split; vm_compute; congruence.
  - exists 1, 2, 2, 2. repeat split; vm_compute; congruence.
  - exists 4, 4, 5, 4. repeat split; vm_compute; congruence.
  - exists 4, 4, 5, 5. repeat split; vm_compute; congruence.
Qed.
Lemma ord6 : any_order (r_n_leaf tree6) [2; 0; 3; 1].
Proof. change (r_n_leaf tree6) with 4. apply NoDup_Permutation; [repeat (constructor; [cbn; intuition lia|]); constructor|apply NoDup_zrange|]. intros x. rewrite In_zrange. cbn. intuition lia. Qed.
Example C61_C62_example : exists sc h bm dm p x pb px xf,
  @h2_build Qred_num Rring kern6 1 1 1 6 2 tree6 ps6 U6 J6 Jc6 (iv1 []) (iv1 []) (iv1 []) sc = Some (h, bm, dm) /\
  @BJ_build Qred_num Rring kern6 Rlapack h (r_coord tree6) 1 1%R [2; 0; 3; 1] = Some p /\
  @BJ_apply Rring p [2; 0; 3; 1] (map (fun i => Some (IZR i)) (zrange 0 6)) (alloc 6) (alloc 7) (alloc 6) = Some (x, pb, px) /\
  (forall i, 0 <= i < 6 -> ld x i = Some (xf i)) /\ ((KM6 1 1 + 1) * xf 1%Z + KM6 1 5 * xf 5%Z = 1)%R /\ (KM6 5 1 * xf 1%Z + (KM6 5 5 + 1) * xf 5%Z = 5)%R /\ (xf 1%Z = -1)%R /\ (xf 5%Z = 3)%R.
Proof.
  destruct (@built6 Rring kern6) as (sc & h & bm & dm & E).
  destruct (C62_block_jacobi_is_symmetric_positive_definite Qred_num kern6 Rlapack 6 (fun _ => (1#3)%Q) 1 1 1 6 2 pts6 2 (0%Q : Qred_num) None tree6 ps6 U6 J6 Jc6 _ _ _ sc h bm dm 1%R [2; 0; 3; 1]
    Rlapack_ok Rlapack_exact ltac:(lia) pts6_ok tree6_built E ord6 (fun i j _ _ => KM6_sym i j) KM6_pd) as (p & M & Ep & _).
  destruct (C61_block_jacobi_inverts_the_leaf_blocks Qred_num Rring kern6 Rlapack 6 (fun _ => (1#3)%Q) 1 1 1 6 2 pts6 2 (0%Q : Qred_num) None tree6 ps6 U6 J6 Jc6 _ _ _ sc h bm dm 1%R [2; 0; 3; 1] p
    Rlapack_ok ltac:(lia) pts6_ok tree6_built E ord6 Ep) as (_ & B & M' & (S1 & S2) & _ & G).
  destruct (G [2; 0; 3; 1] (map (fun i => Some (IZR i)) (zrange 0 6)) (alloc 6) (alloc 7) (alloc 6) (fun i => IZR i) ord6) as (x & pb & px & xf & Ex & _ & _ & _ & Hx & _); try (vm_compute; discriminate).
  { intros i Hi. change (1 * 6) with 6 in Hi. cases_below 6%nat Hi; reflexivity. }
  change (1 * 6) with 6 in *. destruct in_leaf6 as (L1 & L5 & L0 & L2 & L4).
  assert (KE : forall i j, KM6 i j = (1 + Q2R (nth (Z.to_nat i) [3#8; 0; 1; 5#8; 13#16; 0]%Q 0%Q) * Q2R (nth (Z.to_nat j) [3#8; 0; 1; 5#8; 13#16; 0]%Q 0%Q))%R \/ ~ (0 <= i < 6) \/ ~ (0 <= j < 6)).
  { intros i j. destruct (Z.le_gt_cases 0 i), (Z.le_gt_cases 0 j), (Z.lt_ge_cases i 6), (Z.lt_ge_cases j 6); try (right; lia). left. assert (Hi : 0 <= i < 6) by lia. assert (Hj : 0 <= j < 6) by lia. cases_below 6%nat Hi; cases_below 6%nat Hj; reflexivity. }
  assert (Row : forall i, i = 1 \/ i = 5 -> ((B i 1%Z * xf 1%Z + B i 5%Z * xf 5%Z)%R = IZR i)).
  { intros i Hi. assert (Hi6 : 0 <= i < 6) by lia. destruct (Hx i Hi6) as (_ & _ & Q). 
    assert (Li : in_leaf tree6 0 (i / 1)) by (destruct Hi as [-> | ->]; assumption).
    assert (Z0 : forall j, j = 0 \/ j = 2 \/ j = 3 \/ j = 4 -> B i j = 0%R).
    { intros j Hj. assert (Lj : exists k, k <> 0 /\ in_leaf tree6 k (j / 1)).
      { destruct Hj as [-> |[-> |[-> | ->]]]; [exists 1|exists 3|exists 2|exists 3]; (split; [lia|]); auto. split; [vm_compute; split; congruence|]. exists 3, 3, 3, 3. repeat split; vm_compute; congruence. }
      destruct Lj as (k & Nk & Lj). apply (S2 i j 0 k); auto; lia. }
    rewrite <- Q. unfold rsum. change (zrange 0 6) with [0; 1; 2; 3; 4; 5]. unfold lsum. cbn [map fold_right]. rewrite (Z0 0), (Z0 2), (Z0 3), (Z0 4) by lia. cbn. ring. }
  assert (BE : forall i j, (i = 1 \/ i = 5) -> (j = 1 \/ j = 5) -> B i j = (KM6 i j + if (i =? j)%Z then 1 else 0)%R).
  { intros i j Hi Hj. apply (S1 i j 0); try lia; [destruct Hi as [-> | ->]|destruct Hj as [-> | ->]]; assumption. }
  pose proof (Row 1 ltac:(lia)) as R1. pose proof (Row 5 ltac:(lia)) as R5. rewrite !BE in R1 by lia. rewrite !BE in R5 by lia. cbn [Z.eqb Pos.eqb] in R1, R5.
  assert (K1 : forall i j, (i = 1 \/ i = 5) -> (j = 1 \/ j = 5) -> KM6 i j = 1%R).
  { intros i j Hi Hj. destruct (KE i j) as [K|[K|K]]; [|lia|lia]. rewrite K. destruct Hi as [-> | ->], Hj as [-> | ->]; change (1 + Q2R 0 * Q2R 0 = 1)%R; rewrite RMicromega.Q2R_0; ring. }
  exists sc, h, bm, dm, p, x, pb, px, xf. do 3 (split; [assumption|]). split; [intros i Hi; apply Hx; exact Hi|].
  rewrite (K1 1 1), (K1 1 5) in R1 by auto. rewrite (K1 5 1), (K1 5 5) in R5 by auto. rewrite (K1 1 1), (K1 1 5), (K1 5 1), (K1 5 5) by auto. change (1 =? 1) with true in R1. change (1 =? 5) with false in R1. change (5 =? 1) with false in R5. change (5 =? 5) with true in R5. cbv iota in R1, R5. lra.
Qed.
(** Two of the points are equal: without a shift the construction fails. *)
Example C61_refuted_example : exists sc h bm dm,
  @h2_build Qred_num Rring kern6 1 1 1 6 2 tree6 ps6 U6 J6 Jc6 (iv1 []) (iv1 []) (iv1 []) sc = Some (h, bm, dm) /\
  @BJ_build Qred_num Rring kern6 Rlapack h (r_coord tree6) 1 0%R [2; 0; 3; 1] = None.
Proof.
  destruct (@built6 Rring kern6) as (sc & h & bm & dm & E). exists sc, h, bm, dm. split; [exact E|]. destruct in_leaf6 as (L1 & L5 & _).
  apply (C61_coincident_points_refuted Qred_num Rring kern6 Rlapack 6 (fun _ => (1#3)%Q) 1 1 1 6 2 pts6 2 (0%Q : Qred_num) None tree6 ps6 U6 J6 Jc6 _ _ _ sc h bm dm [2; 0; 3; 1] 0 1 5
    Rlapack_ok ltac:(lia) pts6_ok tree6_built E ord6); auto; try lia.
  - intros d Hd. assert (d = 0) by lia. subst d. reflexivity.
  - exact R1_neq_R0.
Qed.
