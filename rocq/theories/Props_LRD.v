(** C65, C66: the low-rank plus diagonal preconditioner (examples/SPDHSS-H2/LRD_precond.c). *)
From Coq Require Import ZArith QArith Reals List Lia Lra Bool Permutation.
From Verif Require Import Base Mem Num CRing FNum Model_Utils Spec_Utils Spec_Matvec Spec_Dense Model_Dense Model_Partition Spec_Partition Spec_Tree Model_Pairs Model_Matvec Model_Build Spec_Build Spec_Lapack Spec_SPD Blk Model_ULV Model_FSAI Model_AFN Model_BJ Spec_BJ Spec_FSAI Model_Nys Spec_Nys Model_Rand Spec_Rand Model_LRD Spec_LRD
  Proof_FileIO Proof_Utils Proof_MmFam Proof_BuildTop Proof_BuildUse Proof_ULVMath Proof_FSAIKnn Proof_AFNTop Proof_BJLeaf Proof_BJTop Proof_BJReal Proof_BJUse Proof_Lapack Proof_NysMath Proof_Spectral Proof_Rand Proof_LRDSel Proof_LRDBuild Proof_LRDTop Proof_LRDUse Ex_Matvec Ex_Build Ex_BJ.
From Verif Require Props_Nys.
Import ListNotations.
Open Scope Z_scope.

Lemma all_some_len {A} : forall (l : list (option A)) r, all_some l = Some r -> zlen r = zlen l.
Proof.
  induction l as [|[a|] l IH]; cbn [all_some]; intros r E; [injection E as <-; reflexivity| |discriminate].
  destruct (all_some l) as [r'|]; cbn [bind option_map] in E; [|discriminate]. injection E as <-. rewrite !zlen_cons. f_equal. now apply IH.
Qed.
Lemma in_order_in {S} body : forall ord (s s' : S) i, in_order ord body s = Some s' -> In i ord -> exists s1 s2, body i s1 = Some s2.
Proof.
  induction ord as [|k ord IH]; intros s s' i E Hi; [destruct Hi|]. cbn [in_order] in E. destruct (body k s) as [s1|] eqn:E1; cbn [bind] in E; [|discriminate].
  destruct Hi as [<-|Hi]; [eauto|]. eapply IH; eauto.
Qed.
(** ** C65: what the preconditioner is *)

(** For a symmetric kernel with positive diagonal (one value per pair of points, as
    many coordinates as dimensions) and a positive shift, whatever the random numbers,
    the thread orders and the previous content of the buffers: if the sampling returns,
    the result solves N x + shift x = b, where N = K(X, S) P K(S, X) for some points
    S = sel 0, ..., sel (rank - 1) of the user's points X, P being the inverse of K(S, S)
    truncated at 1e-10 of its largest eigenvalue.  The operator is symmetric and
    positive definite. *)
Theorem C65_lrd_solves_a_sampled_approximation :
  forall (F : num) (kern : list F -> list F -> Z -> Z -> R) (la : lapack Rring) syevd fuel rnd dim n_point n_thread (coord0 : mem F)
    max_leaf_points max_leaf_size root_enbox t ps U J Jc blkB blkD0 blkD1 sc h bm dm rnd' fuel' nt ord1 ord2 rank (shift : R) q lp,
    let A := @kernel_matrix F Rring kern 1 (coords_of dim n_point coord0) in
    lapack_ok la -> lapack_exact la -> syevd_ok rank syevd -> points_ok dim dim n_point coord0 root_enbox ->
    build_tree fuel rnd dim dim n_point coord0 max_leaf_points max_leaf_size root_enbox = Some (Some t) ->
    @h2_build F Rring kern dim dim 1 n_point n_thread t ps U J Jc blkB blkD0 blkD1 sc = Some (h, bm, dm) ->
    (forall i j, 0 <= i < n_point -> 0 <= j < n_point -> A i j = A j i) -> (forall i, 0 <= i < n_point -> (0 < A i i)%R) -> (0 < shift)%R ->
    rand_ok rnd' -> 1 <= nt -> any_order nt ord1 -> any_order nt ord2 -> 1 <= rank <= n_point ->
    LRD_build kern la syevd rnd' fuel' h (r_coord t) dim dim nt ord1 ord2 rank shift q = Some lp ->
    exists sel N M, sampled_approx n_point rank (1 / 10 ^ 10) A sel N /\
      @right_inverse Rring n_point (fun i j => N i j + (if (i =? j)%Z then shift else 0))%R M /\
      (forall i j, 0 <= i < n_point -> 0 <= j < n_point -> M i j = M j i) /\ pos_def n_point M /\
      forall (b x pb px w : mem Rring) (bf : Z -> R), (forall i, 0 <= i < n_point -> ld b i = Some (bf i)) -> n_point <= zlen x -> n_point <= zlen pb -> n_point <= zlen px -> rank <= zlen w ->
        exists x' pb' px' w' xf, LRD_apply lp b x pb px w = Some (x', pb', px', w') /\ zlen x' = zlen x /\ zlen pb' = zlen pb /\ zlen px' = zlen px /\ zlen w' = zlen w /\
          (forall i, 0 <= i < n_point -> ld x' i = Some (xf i) /\ xf i = @rsum Rring 0 n_point (fun j => M i j * bf j)%R /\
             @rsum Rring 0 n_point (fun j => (N i j + (if (i =? j)%Z then shift else 0)) * xf j)%R = bf i) /\
          (forall c, n_point <= c -> ld x' c = ld x c).
Proof.
  intros F kern la syevd fuel rnd dim n n_thread coord0 mlp mls root t ps U J Jc blkB blkD0 blkD1 sc h bm dm rnd' fuel' nt ord1 ord2 rank shift q lp A LA LE HS Hok Ht HB Sym Pos Hsh Hr Hnt O1 O2 Hrk E.
  destruct (@bj_ctx F Rring kern _ _ _ _ _ _ _ _ _ _ _ _ _ _ _ _ _ _ _ _ _ _ _ (Z.le_refl 1) Hok Ht HB) as (perm & Hd & CT & RE & HC & Hp & Hi & (_ & _ & Hnp & _ & Hkms) & _ & Zf & Zb & Hf & Hfb).
  pose proof E as E'. unfold LRD_build in E'. rewrite Hnp in E'.
  destruct (lrd_points rnd' fuel' dim n rank (r_coord t) q) as [r|] eqn:EP; [|discriminate]. clear E'.
  destruct (points_inv rnd' dim n (r_coord t) (Xc n t) ltac:(lia) ltac:(lia) (Xc_ok dim n coord0 t perm Hd RE HC Hp Hi) fuel' rank q r EP) as (s & f & q' & ES).
  destruct (build_of_samples kern la syevd rnd' dim n coord0 t h shift perm LA LE Hr Hd RE HC Hp Hi Hnp Hkms Zf Zb Hf Hfb Sym Pos Hsh fuel' nt ord1 ord2 rank q s f q' Hrk Hnt O1 O2 HS ES) as (lp' & E2 & G).
  rewrite E in E2. injection E2 as <-. exact G.
Qed.
Print Assumptions C65_lrd_solves_a_sampled_approximation.

(** The construction returns when every remainder of the random numbers keeps
    occurring: no numerical step can fail. *)
Theorem C65_lrd_build_returns :
  forall (F : num) (kern : list F -> list F -> Z -> Z -> R) (la : lapack Rring) syevd fuel rnd dim n_point n_thread (coord0 : mem F)
    max_leaf_points max_leaf_size root_enbox t ps U J Jc blkB blkD0 blkD1 sc h bm dm rnd' nt ord1 ord2 rank (shift : R) q,
    let A := @kernel_matrix F Rring kern 1 (coords_of dim n_point coord0) in
    lapack_ok la -> lapack_exact la -> syevd_ok rank syevd -> points_ok dim dim n_point coord0 root_enbox ->
    build_tree fuel rnd dim dim n_point coord0 max_leaf_points max_leaf_size root_enbox = Some (Some t) ->
    @h2_build F Rring kern dim dim 1 n_point n_thread t ps U J Jc blkB blkD0 blkD1 sc = Some (h, bm, dm) ->
    (forall i j, 0 <= i < n_point -> 0 <= j < n_point -> A i j = A j i) -> (forall i, 0 <= i < n_point -> (0 < A i i)%R) -> (0 < shift)%R ->
    rand_ok rnd' -> fair rnd' n_point -> 1 <= nt -> any_order nt ord1 -> any_order nt ord2 -> 1 <= rank <= n_point ->
    exists fuel0, forall fuel', (fuel0 <= fuel')%nat -> exists lp, LRD_build kern la syevd rnd' fuel' h (r_coord t) dim dim nt ord1 ord2 rank shift q = Some lp.
Proof.
  intros F kern la syevd fuel rnd dim n n_thread coord0 mlp mls root t ps U J Jc blkB blkD0 blkD1 sc h bm dm rnd' nt ord1 ord2 rank shift q A LA LE HS Hok Ht HB Sym Pos Hsh Hr Fair Hnt O1 O2 Hrk.
  destruct (@bj_ctx F Rring kern _ _ _ _ _ _ _ _ _ _ _ _ _ _ _ _ _ _ _ _ _ _ _ (Z.le_refl 1) Hok Ht HB) as (perm & Hd & CT & RE & HC & Hp & Hi & (_ & _ & Hnp & _ & Hkms) & _ & Zf & Zb & Hf & Hfb).
  assert (Zs : 0 + rank <= zlen (iv_data (iv_init rank))). { unfold iv_init. destruct (Z.ltb_spec rank 0); [lia|]. cbn [iv_data]. rewrite zlen_alloc; lia. }
  assert (Za : n <= zlen (arr (4 * n) (Some 0))) by (rewrite zlen_arr by lia; lia).
  destruct (rand_sample_total rnd' Hr n rank (iv_data (iv_init rank)) 0 (arr (4 * n) (Some 0)) q ltac:(lia) ltac:(lia) Za ltac:(lia) Zs Fair) as (fuel0 & s & f & q' & ES).
  exists fuel0. intros fuel' Hfu.
  destruct (build_of_samples kern la syevd rnd' dim n coord0 t h shift perm LA LE Hr Hd RE HC Hp Hi Hnp Hkms Zf Zb Hf Hfb Sym Pos Hsh fuel' nt ord1 ord2 rank q s f q' Hrk Hnt O1 O2 HS (ES fuel' Hfu)) as (lp' & E2 & _).
  exists lp'. exact E2.
Qed.
Print Assumptions C65_lrd_build_returns.

(** With more coordinates per point than dimensions the construction reads past the
    end of its copy of the coordinates. *)
Theorem C65_extra_coordinates_refuted :
  forall (F : num) (kern : list F -> list F -> Z -> Z -> R) (la : lapack Rring) syevd rnd fuel (h : h2rep F Rring) coord pt_dim xpt_dim nt ord1 ord2 rank (shift : R) q,
    0 <= pt_dim < xpt_dim -> 1 <= h_npoint h -> 1 <= rank -> 1 <= nt -> any_order nt ord1 -> any_order nt ord2 ->
    LRD_build kern la syevd rnd fuel h coord pt_dim xpt_dim nt ord1 ord2 rank shift q = None.
Proof.
  intros F kern la syevd rnd fuel h coord pt xpt nt ord1 ord2 rank shift q Hd Hn Hrk Hnt O1 O2.
  destruct (LRD_build kern la syevd rnd fuel h coord pt xpt nt ord1 ord2 rank shift q) as [lp|] eqn:E; [|reflexivity]. exfalso. set (n := h_npoint h) in *.
  unfold LRD_build in E. fold n in E. inv_bind E r EP. destruct r as ((ca & cs) & q'). cbv beta iota in E. inv_bind E Ut EU. clear E.
  assert (CA : dm_ncol ca = n /\ dm_ld ca = n /\ zlen (dm_data ca) = pt * n /\ dm_ncol cs = rank).
  { unfold lrd_points in EP. cbv zeta in EP. inv_bind EP cp1 EC1. inv_bind EP x EX. destruct x as ((sk & fg) & p2). cbv beta iota in EP. inv_bind EP sl ESL. inv_bind EP cs' ECS. injection EP as <- <- <-.
    assert (Zs : zlen sl = rank). { unfold read_cells in ESL. pose proof (all_some_len _ _ ESL) as Q. rewrite Q, zlen_map, zlen_zrange by lia. lia. }
    unfold dm_set_data, dm_init. cbn [dm_ncol dm_ld dm_data]. split; [lia|]. split; [lia|]. split.
    - rewrite (mcpy_zlen _ _ _ _ _ _ EC1). unfold dm_init. cbn [dm_data]. rewrite !Z.max_r by lia. apply zlen_alloc. nia.
    - unfold dm_select_columns in ECS. inv_bind ECS x1 EE1. inv_bind ECS x2 EE2. injection ECS as <-. cbn [dm_ncol]. exact Zs. }
  destruct CA as (A1 & A2 & A3 & A4). unfold lrd_Ut in EU. rewrite A1, A2, A4 in EU. inv_bind EU K1 EK1. inv_bind EU K2 EK2. clear EU EK1.
  unfold eval_kernel_OMP in EK2. assert (I0 : In 0 ord2) by (apply (any_order_in nt); auto; lia).
  destruct (in_order_in _ _ _ _ _ EK2 I0) as (s1 & s2 & Eb). clear EK2.
  unfold calc_block_spos_len in Eb. destruct (Z.ltb_spec 0 0); [lia|]. destruct (Z.ltb_spec nt 0); [lia|]. cbn [orb] in Eb. destruct (Z.eqb_spec nt 0); [lia|].
  assert (Hlen : exists ln, 1 <= ln /\ krnl_eval (K := Rring) kern xpt 1 (dm_data cs) 0 (dm_ld cs) ln (dm_data ca) 0 n n s1 0 (h_kms h) = Some s2).
  { pose proof (Z.rem_nonneg rank nt ltac:(lia) ltac:(lia)). pose proof (Z.quot_pos rank nt ltac:(lia) ltac:(lia)). pose proof (Z.quot_rem rank nt ltac:(lia)).
    destruct (Z.ltb_spec 0 (Z.rem rank nt)); cbn [bind] in Eb.
    - rewrite Z.mul_0_r in Eb. eexists. split; [|exact Eb]. lia.
    - assert (R0 : Z.rem rank nt = 0) by lia. rewrite R0, Z.mul_0_r in Eb. eexists. split; [|exact Eb]. nia. }
  destruct Hlen as (ln & Hl & Ek). unfold krnl_eval in Ek. rewrite zfor_step in Ek by lia. inv_bind Ek s3 Es3. inv_bind Es3 pp Epp. rewrite zfor_step in Es3 by lia. inv_bind Es3 s4 Es4. inv_bind Es4 qq Eqq.
  unfold point in Eqq. rewrite all_some_none in Eqq; [discriminate|]. apply in_map_iff. exists pt. split; [|apply In_zrange; lia]. unfold ld. rewrite (proj2 (getz_None (dm_data ca) (0 + pt * n + 0))) by lia. reflexivity.
Qed.
Print Assumptions C65_extra_coordinates_refuted.

(** ** C66: the points used are the sampled points *)

(** True if the samples come in increasing order. *)
Theorem C66_skeleton_is_the_sample_partial :
  forall (F : num) rnd fuel dim n_point (coord : mem F) X rank p ca cs q,
    rand_ok rnd -> 1 <= dim -> 1 <= n_point -> 1 <= rank <= n_point -> (forall i d, 0 <= i < n_point -> 0 <= d < dim -> ld coord (d * n_point + i) = Some (X i d)) ->
    lrd_points rnd fuel dim n_point rank coord p = Some (ca, cs, q) ->
    exists samples, zlen samples = rank /\ NoDup samples /\ first_different (fun k => rnd k mod n_point) p samples q /\
      coords_at (dm_data ca) 0 (dm_ld ca) n_point dim X /\
      (increasing samples -> coords_at (dm_data cs) 0 (dm_ld cs) rank dim (fun j => X (nthz samples j))).
Proof.
  intros F rnd fuel dim n coord X rank p ca cs q Hr Hd Hn Hrk HX E.
  destruct (points_inv rnd dim n coord X Hd Hn HX fuel rank p _ E) as (s & f & q' & ES).
  destruct (points_of_samples rnd dim n coord X Hr Hd Hn HX fuel rank p s f q' Hrk ES) as (ca' & cs' & l & E2 & Zl & Fd & Rg & _ & C1 & _ & C2).
  rewrite E in E2. injection E2 as <- <- <-. exists l. split; [exact Zl|]. split; [exact (fd_nodup _ _ _ _ Fd)|]. split; [exact Fd|]. split; [exact C1|].
  intros Hi. rewrite (chain_increasing l Hi) in C2 by (intros i Hin; apply Rg; auto). exact C2.
Qed.
Print Assumptions C66_skeleton_is_the_sample_partial.

(** Otherwise not: when the first two samples are points 1 and 0, the first two
    columns of the skeleton are both point 1. *)
Theorem C66_unsorted_samples_refuted :
  forall (F : num) rnd fuel dim n_point (coord : mem F) X rank p ca cs q,
    rand_ok rnd -> 1 <= dim -> 2 <= rank <= n_point -> (forall i d, 0 <= i < n_point -> 0 <= d < dim -> ld coord (d * n_point + i) = Some (X i d)) ->
    lrd_points rnd fuel dim n_point rank coord p = Some (ca, cs, q) ->
    rnd p mod n_point = 1 -> rnd (p + 1) mod n_point = 0 ->
    (exists samples, first_different (fun k => rnd k mod n_point) p samples q /\ zlen samples = rank /\ nthz samples 0 = 1 /\ nthz samples 1 = 0) /\
    forall d, 0 <= d < dim -> ld (dm_data cs) (d * dm_ld cs) = Some (X 1 d) /\ ld (dm_data cs) (d * dm_ld cs + 1) = Some (X 1 d).
Proof.
  intros F rnd fuel dim n coord X rank p ca cs q Hr Hd Hrk HX E V0 V1.
  destruct (points_inv rnd dim n coord X Hd ltac:(lia) HX fuel rank p _ E) as (s & f & q' & ES).
  destruct (points_of_samples rnd dim n coord X Hr Hd ltac:(lia) HX fuel rank p s f q' ltac:(lia) ES) as (ca' & cs' & l & E2 & Zl & Fd & Rg & _ & C1 & _ & C2).
  rewrite E in E2. injection E2 as <- <- <-. destruct (fd_two _ _ _ _ Fd ltac:(cbv beta; rewrite V0, V1; lia)) as (_ & _ & F2). destruct (F2 ltac:(lia)) as (rest & El). cbv beta in El. rewrite V0, V1 in El.
  split. { exists l. split; [exact Fd|]. split; [exact Zl|]. subst l. split; reflexivity. }
  assert (Ch : forall c, 0 <= c < 2 -> nthz (chain l) c = 1). { intros c Hc. rewrite El. change (1 :: 0 :: rest) with ([1; 0] ++ rest). rewrite chain_prefix by (change (zlen [1; 0]) with 2; lia). assert (c = 0 \/ c = 1) as [-> | ->] by lia; reflexivity. }
  intros d Hdd. pose proof (C2 0 d ltac:(lia) Hdd) as Q0. pose proof (C2 1 d ltac:(lia) Hdd) as Q1. cbv beta in Q0, Q1. rewrite Ch in Q0, Q1 by lia. rewrite !Z.add_0_l in *. rewrite Z.add_0_r in Q0. auto.
Qed.
Print Assumptions C66_unsorted_samples_refuted.

(** ** The hypotheses are met *)
Lemma KM6_diag i : 0 <= i < 6 -> (0 < KM6 i i)%R.
Proof. intros Hi. unfold KM6, kernel_matrix, kern6. match goal with |- (0 < 1 + ?x * ?x)%R => pose proof (Rle_0_sqr x) as Q; unfold Rsqr in Q end. lra. Qed.
Lemma one_thread : any_order 1 [0]. Proof. apply Permutation_refl. Qed.
Lemma fair6 : rand_ok (fun q => Z.abs (1 - q)) /\ fair (fun q => Z.abs (1 - q)) 6.
Proof.
  split; [intros q; lia|]. intros v p Hv. exists (6 * Z.abs p + v + 1). split; [lia|]. replace (Z.abs (1 - (6 * Z.abs p + v + 1))) with (v + Z.abs p * 6) by lia. rewrite Z_mod_plus_full. apply Z.mod_small. lia.
Qed.
(** Six points, two samples (1 and 0: both columns of the skeleton are point 1). *)
Example C65_example : exists sc h bm dm fuel lp N x' pb' px' w' xf,
  @h2_build Qred_num Rring kern6 1 1 1 6 2 tree6 ps6 U6 J6 Jc6 (iv1 []) (iv1 []) (iv1 []) sc = Some (h, bm, dm) /\
  LRD_build kern6 Rlapack Props_Nys.Rsyevd (fun q => Z.abs (1 - q)) fuel h (r_coord tree6) 1 1 1 [0] [0] 2 1%R 0 = Some lp /\
  LRD_apply lp (map (fun i => Some (IZR i)) (zrange 0 6)) (alloc 6) (alloc 7) (alloc 6) (alloc 2) = Some (x', pb', px', w') /\
  (forall i, 0 <= i < 6 -> ld x' i = Some (xf i) /\ @rsum Rring 0 6 (fun j => (N i j + (if (i =? j)%Z then 1 else 0)) * xf j)%R = IZR i).
Proof.
  destruct (@built6 Rring kern6) as (sc & h & bm & dm & E). destruct fair6 as (Fr1 & Fr2).
  pose proof (Props_Nys.Rsyevd_ok 2 ltac:(lia)) as HS. assert (P6 : points_ok 1 1 6 pts6 None) by exact pts6_ok.
  destruct (C65_lrd_build_returns Qred_num kern6 Rlapack Props_Nys.Rsyevd 6 (fun _ => (1#3)%Q) 1 6 2 pts6 2 (0%Q : Qred_num) None tree6 ps6 U6 J6 Jc6 _ _ _ sc h bm dm (fun q => Z.abs (1 - q)) 1 [0] [0] 2 1%R 0
    Rlapack_ok Rlapack_exact HS P6 tree6_built E (fun i j _ _ => KM6_sym i j) KM6_diag Rlt_0_1 Fr1 Fr2 ltac:(lia) one_thread one_thread ltac:(lia)) as (fuel & Hfu).
  destruct (Hfu fuel (le_n _)) as (lp & EL).
  destruct (C65_lrd_solves_a_sampled_approximation Qred_num kern6 Rlapack Props_Nys.Rsyevd 6 (fun _ => (1#3)%Q) 1 6 2 pts6 2 (0%Q : Qred_num) None tree6 ps6 U6 J6 Jc6 _ _ _ sc h bm dm (fun q => Z.abs (1 - q)) fuel 1 [0] [0] 2 1%R 0 lp
    Rlapack_ok Rlapack_exact HS P6 tree6_built E (fun i j _ _ => KM6_sym i j) KM6_diag Rlt_0_1 Fr1 ltac:(lia) one_thread one_thread ltac:(lia) EL) as (sel & N & M & _ & _ & _ & _ & G).
  destruct (G (map (fun i => Some (IZR i)) (zrange 0 6)) (alloc 6) (alloc 7) (alloc 6) (alloc 2) (fun i => IZR i)) as (x & pb & px & w & xf & Ex & _ & _ & _ & _ & Hx & _); try (vm_compute; discriminate).
  { intros i Hi. assert (i = 0 \/ i = 1 \/ i = 2 \/ i = 3 \/ i = 4 \/ i = 5) as [-> |[-> |[-> |[-> |[-> | ->]]]]] by lia; reflexivity. }
  exists sc, h, bm, dm, fuel, lp, N, x, pb, px, w, xf. split; [exact E|]. split; [exact EL|]. split; [exact Ex|]. intros i Hi. split; apply Hx; exact Hi.
Qed.
Example C66_example : exists ca cs q, @lrd_points Qred_num (fun q => Z.abs (1 - q)) 3 1 3 2 (full [1#2; 1#3; 1#5]%Q) 0 = Some (ca, cs, q) /\
  ld (dm_data cs) 0 = Some (1#3)%Q /\ ld (dm_data cs) 1 = Some (1#3)%Q.
Proof. eexists _, _, _. split; [vm_compute; reflexivity|]. split; reflexivity. Qed.
Example C66_increasing_example : exists ca cs q, @lrd_points Qred_num (fun q => Z.abs q) 3 1 3 2 (full [1#2; 1#3; 1#5]%Q) 0 = Some (ca, cs, q) /\
  ld (dm_data cs) 0 = Some (1#2)%Q /\ ld (dm_data cs) 1 = Some (1#3)%Q.
Proof. eexists _, _, _. split; [vm_compute; reflexivity|]. split; reflexivity. Qed.
