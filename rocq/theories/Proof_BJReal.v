(** Block Jacobi over the reals: when the diagonal blocks are positive definite. *)
From Coq Require Import ZArith QArith Reals List Lia Lra Bool Permutation.
From Verif Require Import Base Mem Num CRing FNum Model_Utils Spec_Utils Spec_Matvec Spec_Dense Model_Dense Model_Partition Spec_Partition Spec_Tree Model_Matvec Model_Build Spec_Build Spec_Lapack Spec_SPD Blk Model_ULV Model_FSAI Model_BJ Spec_BJ Spec_FSAI Proof_Utils Proof_BuildFill Proof_BuildTop Proof_ULVMath Proof_AFNTop Proof_BJLeaf Proof_BJTop.
Import ListNotations.
Open Scope Z_scope.

Lemma inv_symm n (B M : Z -> Z -> R) : (forall i j, 0 <= i < n -> 0 <= j < n -> B i j = B j i) -> @right_inverse Rring n B M -> forall i j, 0 <= i < n -> 0 <= j < n -> M i j = M j i.
Proof.
  intros HB HI i j Hi Hj.
  assert (E1 : @rsum Rring 0 n (fun p => (M p i * @rsum Rring 0 n (fun q => (B p q * M q j)%R))%R) = M j i).
  { transitivity (@rsum Rring 0 n (fun p => (@delta Rring j p * M p i)%R)); [|exact (@rsum_delta_l Rring n j (fun p => M p i) Hj)].
    apply (@rsum_ext Rring). intros p Hp. pose proof (HI p j Hp Hj) as E. cbn in E. cbn. rewrite E. unfold delta. rewrite (Z.eqb_sym p j). apply Rmult_comm. }
  rewrite <- E1. symmetry.
  transitivity (@rsum Rring 0 n (fun q => (@rsum Rring 0 n (fun p => (B q p * M p i)%R) * M q j)%R)).
  - transitivity (@rsum Rring 0 n (fun p => @rsum Rring 0 n (fun q => (M p i * B p q * M q j)%R))).
    + apply (@rsum_ext Rring). intros p Hp. rewrite <- (@rsum_mul_l Rring 0 n (M p i)). apply (@rsum_ext Rring). intros q Hq. cbn. ring.
    + rewrite (@rsum_swap Rring). apply (@rsum_ext Rring). intros q Hq. rewrite <- (@rsum_mul_r Rring 0 n (M q j)). apply (@rsum_ext Rring). intros p Hp. rewrite (HB p q) by auto. cbn. ring.
  - transitivity (@rsum Rring 0 n (fun q => (@delta Rring i q * M q j)%R)); [|exact (@rsum_delta_l Rring n i (fun q => M q j) Hi)].
    apply (@rsum_ext Rring). intros q Hq. pose proof (HI q i Hq Hi) as E. cbn in E. cbn. rewrite E. unfold delta. rewrite (Z.eqb_sym q i). reflexivity.
Qed.

Lemma inv_pd n (B M : Z -> Z -> R) : @right_inverse Rring n B M -> pos_def n B -> pos_def n M.
Proof.
  intros HI HB y (i0 & Hi0 & Hy). set (w := fun i => @rsum Rring 0 n (fun j => (M i j * y j)%R)).
  assert (Bw : forall i, 0 <= i < n -> @rsum Rring 0 n (fun l => (B i l * w l)%R) = y i).
  { intros i Hi. transitivity (@rsum Rring 0 n (fun j => (@rsum Rring 0 n (fun l => (B i l * M l j)%R) * y j)%R)).
    - exact (@rsum_assoc Rring n n (B i) M y).
    - transitivity (@rsum Rring 0 n (fun j => (@delta Rring i j * y j)%R)); [|exact (@rsum_delta_l Rring n i y Hi)].
      apply (@rsum_ext Rring). intros j Hj. pose proof (HI i j Hi Hj) as E. cbn in E. cbn. rewrite E. reflexivity. }
  assert (Q : quad n M y = quad n B w).
  { rewrite !quad_mv. apply (@rsum_ext Rring). intros i Hi. rewrite Bw by auto. apply Rmult_comm. }
  rewrite Q. apply HB. destruct (existsb (fun i => if Req_EM_T (w i) 0 then false else true) (zrange 0 n)) eqn:E.
  - apply existsb_exists in E. destruct E as (i & Hi & E). apply In_zrange in Hi. exists i. split; auto. destruct (Req_EM_T (w i) 0); [discriminate|auto].
  - exfalso. apply Hy. rewrite <- Bw by auto. apply (@rsum_zero Rring). intros l Hl.
    assert (w l = 0)%R as ->. { destruct (Req_EM_T (w l) 0) as [e|ne]; auto. exfalso. assert (C : existsb (fun i => if Req_EM_T (w i) 0 then false else true) (zrange 0 n) = true). { apply existsb_exists. exists l. split; [now apply In_zrange|]. destruct (Req_EM_T (w l) 0); [contradiction|auto]. } congruence. }
    cbn. ring.
Qed.

Section Real.
Context {F : num}.
Notation K := Rring.
Variable kern : list F -> list F -> Z -> Z -> K.
Variable la : lapack K.
Variables (pt_dim xpt_dim kdim n_point : Z) (coord0 : mem F) (t : tree_result F) (h : h2rep F K) (shift : K) (perm : list Z).
Notation a := (r_arrays t).
Notation nl := (r_n_leaf t).
Notation n := (kdim * n_point)%Z.
Hypothesis LA : lapack_ok la.
Hypothesis LE : lapack_exact la.
Hypothesis Hdims : (1 <= pt_dim /\ 1 <= kdim /\ 1 <= n_point)%Z.
Hypothesis CT : cluster_tree pt_dim n_point (r_n_node t) (r_max_level t) nl a.
Hypothesis RE : reordered xpt_dim n_point coord0 (r_coord t) (r_idx t).
Hypothesis HC : forall d q, (0 <= d < xpt_dim)%Z -> (0 <= q < n_point)%Z -> exists v, ld coord0 (d * n_point + q) = Some v.
Hypothesis Hperm : Permutation perm (zrange 0 n_point).
Hypothesis Hidx : forall i, (0 <= i < n_point)%Z -> ld (r_idx t) i = getz perm i.
Notation Dk := (Dk kdim t).
Notation dis k := (zsumf Dk 0 k).
Hypothesis Hh : h_t h = a /\ h_kdim h = kdim /\ h_npoint h = n_point /\ h_nleaf h = nl /\ h_kms h = n.
Hypothesis HD : forall k, (0 <= k < nl)%Z -> ld (h_Dnrow h) k = Some (Dk k).
Hypothesis Zf : zlen (h_fwd h) = n.
Hypothesis Zb : zlen (h_bwd h) = n.
Hypothesis Hf : forall p, (0 <= p < n)%Z -> nthz (h_fwd h) p = (nthz perm (p / kdim) * kdim + p mod kdim)%Z.
Hypothesis Hfb : forall p, (0 <= p < n)%Z -> (0 <= nthz (h_fwd h) p < n /\ 0 <= nthz (h_bwd h) p < n /\ nthz (h_bwd h) (nthz (h_fwd h) p) = p /\ nthz (h_fwd h) (nthz (h_bwd h) p) = p)%Z.
Notation bl := (nthz (h_bwd h)).
Notation fl := (nthz (h_fwd h)).
Notation KM := (@kernel_matrix F Rring kern kdim (coords_of xpt_dim n_point coord0)).
Hypothesis Ksym : forall i j, 0 <= i < n -> 0 <= j < n -> KM i j = KM j i.
Hypothesis Kpd : pos_def n (fun i j => (KM i j + (if (i =? j)%Z then shift else 0))%R).
Notation cell := (@cell F Rring kern xpt_dim kdim n_point t shift).
Notation BP := (@BP F Rring kern xpt_dim kdim n_point t shift).
Notation BU := (@BU F Rring kern xpt_dim kdim n_point t h shift).
Notation lp := (lp kdim t).

Definition FP (p q : Z) : R := (kern (cpt xpt_dim n_point t (p / kdim)) (cpt xpt_dim n_point t (q / kdim)) (p mod kdim) (q mod kdim) + shift * @delta Rring p q)%R.

Lemma FP_user i j : 0 <= i < n -> 0 <= j < n -> FP (bl i) (bl j) = (KM i j + (if (i =? j)%Z then shift else 0))%R.
Proof.
  intros Hi Hj. unfold FP. rewrite !(user_point pt_dim xpt_dim kdim n_point coord0 t h perm Hdims RE Hperm Hidx Hf Hfb) by auto.
  destruct (bl_cell pt_dim kdim n_point h perm Hdims Hf Hfb i Hi) as (_ & ->). destruct (bl_cell pt_dim kdim n_point h perm Hdims Hf Hfb j Hj) as (_ & ->).
  rewrite (delta_bl kdim n_point h Hfb) by auto. unfold kernel_matrix. f_equal. unfold delta. destruct (i =? j); cbn; ring.
Qed.

(** A vector on one leaf, as a vector of all cells. *)
Lemma quad_window k (y : Z -> R) : 0 <= k < nl -> let z := fun p => if (lp p =? k)%Z then y (p - dis k)%Z else 0%R in
  quad n FP z = quad (Dk k) (cell k) y.
Proof.
  intros Hk z. destruct (dis_window pt_dim kdim n_point t Hdims CT k Hk) as (W1 & W2). destruct (Dk_pos pt_dim kdim n_point t Hdims CT k Hk) as (DP & _).
  assert (Z0 : forall p, 0 <= p < n -> ~ (dis k <= p < dis k + Dk k) -> z p = 0%R).
  { intros p Hp Np. unfold z. destruct (Z.eqb_spec (lp p) k) as [<-|]; auto. exfalso. apply Np. apply (lp_spec pt_dim kdim n_point t Hdims CT p Hp). }
  assert (Zc : forall c, 0 <= c < Dk k -> z (dis k + c) = y c).
  { intros c Hc. unfold z. rewrite (lp_in pt_dim kdim n_point t Hdims CT (dis k + c) k Hk) by lia. rewrite Z.eqb_refl. f_equal. lia. }
  unfold quad. rewrite (@rsum_window Rring n (dis k) (Dk k)) by (try lia; intros p Hp Np; apply (@rsum_zero Rring); intros q Hq; rewrite (Z0 p Hp Np); cbn; ring).
  apply (@rsum_ext Rring). intros i Hi. rewrite (@rsum_window Rring n (dis k) (Dk k)) by (try lia; intros q Hq Nq; rewrite (Z0 q Hq Nq); cbn; ring).
  apply (@rsum_ext Rring). intros j Hj. rewrite !Zc by auto. f_equal. f_equal. unfold FP, Proof_BJTop.cell. rewrite delta_shift. reflexivity.
Qed.
Lemma FP_quad (z : Z -> R) : quad n FP z = quad n (fun i j => (KM i j + (if (i =? j)%Z then shift else 0))%R) (fun i => z (bl i)).
Proof.
  unfold quad. rewrite <- (@sum_bl F Rring kdim n_point h Hfb). apply (@rsum_ext Rring). intros i Hi. rewrite <- (@sum_bl F Rring kdim n_point h Hfb). apply (@rsum_ext Rring). intros j Hj.
  rewrite FP_user by auto. reflexivity.
Qed.
Lemma cell_pd k : 0 <= k < nl -> pos_def (Dk k) (cell k).
Proof.
  intros Hk y (i & Hi & Hy). destruct (dis_window pt_dim kdim n_point t Hdims CT k Hk) as (W1 & W2). rewrite <- quad_window by auto. rewrite FP_quad. apply Kpd.
  exists (fl (dis k + i)). destruct (Hfb (dis k + i) ltac:(lia)) as (A & _ & B & _). split; auto. rewrite B. rewrite (lp_in pt_dim kdim n_point t Hdims CT (dis k + i) k Hk) by lia. rewrite Z.eqb_refl.
  replace (dis k + i - dis k) with i by lia. exact Hy.
Qed.

Lemma build_succeeds ord : any_order nl ord -> @BJ_build F Rring kern la h (r_coord t) xpt_dim shift ord <> None.
Proof.
  intros Ho E. destruct (@build_fails F Rring kern la pt_dim xpt_dim kdim n_point coord0 t h shift LA Hdims CT RE HC Hh HD ord Ho E) as (k & B & Hk & HB & Hinfo).
  destruct (Dk_pos pt_dim kdim n_point t Hdims CT k Hk) as (DP & _). destruct (le_lu la LE (Dk k) B ltac:(lia) Hinfo) as (y & Hy & Q).
  assert (Q2 : quad (Dk k) B y = quad (Dk k) (cell k) y).
  { unfold quad. apply (@rsum_ext Rring). intros i Hi. apply (@rsum_ext Rring). intros j Hj. rewrite HB by auto. reflexivity. }
  pose proof (cell_pd k Hk y Hy). lra.
Qed.

(** The block diagonal matrix is symmetric positive definite. *)
Lemma BP_quad (z : Z -> R) : quad n BP z = @rsum Rring 0 nl (fun k => quad (Dk k) (cell k) (fun c => z (dis k + c)%Z)).
Proof.
  unfold quad at 1. rewrite <- (dis_total pt_dim kdim n_point t Hdims CT) at 1. destruct (leaf_seq pt_dim n_point t ltac:(lia) (maxlv pt_dim kdim n_point t Hdims CT) CT) as (N1 & _).
  rewrite (@rsum_blocks Rring) by (try lia; intros i Hi; destruct (Dk_pos pt_dim kdim n_point t Hdims CT i Hi); lia).
  apply (@rsum_ext Rring). intros k Hk. unfold quad. apply (@rsum_ext Rring). intros i Hi.
  destruct (dis_window pt_dim kdim n_point t Hdims CT k Hk) as (W1 & W2). pose proof (lp_in pt_dim kdim n_point t Hdims CT (dis k + i) k Hk ltac:(lia)) as El.
  transitivity (@rsum Rring 0 n (fun j => if (lp (dis k + i) =? lp j)%Z then (z (dis k + i)%Z * BP (dis k + i)%Z j * z j)%R else 0%R)).
  - apply (@rsum_ext Rring). intros j Hj. unfold Proof_BJTop.BP. destruct (lp (dis k + i) =? lp j)%Z; [reflexivity|cbn; ring].
  - refine (eq_trans (@sum_leaf F Rring pt_dim kdim n_point t Hdims CT (dis k + i) (fun j => (z (dis k + i)%Z * BP (dis k + i)%Z j * z j)%R) ltac:(lia)) _). rewrite El. apply (@rsum_ext Rring). intros j Hj.
    rewrite (@BP_cell F Rring kern pt_dim xpt_dim kdim n_point t shift Hdims CT k i j) by auto. reflexivity.
Qed.
Lemma BU_pd : pos_def n BU.
Proof.
  intros y (i & Hi & Hy). destruct (Hfb i Hi) as (_ & Rb & _ & Eb).
  assert (Q : quad n BU y = quad n BP (fun p => y (fl p))).
  { unfold quad. rewrite <- (@sum_bl F Rring kdim n_point h Hfb (fun i => @rsum Rring 0 n (fun j => (y (fl i) * BP i j * y (fl j))%R))). apply (@rsum_ext Rring). intros p Hp.
    rewrite <- (@sum_bl F Rring kdim n_point h Hfb (fun j => (y (fl (bl p)) * BP (bl p) j * y (fl j))%R)). apply (@rsum_ext Rring). intros q Hq.
    destruct (Hfb p Hp) as (_ & _ & _ & ->). destruct (Hfb q Hq) as (_ & _ & _ & ->). reflexivity. }
  rewrite Q, BP_quad. set (z := fun p => y (fl p)). set (k := lp (bl i)). destruct (lp_spec pt_dim kdim n_point t Hdims CT (bl i) Rb) as (Hk & R). fold k in Hk, R.
  assert (Pk : (0 < quad (Dk k) (cell k) (fun c => z (dis k + c)%Z))%R).
  { apply cell_pd; auto. exists (bl i - dis k). split; [lia|]. unfold z. replace (dis k + (bl i - dis k)) with (bl i) by lia. rewrite Eb. exact Hy. }
  refine (Rlt_le_trans _ _ _ Pk _). refine (proj2 (rsum_nonneg (fun k => quad (Dk k) (cell k) (fun c => z (dis k + c)%Z)) nl ltac:(lia) _) k Hk). intros m Hm.
  destruct (existsb (fun c => if Req_EM_T (z (dis m + c)%Z) 0 then false else true) (zrange 0 (Dk m))) eqn:E.
  - apply existsb_exists in E. destruct E as (c & Hc & E). apply In_zrange in Hc. apply Rlt_le. apply cell_pd; auto. exists c. split; auto. destruct (Req_EM_T (z (dis m + c)%Z) 0); [discriminate|auto].
  - apply Req_le. symmetry. unfold quad. apply (@rsum_zero Rring). intros c Hc. apply (@rsum_zero Rring). intros d Hd.
    assert (z (dis m + c)%Z = 0)%R as ->. { destruct (Req_EM_T (z (dis m + c)%Z) 0) as [e|ne]; auto. exfalso. assert (C : existsb (fun c => if Req_EM_T (z (dis m + c)%Z) 0 then false else true) (zrange 0 (Dk m)) = true). { apply existsb_exists. exists c. split; [now apply In_zrange|]. destruct (Req_EM_T (z (dis m + c)%Z) 0); [contradiction|auto]. } congruence. }
    cbn. ring.
Qed.
Lemma BU_sym i j : 0 <= i < n -> 0 <= j < n -> BU i j = BU j i.
Proof.
  intros Hi Hj. destruct (@BU_leaf F Rring kern pt_dim xpt_dim kdim n_point coord0 t h shift perm Hdims CT RE Hperm Hidx Hf Hfb) as (S1 & S2).
  destruct (in_leaf_ex pt_dim kdim n_point t h perm Hdims CT Hperm Hidx Hf Hfb (i / kdim)) as (k & Ik). { split; [apply Z.div_pos; lia|apply Z.div_lt_upper_bound; lia]. }
  destruct (in_leaf_ex pt_dim kdim n_point t h perm Hdims CT Hperm Hidx Hf Hfb (j / kdim)) as (l & Il). { split; [apply Z.div_pos; lia|apply Z.div_lt_upper_bound; lia]. }
  destruct (Z.eq_dec k l) as [->|Ne].
  - rewrite (S1 i j l), (S1 j i l) by auto. rewrite (Z.eqb_sym j i). f_equal. apply Ksym; auto.
  - rewrite (S2 i j k l), (S2 j i l k) by auto. reflexivity.
Qed.
End Real.
