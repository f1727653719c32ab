(** The low-rank plus diagonal preconditioner of a representation built from the user's points. *)
From Coq Require Import ZArith QArith Reals List Lia Lra Bool Permutation.
From Verif Require Import Base Mem Num CRing FNum Model_Utils Spec_Utils Spec_Matvec Spec_Dense Model_Dense Model_Partition Spec_Partition Spec_Tree Model_Pairs Model_Matvec Model_Build Spec_Build Spec_Lapack Spec_SPD Blk Model_ULV Model_FSAI Model_BJ Spec_BJ Spec_FSAI Model_Nys Spec_Nys Model_Rand Spec_Rand Model_LRD Spec_LRD Proof_Utils Props_Partition Proof_Build Proof_BuildFill Proof_BuildTop Proof_Lapack Proof_ULVMath Proof_FSAIKnn Proof_AFNTop Proof_BJLeaf Proof_BJTop Proof_BJ Proof_BJReal Proof_BJUse Proof_NysMath Proof_NysBuild Proof_Spectral Proof_Rand Proof_LRDMath Proof_LRDSel Proof_LRDBuild Proof_LRDTop.
Import ListNotations.
Open Scope Z_scope.

Section Use.
Context {F : num}.
Variable kern : list F -> list F -> Z -> Z -> R.
Variable la : lapack Rring.
Variable syevd : Z -> (Z -> Z -> R) -> (Z -> Z -> R) * (Z -> R).
Variable rnd : Z -> Z.
Variables (dim n : Z) (coord0 : mem F) (t : tree_result F) (h : h2rep F Rring) (shift : R) (perm : list Z).
Notation KM := (@kernel_matrix F Rring kern 1 (coords_of dim n coord0)).
Hypothesis LA : lapack_ok la.
Hypothesis LE : lapack_exact la.
Hypothesis Hrnd : rand_ok rnd.
Hypothesis Hdims : (1 <= dim /\ 1 <= 1 /\ 1 <= n)%Z.
Hypothesis RE : reordered dim n coord0 (r_coord t) (r_idx t).
Hypothesis HC : forall d q, (0 <= d < dim)%Z -> (0 <= q < n)%Z -> exists v, ld coord0 (d * n + q) = Some v.
Hypothesis Hperm : Permutation perm (zrange 0 n).
Hypothesis Hidx : forall i, (0 <= i < n)%Z -> ld (r_idx t) i = getz perm i.
Hypothesis Hnp : h_npoint h = n.
Hypothesis Hkms : h_kms h = 1 * n.
Hypothesis Zf : zlen (h_fwd h) = 1 * n.
Hypothesis Zb : zlen (h_bwd h) = 1 * n.
Hypothesis Hf : forall p, (0 <= p < 1 * n)%Z -> nthz (h_fwd h) p = (nthz perm (p / 1) * 1 + p mod 1)%Z.
Hypothesis Hfb : forall p, (0 <= p < 1 * n)%Z -> (0 <= nthz (h_fwd h) p < 1 * n /\ 0 <= nthz (h_bwd h) p < 1 * n /\ nthz (h_bwd h) (nthz (h_fwd h) p) = p /\ nthz (h_fwd h) (nthz (h_bwd h) p) = p)%Z.
Hypothesis Ksym : forall i j, 0 <= i < n -> 0 <= j < n -> KM i j = KM j i.
Hypothesis Kpos : forall i, 0 <= i < n -> (0 < KM i i)%R.
Hypothesis Hsh : (0 < shift)%R.
Notation bl := (nthz (h_bwd h)).
Notation fl := (nthz (h_fwd h)).

Definition Xc (q d : Z) : F := val (nlit (0 # 1)) (ld (r_coord t) (d * n + q)).
Lemma Xc_ok q d : 0 <= q < n -> 0 <= d < dim -> ld (r_coord t) (d * n + q) = Some (Xc q d).
Proof.
  intros Hq Hd. unfold Xc. destruct RE as (_ & RE2). assert (Zp : zlen perm = n) by (unfold zlen; rewrite (Permutation_length Hperm); fold (zlen (zrange 0 n)); rewrite zlen_zrange by lia; lia).
  assert (Eg : getz perm q = Some (nthz perm q)) by (apply getz_nthz; lia).
  assert (In (nthz perm q) (zrange 0 n)). { eapply Permutation_in; [exact Hperm|]. eapply getz_In. exact Eg. }
  apply In_zrange in H. rewrite (RE2 q d (nthz perm q)) by (auto; rewrite Hidx; auto). destruct (HC d (nthz perm q) Hd H) as (v & ->). reflexivity.
Qed.
Lemma fb p : 0 <= p < n -> 0 <= fl p < n /\ 0 <= bl p < n /\ bl (fl p) = p /\ fl (bl p) = p.
Proof. intros Hp. pose proof (Hfb p ltac:(lia)). rewrite Z.mul_1_l in *. auto. Qed.
Lemma key p q : 0 <= p < n -> 0 <= q < n -> kern (pt_of dim Xc p) (pt_of dim Xc q) 0 0 = KM (fl p) (fl q).
Proof.
  intros Hp Hq. destruct (fb p Hp) as (F1 & _ & F2 & _). destruct (fb q Hq) as (G1 & _ & G2 & _).
  pose proof (@user_point F Rring dim dim 1 n coord0 t h perm Hdims RE Hperm Hidx Hf Hfb) as UP.
  pose proof (UP (fl p) ltac:(lia)) as U1. pose proof (UP (fl q) ltac:(lia)) as U2. rewrite F2 in U1. rewrite G2 in U2.
  unfold kernel_matrix. rewrite <- U1, <- U2, !Z.mod_1_r, !Z.div_1_r. reflexivity.
Qed.

(** The solution operator in the user's order. *)
Definition good (rank : Z) (lp : lrdp) : Prop := exists sel N M,
  sampled_approx n rank (1 / 10 ^ 10) KM sel N /\
  @right_inverse Rring n (fun i j => N i j + (if (i =? j)%Z then shift else 0))%R M /\
  (forall i j, 0 <= i < n -> 0 <= j < n -> M i j = M j i) /\ pos_def n M /\
  forall (b x pb px w : mem Rring) (bf : Z -> R), (forall i, 0 <= i < n -> ld b i = Some (bf i)) -> n <= zlen x -> n <= zlen pb -> n <= zlen px -> rank <= zlen w ->
    exists x' pb' px' w' xf, LRD_apply lp b x pb px w = Some (x', pb', px', w') /\ zlen x' = zlen x /\ zlen pb' = zlen pb /\ zlen px' = zlen px /\ zlen w' = zlen w /\
      (forall i, 0 <= i < n -> ld x' i = Some (xf i) /\ xf i = @rsum Rring 0 n (fun j => M i j * bf j)%R /\ @rsum Rring 0 n (fun j => (N i j + (if (i =? j)%Z then shift else 0)) * xf j)%R = bf i) /\
      (forall c, n <= c -> ld x' c = ld x c).

Lemma build_of_samples fuel nt ord1 ord2 rank p s f q : 1 <= rank <= n -> 1 <= nt -> any_order nt ord1 -> any_order nt ord2 -> syevd_ok rank syevd ->
  rand_sample rnd fuel n rank (iv_data (iv_init rank)) 0 (arr (4 * n) (Some 0)) p = Some (s, f, q) ->
  exists lp, LRD_build kern la syevd rnd fuel h (r_coord t) dim dim nt ord1 ord2 rank shift p = Some lp /\ good rank lp.
Proof.
  intros Hr Hnt O1 O2 HS E.
  destruct (points_of_samples rnd dim n (r_coord t) Xc Hrnd ltac:(lia) ltac:(lia) Xc_ok fuel rank p s f q Hr E) as (ca & cs & l & EP & Zl & Fd & Rg & N1 & C1 & N2 & C2).
  assert (Rc : forall k, 0 <= k < rank -> 0 <= nthz (chain l) k < n). { intros k Hk. apply chain_range; auto. lia. }
  set (Y := fun j => Xc (nthz (chain l) j)). set (ch := nthz (chain l)) in *.
  set (a := fun i j => kern (pt_of dim Y i) (pt_of dim Y j) 0 0). set (b := fun k c => kern (pt_of dim Y k) (pt_of dim Xc c) 0 0).
  assert (Ka : forall i j, 0 <= i < rank -> 0 <= j < rank -> a i j = KM (fl (ch i)) (fl (ch j))). { intros i j Hi Hj. unfold a. rewrite <- key by (apply Rc; auto). reflexivity. }
  assert (Kb : forall i j, 0 <= i < rank -> 0 <= j < n -> b i j = KM (fl (ch i)) (fl j)). { intros i j Hi Hj. unfold b. rewrite <- key by (auto; apply Rc; auto). reflexivity. }
  assert (Rf : forall k, 0 <= k < rank -> 0 <= fl (ch k) < n). { intros k Hk. apply fb. auto. }
  destruct (lrd_Ut_spec kern la LA LE syevd dim nt ord1 ord2 rank n shift ca cs Xc Y Hr Hnt O1 O2 Hsh HS) as (Ut & U & V & sv & W & L & EU & ZU & HU & Hev & Hmax & HW & HT & HL & Hd & HLU); auto.
  { intros i j Hi Hj. change (a i j = a j i). rewrite !Ka by auto. apply Ksym; auto. }
  { change (0 < a 0%Z 0%Z)%R. rewrite Ka by lia. apply Kpos. apply Rf. lia. }
  exists (LRDP (1 * n) rank shift Ut (h_fwd h) (h_bwd h)). split.
  { unfold LRD_build. rewrite Hnp, EP. cbn [bind]. rewrite Hkms, Z.mul_1_l. match goal with |- bind ?x _ = _ => replace x with (Some Ut) by (symmetry; exact EU) end. reflexivity. }
  destruct (gram_sampled rank n a V sv W b Hev Hmax HW) as (P & HP & HG).
  pose proof (woodbury n rank W L U shift ltac:(lra) HT HL Hd HLU) as HWb.
  set (N := fun i j => mm rank (tr W) W (bl i) (bl j)). set (M := fun i j => lrd_inv rank U shift (bl i) (bl j)).
  assert (Hdl : forall i j, 0 <= i < n -> 0 <= j < n -> dl (bl i) (bl j) = dl i j). { intros i j Hi Hj. apply (@delta_bl F Rring 1 n h Hfb); lia. }
  assert (Hsum : forall g : Z -> R, S 0 n (fun i => g (bl i)) = S 0 n g). { intros g. pose proof (@sum_bl F Rring 1 n h Hfb g) as Q. rewrite Z.mul_1_l in Q. exact Q. }
  assert (Hsc : forall i j, (if (i =? j)%Z then shift else 0)%R = (shift * dl i j)%R). { intros i j. unfold delta. destruct (i =? j); cbn; ring. }
  assert (HI : @right_inverse Rring n (fun i j => N i j + (if (i =? j)%Z then shift else 0))%R M).
  { intros i j Hi Hj. rewrite <- (Hdl i j) by auto. rewrite <- (HWb (bl i) (bl j)) by (apply fb; auto).
    unfold mm at 1. rewrite <- (Hsum (fun c => (mm rank (tr W) W (bl i) c + shift * dl (bl i) c) * lrd_inv rank U shift c (bl j))%R). apply S_ext. intros c Hc. cbn. rewrite Hsc, Hdl by auto. reflexivity. }
  assert (Nsym : forall i j, N i j = N j i). { intros i j. unfold N, mm, tr. apply S_ext. intros; ring. }
  exists (fun k => fl (ch k)), N, M. split.
  { split; [exact Rf|]. exists P. split.
    - destruct HP as (V' & s' & (O & Eg & As) & HP). exists V', s'. split; [|exact HP]. split; [exact O|]. split; [|exact As]. intros i k Hi Hk. rewrite <- (Eg i k Hi Hk). apply (@rsum_ext Rring). intros j Hj. cbn. rewrite Ka by auto. reflexivity.
    - intros i j Hi Hj. unfold N. rewrite HG by (apply fb; auto). apply S_ext. intros k Hk. apply S_ext. intros m Hm.
      destruct (fb i Hi) as (_ & B1 & _ & B2). destruct (fb j Hj) as (_ & B3 & _ & B4). rewrite !Kb, B2, B4 by auto. rewrite (Ksym i) by auto. reflexivity. }
  split; [exact HI|]. split. { intros i j Hi Hj. unfold M. apply lrd_inv_sym. }
  split.
  { apply (inv_pd n _ M HI). intros y Hy.
    rewrite (quad_ext n _ (fun i j => S 0 rank (fun k => W k (bl i) * W k (bl j)) + shift * dl i j)%R) by (intros i j Hi Hj; rewrite Hsc; reflexivity).
    exact (gram_pd n rank (fun i k => W k (bl i)) y shift Hsh Hy). }
  intros bv x pb px w bf Hb Zx Zpb Zpx Zw.
  destruct (apply_spec n rank (h_fwd h) (h_bwd h) shift Ut U ltac:(lia) ltac:(lia) Hsh HU ltac:(lia) ltac:(lia) fb bv x pb px w bf Hb Zx Zpb Zpx Zw) as (x' & pb' & px' & w' & EA & A1 & A2 & A3 & A4 & G & Fr).
  exists x', pb', px', w', (fun i => S 0 n (fun j => M i j * bf j)%R). rewrite Z.mul_1_l. do 5 (split; [assumption|]). split; [|exact Fr].
  intros i Hi. split.
  { refine (eq_trans (G i Hi) _). apply (f_equal (@Some R)). rewrite <- (Hsum (fun c => lrd_inv rank U shift (bl i) c * bf (fl c))%R). apply S_ext. intros c Hc. destruct (fb c Hc) as (_ & _ & _ & B). rewrite B. reflexivity. }
  split; [reflexivity|].
  pose proof (S_assoc n n (fun j => N i j + (if (i =? j)%Z then shift else 0))%R M bf) as Q. refine (eq_trans Q _). clear Q.
  transitivity (S 0 n (fun j => dl i j * bf j)%R); [|apply S_dl_l; auto]. apply S_ext. intros j Hj. f_equal. exact (HI i j Hi Hj).
Qed.
End Use.
