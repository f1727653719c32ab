(** The AFN preconditioner in its Nystrom form. *)
From Coq Require Import ZArith QArith Reals List Lia Lra Bool Permutation.
From Verif Require Import Base Mem Num CRing FNum Model_Utils Spec_Dense Model_Dense Model_Matvec Model_Build Model_Matmul Proof_Build Proof_Gemm Spec_Lapack Proof_Lapack Spec_SPD Blk Model_ULV Proof_ULVMem Proof_ULVMath Model_FSAI Spec_FSAI Proof_FSAIKnn Proof_FSAIRow Proof_FSAITop Proof_FSAIApply Proof_FSAIBuild Proof_FSAIReal Model_AFN Spec_AFN Proof_FPS Proof_FPSPerm Proof_FPSBad Proof_AFNMath Proof_AFNBuild Proof_AFNApply Proof_AFNTop Model_Nys Spec_Nys Proof_NysMath Proof_NysBuild.
Import ListNotations.
Open Scope Z_scope.

Section Apply.
Variables (n n1 : Z) (U : Z -> Z -> R) (m : Z -> R).
Hypothesis Hn1 : 0 <= n1 <= n.
Variables (Mm Um : mem Rring).
Hypothesis HU : holds Um 0 n1 n n1 U.
Hypothesis HM : forall i, 0 <= i < n1 -> ld Mm i = Some (m i).
Let T (x : Z -> R) (k : Z) : R := S 0 n (fun r => U r k * x r)%R.
Definition nys_y (x : Z -> R) (r : Z) : R := (x r - S 0 n1 (fun k => U r k * T x k) + S 0 n1 (fun k => U r k * (T x k * m k)))%R.

Lemma Nys_apply_spec (x y t : mem Rring) xv : zlen x = n -> zlen y = n -> zlen t = n -> (forall i, 0 <= i < n -> ld x i = Some (xv i)) ->
  exists y' t', Nys_precond_apply n1 n Mm Um x y t = Some (y', t') /\ zlen y' = n /\ zlen t' = n /\ forall i, 0 <= i < n -> ld y' i = Some (nys_y xv i).
Proof.
  intros Zx Zy Zt Hx. unfold Nys_precond_apply.
  assert (Hxh : holds x 0 1 n 1 (fun i _ => xv i)) by (apply (vec_holds (K := Rring)); auto).
  destruct (gemm_upd (K := Rring) true false n1 1 n Um 0 n1 x 0 1 t 0 1 (fun k r => U r k) (fun i _ => xv i) ltac:(lia)) as (t1 & E1 & (Z1 & H1 & _)); auto.
  { repeat split; try lia. } rwb E1.
  destruct (mcpy_spec y 0 x 0 n) as (y1 & E2 & Z2 & L2); try lia. rwb E2.
  assert (Hy1 : holds y1 0 1 n 1 (fun i _ => xv i)).
  { apply (vec_holds (K := Rring)). intros i Hi. unfold ld. rewrite L2, (proj2 (Z.leb_le _ _)), (proj2 (Z.ltb_lt _ _)) by lia. cbn [andb]. replace (0 + (0 + i - 0)) with i by lia. apply Hx. lia. }
  destruct (gemm_neg_upd (K := Rring) false n 1 n1 Um 0 n1 t1 0 1 y1 0 1 U (fun k _ => T xv k) (fun i _ => xv i)) as (y2 & E3 & (Z3 & H3 & _)); auto.
  { repeat split; try lia. } rwb E3.
  destruct (upd1 n1 (fun i t => a <- ld t i; b <- ld Mm i; st t i (cmul (c := Rring) a b)) (fun i => T xv i * m i)%R (fun i => Some (T xv i)) t1) as (t2 & E4 & Z4 & L4); try lia.
  { apply Z.le_trans with n; [lia|]. apply Z.eq_le_incl. symmetry. exact (eq_trans Z1 Zt). }
  { intros i Hi. etransitivity; [|exact (H1 i 0 Hi ltac:(lia))]. replace (0 + (i * 1 + 0)) with i by lia. reflexivity. }
  { intros i d Hi _ Ld. rwb Ld. rewrite HM by auto. reflexivity. }
  rwb E4.
  destruct (gemm_spec (K := Rring) false false n 1 n1 Um 0 n1 t2 0 1 true y2 0 1 U (fun k _ => T xv k * m k)%R (fun i j => xv i - @rsum Rring 0 n1 (fun l => U i l * T xv l))%R) as (y3 & E5 & Z5 & H5 & _); try lia.
  { repeat split; try lia. }
  { intros i p Hi Hp. apply HU; auto. }
  { intros p j Hp Hj. assert (j = 0) by lia. subst j. replace (0 + (p * 1 + 0)) with p by lia. now apply L4. }
  { intros _ i j Hi Hj. exact (H3 i j Hi Hj). }
  rwb E5. exists y3, t2. split; [reflexivity|]. split; [lia|]. split; [exact (eq_trans Z4 (eq_trans Z1 Zt))|]. intros i Hi. replace i with (0 + (i * 1 + 0)) at 1 by lia. rewrite H5 by lia. reflexivity.
Qed.

Variables (perm : mem Z) (ps : Z -> Z).
Hypothesis Hperm : Spec_AFN.perm_ok n perm ps.
Lemma AFN_apply_nys n2 (x y px py t1 t2 : mem Rring) xv : (forall j, 0 <= j < n -> ld x j = Some (xv j)) -> n <= zlen y ->
  zlen px = n -> zlen py = n -> zlen t1 = n -> zlen t2 = n ->
  exists y' px' py' t1' t2', AFN_precond_apply (Afn n n1 n2 perm (IsNys Mm Um)) x y px py t1 t2 = Some (y', (px', py', t1', t2')) /\
    zlen px' = n /\ zlen py' = n /\ zlen t1' = n /\ zlen t2' = n /\ zlen y' = zlen y /\
    (forall i, 0 <= i < n -> ld y' (ps i) = Some (nys_y (fun j => xv (ps j)) i)) /\ forall c, ~ 0 <= c < n -> ld y' c = ld y c.
Proof.
  intros Hx Zy Zpx Zpy Zt1 Zt2. unfold AFN_precond_apply. cbn [a_n a_n1 a_n2 a_perm a_kind].
  destruct (perm_gather (K := Rring) n perm ps x px xv) as (px' & E1 & Z1 & L1); auto; try lia. rwb E1.
  destruct (Nys_apply_spec px' py t1 (fun j => xv (ps j))) as (py' & t1' & E2 & Z2 & Z3 & L2); auto. rwb E2.
  destruct (perm_scatter (K := Rring) n perm ps py' y (nys_y (fun j => xv (ps j)))) as (y' & E9 & Zy' & Ly' & Fy'); auto; try lia. rwb E9.
  exists y', px', py', t1', t2. split; [reflexivity|]. repeat split; auto.
Qed.
End Apply.

Section Top.
Context {F : num}.
Variable kern : list F -> list F -> Z -> Z -> Rring.
Variable la : lapack Rring.
Hypothesis LA : lapack_ok la.
Hypothesis LE : lapack_exact la.
Variable syevd : Z -> (Z -> Z -> R) -> (Z -> Z -> R) * (Z -> R).
Variables (gap : R -> R) (eps : R).
Hypothesis Hgap : forall x, (0 < gap x)%R.
Hypothesis Heps : (0 < eps)%R.
Variable big : F.
Hypothesis HT : total_lt (nlt (n := F)).
Variables (n dim : Z) (coord : mem F) (X : Z -> Z -> F).
Hypothesis Hdim : 0 <= dim.
Hypothesis HX : coords_at coord 0 n n dim X.
Variable mu : R.
Hypothesis Hmu : (0 < mu)%R.
(** The matrix K(X, X). *)
Definition nys_matrix (i j : Z) : R := kern (pt_of dim X i) (pt_of dim X j) 0 0.
Hypothesis Ksym : symmetric n nys_matrix.
Hypothesis Kpsd : psd n nys_matrix.
Hypothesis Kdiag : forall i, 0 <= i < n -> nys_matrix i i <> 0%R.
Hypothesis Hdist : distinct_points big n dim X.

(** A principal submatrix of a positive semidefinite matrix, shifted. *)
Lemma psd_sub n1 (A : Z -> Z -> R) ps nu : 0 <= n1 <= n -> psd n A -> (forall i, 0 <= i < n -> 0 <= ps i < n) -> (forall i j, 0 <= i < n -> 0 <= j < n -> ps i = ps j -> i = j) -> (0 < nu)%R ->
  pos_def n1 (fun i j => A (ps i) (ps j) + nu * dl i j)%R.
Proof.
  intros H1 PA Rp Ip Hnu y (i & Hi & Hy).
  set (y' := fun p => let k := inv_perm n ps p in if k <? n1 then y k else 0%R).
  assert (Y : forall k, 0 <= k < n -> y' (ps k) = if k <? n1 then y k else 0%R) by (intros k Hk; unfold y'; now rewrite inv_perm_l).
  assert (E0 : forall f, S 0 n (fun k => if k <? n1 then f k else 0%R) = S 0 n1 f).
  { intros f. rewrite (S_split 0 n1 n) by lia. rewrite (S_zero n1 n) by (intros k Hk; destruct (Z.ltb_spec k n1); auto; lia). rewrite Rplus_0_r. apply S_ext. intros k Hk. destruct (Z.ltb_spec k n1); auto; lia. }
  assert (E : quad n A y' = S 0 n1 (fun a => y a * S 0 n1 (fun b => A (ps a) (ps b) * y b))%R).
  { rewrite quad_S. etransitivity; [symmetry; exact (rsum_ps n ps Rp Ip (fun a => (y' a * S 0 n (fun j => A a j * y' j))%R : Rring))|].
    rewrite <- E0. apply S_ext. intros a Ha. rewrite Y by auto. destruct (Z.ltb_spec a n1); [|ring]. f_equal.
    etransitivity; [symmetry; exact (rsum_ps n ps Rp Ip (fun b => (A (ps a) b * y' b)%R : Rring))|]. rewrite <- E0. apply S_ext. intros b Hb. rewrite Y by auto. destruct (Z.ltb_spec b n1); ring. }
  specialize (PA y'). rewrite E in PA. rewrite quad_S.
  rewrite (S_ext 0 n1 _ (fun a => y a * S 0 n1 (fun b => A (ps a) (ps b) * y b) + nu * (y a * y a))%R).
  2:{ intros a Ha. rewrite (S_ext 0 n1 _ (fun b => A (ps a) (ps b) * y b + nu * (dl a b * y b))%R) by (intros; ring). rewrite S_add, S_mul_l, S_dl_l by auto. ring. }
  rewrite S_add, S_mul_l. pose proof (S_term 0 n1 (fun a => y a * y a)%R i ltac:(intros; apply Rle_0_sqr) Hi) as Q. cbv beta in Q.
  assert (0 < y i * y i)%R by (destruct (Rtotal_order (y i) 0) as [|[|]]; nra). nra.
Qed.

(** Sums over all points in the permuted order. *)
Lemma S_ps ps f : (forall i, 0 <= i < n -> 0 <= ps i < n) -> (forall i j, 0 <= i < n -> 0 <= j < n -> ps i = ps j -> i = j) -> S 0 n (fun i => f (ps i)) = S 0 n f.
Proof. intros Rp Ip. exact (rsum_ps n ps Rp Ip (f : Z -> Rring)). Qed.

Theorem NYS_spec nt max_k m est_rank o : 1 <= nt <= n -> 1 <= est_rank <= n -> est_rank < max_k -> (forall i, any_order nt (ao_fps o i)) -> any_order nt (ao_k11 o) -> any_order nt (ao_k12 o) -> syevd_ok est_rank syevd ->
  exists a M sel nu N U lam,
    AFN_precond_build kern la Rrsq big nt n dim coord mu max_k m est_rank (Nys_precond_build la syevd gap eps mu) o = Some a /\
    afn_applies a n M /\ symmetric n M /\ pos_def n M /\
    farthest_points big n dim X est_rank sel /\ (0 < nu)%R /\ nystrom_approx n est_rank nys_matrix sel nu N /\ eig_approx n est_rank eps N U lam /\ nys_inverse n est_rank mu nu U lam M.
Proof.
  intros Hnt Hk Her O1 O2 O3 HS. unfold AFN_precond_build.
  rewrite (proj2 (Z.ltb_lt est_rank max_k)) by lia. set (n1 := est_rank) in *. set (n2 := n - n1) in *.
  assert (Za : zlen (alloc (A := Z) n) = n) by (apply zlen_alloc; lia).
  destruct (FPS_spec big HT n dim coord X Hdim HX nt (ao_fps o) Hnt O1 n1 (alloc n)) as (idx & sel & E1 & Z1 & L1 & FP). { rewrite Za. lia. }
  rwb E1. destruct (farthest_distinct big HT n dim X Hdist n1 sel ltac:(lia) FP) as (Rs & Is).
  destruct (fps_perm_spec n n1 idx sel) as (perm & ps & E2 & PO & Hsel); auto; try lia. rwb E2.
  pose proof PO as (Zp & Hp & Ip). assert (Rp : forall i, 0 <= i < n -> 0 <= ps i < n) by (intros; now apply Hp).
  destruct (gather_spec dim n coord 0 n perm 0 ps X (alloc (n * dim)) n) as (cp & E3 & Z3 & L3); auto; try lia.
  { rewrite zlen_alloc by nia. lia. }
  { intros a Ha. rewrite Z.add_0_l. now apply Hp. }
  { intros a d Ha Hd. rewrite <- (HX (ps a) d) by auto. f_equal. lia. }
  rwb E3. set (Xp := fun j d => X (ps j) d).
  assert (HXp : coords_at cp 0 n n dim Xp). { intros j d Hj Hd. unfold Xp. rewrite Z.add_0_l. now apply L3. }
  assert (HX1 : coords_at cp 0 n n1 dim Xp) by (intros j d Hj Hd; apply HXp; lia).
  set (X2 := fun j d => Xp (n1 + j) d).
  assert (HX2 : coords_at cp n1 n n2 dim X2). { intros j d Hj Hd. unfold X2. rewrite <- (HXp (n1 + j) d) by lia. f_equal. lia. }
  destruct (eval_OMP_spec kern nt (ao_k11 o) dim cp 0 n n1 Xp cp 0 n n1 Xp (alloc (n1 * n1))) as (K11 & E4 & Z4 & H4); auto; try lia. { rewrite zlen_alloc; nia. }
  rewrite zlen_alloc in Z4 by nia. rwb E4.
  destruct (eval_OMP_spec kern nt (ao_k12 o) dim cp 0 n n1 Xp cp n1 n n2 X2 (alloc (n1 * n2))) as (K12 & E5 & Z5 & H5); auto; try lia. { rewrite zlen_alloc; nia. }
  rwb E5.
  assert (Hn12 : n1 + n2 = n) by (unfold n2; lia).
  set (A := fun i j => nys_matrix (ps i) (ps j)).
  assert (H4' : holds K11 0 n1 n1 n1 A) by exact H4.
  assert (H5' : holds K12 0 n2 n1 n2 (fun i j => A i (n1 + j))) by exact H5.
  destruct (nys_build_spec la LA syevd gap eps Hgap Heps mu n1 n2 K11 K12 A (fun i j => A i (n1 + j))) as (Mm & Um & nu & M & V & lam & W & E6 & Hnu & HE & Lm & Lp & HU & HM & HW & HN); auto; try lia.
  { intros i j Hi Hj. apply Ksym; apply Rp; lia. }
  { apply Kdiag, Rp; lia. }
  { intros nu B Hnu HB. destruct (Z.eq_dec (fst (l_potrf la n1 B)) 0) as [|Ne]; auto. exfalso.
    destruct (le_chol la LE n1 B ltac:(lia)) with (2 := Ne) as (y & Hy & Hq).
    { intros i j Hi Hj. rewrite !HB by auto. unfold A. rewrite (Ksym (ps i) (ps j)) by (apply Rp; lia). now rewrite delta_comm. }
    pose proof (psd_sub n1 nys_matrix ps nu ltac:(lia) Kpsd Rp Ip Hnu y Hy) as P.
    replace (quad n1 B y) with (quad n1 (fun i j => nys_matrix (ps i) (ps j) + nu * dl i j)%R y) in Hq; [lra|].
    unfold quad. apply (@rsum_ext Rring). intros i Hi. apply (@rsum_ext Rring). intros j Hj. rewrite HB by auto. reflexivity. }
  rwb E6. rewrite Hn12 in *.
  set (w := fun k => nys_w eps (lam (n1 - 1)) (lam k)) in *.
  assert (HUe : holds Um 0 n1 n n1 (nysU n1 M V w)) by exact HU. clear HU.
  assert (Hww : forall k, 0 <= k < n1 -> (w k = 0 \/ w k * w k * lam k = 1)%R). { intros k Hkk. destruct (nys_w_ok eps Heps (lam (n1 - 1)) (lam k) (Lp k Hkk) Lm) as [(? & _)|]; auto. }
  assert (Hwt : forall k, 0 <= k < n1 -> w k = 0%R -> (lam k < (10 * eps) * (10 * eps) * lam (n1 - 1)%Z)%R).
  { intros k Hkk W0. destruct (nys_w_ok eps Heps (lam (n1 - 1)) (lam k) (Lp k Hkk) Lm) as [(_ & ?)|Q]; auto. fold (w k) in Q. rewrite W0 in Q. lra. }
  set (eta := (nys_s nu (lam 0%Z) + mu)%R) in *. set (m0 := fun k => (eta / (nys_s nu (lam k) + mu))%R) in *.
  assert (Sp : forall k, (0 <= nys_s nu (lam k))%R) by (intros; apply Rmax_r).
  assert (Hm0 : forall k, (0 < m0 k)%R). { intros k. unfold m0, eta, Rdiv. pose proof (Sp 0). pose proof (Sp k). apply Rmult_lt_0_compat; [lra|apply Rinv_0_lt_compat; lra]. }
  set (P := nysP n1 M V w m0). set (U0 := nysU n1 M V w).
  set (iv := inv_perm n ps).
  set (MM := fun p q => P (iv p) (iv q)). set (U := fun p k => U0 (iv p) k).
  set (Nn := fun p q => S 0 n1 (fun l => M (iv p) l * M (iv q) l)%R).
  assert (Hdl : forall i j, 0 <= i < n -> 0 <= j < n -> dl (ps i) (ps j) = dl i j).
  { intros i j Hi Hj. unfold delta. destruct (Z.eqb_spec (ps i) (ps j)) as [Eq|Ne], (Z.eqb_spec i j); auto; [apply Ip in Eq; lia|subst; lia]. }
  assert (Iv : forall i, 0 <= i < n -> iv (ps i) = i) by (intros; unfold iv; now apply inv_perm_l).
  assert (Onto : forall p, 0 <= p < n -> exists i, 0 <= i < n /\ ps i = p) by (intros; now apply ps_onto).
  assert (Hn0 : 0 <= n) by lia. assert (Hn10 : 0 <= n1) by lia.
  exists (Afn n n1 n2 perm (IsNys Mm Um)), MM, ps, nu, Nn, U, lam.
  split; [reflexivity|]. split; [|split; [|split; [|split; [|split; [exact Hnu|split; [|split]]]]]].
  - intros x y px py t1 t2 xv Hx Zy Zpx Zpy Zt1 Zt2.
    destruct (AFN_apply_nys n n1 U0 m0 ltac:(lia) Mm Um HUe HM perm ps PO n2 x y px py t1 t2 xv) as (y' & px' & py' & t1' & t2' & E & Q1 & Q2 & Q3 & Q4 & Q5 & Q6 & Q7); auto.
    exists y', px', py', t1', t2'. split; [exact E|]. do 5 (split; [assumption|]). split; [|assumption].
    intros p Hpp. destruct (Onto p Hpp) as (i & Hi & <-). rewrite Q6 by auto. apply (f_equal (@Some R)).
    etransitivity; [symmetry; exact (nysP_apply n n1 M V w m0 (fun j => xv (ps j)) i Hi)|].
    change (S 0 n (fun c => P i c * xv (ps c)) = S 0 n (fun q => MM (ps i) q * xv q))%R.
    rewrite <- (S_ps ps (fun q => MM (ps i) q * xv q)%R Rp Ip). apply S_ext. intros j Hj. unfold MM. now rewrite !Iv.
  - intros p q _ _. unfold MM, P. apply nysP_sym.
  - intros y (p & Hpp & Hy). destruct (Onto p Hpp) as (i & Hi & <-).
    replace (quad n MM y) with (quad n P (fun j => y (ps j))).
    + apply (nysP_pd n n1 M V lam w HE Hww m0); auto. exists i. auto.
    + unfold quad. change (S 0 n (fun a => S 0 n (fun b => y (ps a) * P a b * y (ps b))) = S 0 n (fun a => S 0 n (fun b => y a * MM a b * y b)))%R.
      rewrite <- (S_ps ps (fun a => S 0 n (fun b => y a * MM a b * y b))%R Rp Ip). apply S_ext. intros a Ha.
      rewrite <- (S_ps ps (fun b => y (ps a) * MM (ps a) b * y b)%R Rp Ip). apply S_ext. intros b Hb. unfold MM. now rewrite !Iv.
  - destruct FP as (F0 & F1). split.
    + rewrite Hsel by lia. exact F0.
    + intros i Hi. rewrite Hsel by lia. destruct (F1 i Hi) as (A0 & B0 & C0).
      assert (Em : forall j, min_dist big (pt_of dim X) ps (Z.to_nat i) j = min_dist big (pt_of dim X) sel (Z.to_nat i) j) by (intros j; apply min_dist_ext; intros a Ha; apply Hsel; lia).
      split; [exact A0|]. split; intros j Hj; rewrite !Em; auto.
  - exists (fun k c => W k (iv c)). split.
    + intros k c Hkk Hc. destruct (Onto c Hc) as (j & Hj & <-). rewrite Iv by auto. etransitivity; [exact (HW k j Hkk Hj)|].
      destruct (Z.ltb_spec j n1); auto. now replace (n1 + (j - n1)) with j by lia.
    + intros r c Hr Hc. destruct (Onto r Hr) as (i & Hi & <-). destruct (Onto c Hc) as (j & Hj & <-). unfold Nn. rewrite !Iv by auto. etransitivity; [exact (HN i j Hi Hj)|].
      apply S_ext. intros k Hkk. f_equal. rewrite (Ksym (ps i) (ps k)) by (apply Rp; lia). destruct (Z.ltb_spec i n1); auto. now replace (n1 + (i - n1)) with i by lia.
  - assert (Ug : forall k l, 0 <= k < n1 -> 0 <= l < n1 -> S 0 n (fun r => U r k * U r l)%R = (dl k l * nysE lam w k)%R).
    { intros k l Hkk Hl. rewrite <- (S_ps ps (fun r => U r k * U r l)%R Rp Ip). rewrite (S_ext 0 n _ (fun r => U0 r k * U0 r l)%R) by (intros r Hr; unfold U; now rewrite Iv).
      etransitivity; [exact (nysU_gram n n1 M V lam w HE k l Hkk Hl)|]. destruct (Z.eq_dec k l) as [->|Ne]; auto. rewrite dl_diff by auto. ring. }
    split.
    + intros k l Hkk Hl Ne. change (S 0 n (fun r => U r k * U r l)%R = 0%R). rewrite Ug, dl_diff by auto. ring.
    + intros k Hkk. destruct (Hww k Hkk) as [W0|W1].
      * right. split; [|now apply Hwt]. intros r Hr. unfold U, U0. rewrite nysU_C, W0. ring.
      * left. change (S 0 n (fun r => U r k * U r k)%R = 1%R). rewrite Ug, dl_same by auto. unfold nysE. rewrite W1. ring.
    + intros k l Hkl Hl. split; [apply Lp; lia|]. destruct HE as (_ & _ & As). apply As; auto.
    + intros y.
      replace (quad n (fun i j => Nn i j - @rsum Rring 0 n1 (fun k => U i k * lam k * U j k))%R y) with (quad n (fun i j => S 0 n1 (fun p => M i p * M j p) - S 0 n1 (fun k => nysU n1 M V w i k * lam k * nysU n1 M V w j k))%R (fun j => y (ps j))).
      2:{ unfold quad. change (S 0 n (fun a => S 0 n (fun b => y (ps a) * (S 0 n1 (fun p => M a p * M b p) - S 0 n1 (fun k => U0 a k * lam k * U0 b k)) * y (ps b))) = S 0 n (fun a => S 0 n (fun b => y a * (Nn a b - S 0 n1 (fun k => U a k * lam k * U b k)) * y b)))%R.
          rewrite <- (S_ps ps (fun a => S 0 n (fun b => y a * (Nn a b - S 0 n1 (fun k => U a k * lam k * U b k)) * y b))%R Rp Ip). apply S_ext. intros a Ha.
          rewrite <- (S_ps ps (fun b => y (ps a) * (Nn (ps a) b - S 0 n1 (fun k => U (ps a) k * lam k * U b k)) * y b)%R Rp Ip). apply S_ext. intros b Hb. unfold Nn, U. now rewrite !Iv. }
      change (@rsum Rring 0 n (fun i => y i * y i)%R) with (S 0 n (fun i => y i * y i)%R). rewrite <- (S_ps ps (fun i => y i * y i)%R Rp Ip).
      apply (nys_error n n1 Hn10 M V lam w HE Hww).
      * intros k Hkk W0. left. now apply Hwt.
      * assert (0 < 10 * eps)%R by lra. apply Rlt_le. apply Rmult_lt_0_compat; auto. apply Rmult_lt_0_compat; auto.
  - intros i0 j0 Hi0 Hj0. cbv zeta. destruct (Onto i0 Hi0) as (i & Hi & <-). destruct (Onto j0 Hj0) as (j & Hj & <-).
    change (S 0 n (fun l => MM (ps i) l * (S 0 n1 (fun k => U l k * (nys_s nu (lam k) + mu) * U (ps j) k) + eta * (dl l (ps j) - S 0 n1 (fun k => U l k * U (ps j) k))))%R = (eta * dl (ps i) (ps j))%R).
    rewrite <- (S_ps ps (fun l => MM (ps i) l * (S 0 n1 (fun k => U l k * (nys_s nu (lam k) + mu) * U (ps j) k) + eta * (dl l (ps j) - S 0 n1 (fun k => U l k * U (ps j) k))))%R Rp Ip).
    rewrite Hdl by auto. rewrite <- (nysP_inverse n n1 M V lam w HE Hww m0 eta (fun k => nys_s nu (lam k) + mu)%R); auto.
    + apply S_ext. intros l Hl. unfold MM, U. rewrite !Iv, Hdl by auto. reflexivity.
    + intros k Hkk. unfold m0. field. pose proof (Sp k). lra.
Qed.
End Top.
