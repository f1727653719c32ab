(** The AFN preconditioner over the reals: construction and application. *)
From Coq Require Import ZArith QArith Reals List Lia Lra Bool Permutation.
From Verif Require Import Base Mem Num CRing FNum Model_Utils Proof_Build Spec_Lapack Spec_SPD Blk Proof_ULVMath Model_FSAI Spec_FSAI Proof_FSAIKnn Proof_FSAIRow Proof_FSAITop Proof_FSAIApply Proof_FSAIReal Proof_FSAIBuild
  Model_AFN Spec_AFN Proof_FPS Proof_FPSPerm Proof_AFNMath Proof_AFNBuild Proof_AFNApply.
Import ListNotations.
Open Scope Z_scope.

(** ** Permutations *)
Definition inv_perm (n : Z) (ps : Z -> Z) (p : Z) : Z := match find (fun i => ps i =? p) (zrange 0 n) with Some i => i | None => 0 end.
Section Perm.
Variables (n : Z) (ps : Z -> Z).
Hypothesis Hr : forall i, 0 <= i < n -> 0 <= ps i < n.
Hypothesis Hi : forall i j, 0 <= i < n -> 0 <= j < n -> ps i = ps j -> i = j.

Lemma ps_perm : Permutation (map ps (zrange 0 n)) (zrange 0 n).
Proof.
  apply NoDup_Permutation_bis.
  - apply NoDup_map_inj; [|apply NoDup_zrange]. intros a b Ha Hb. apply In_zrange in Ha, Hb. apply Hi; auto.
  - rewrite map_length. auto.
  - intros x Hx. apply in_map_iff in Hx. destruct Hx as (a & <- & Ha). apply In_zrange in Ha. apply In_zrange. auto.
Qed.
Lemma inv_perm_l i : 0 <= i < n -> inv_perm n ps (ps i) = i.
Proof.
  intros H. unfold inv_perm. destruct (find (fun i0 => ps i0 =? ps i) (zrange 0 n)) as [k|] eqn:E.
  - apply find_some in E. destruct E as (E1 & E2). apply In_zrange in E1. apply Z.eqb_eq in E2. auto.
  - pose proof (find_none _ _ E i ltac:(now apply In_zrange)) as C. cbv beta in C. rewrite Z.eqb_refl in C. discriminate.
Qed.
Lemma ps_onto p : 0 <= p < n -> exists i, 0 <= i < n /\ ps i = p.
Proof.
  intros Hp. assert (H : In p (map ps (zrange 0 n))). { eapply Permutation_in; [apply Permutation_sym, ps_perm|]. now apply In_zrange. }
  apply in_map_iff in H. destruct H as (i & E & H). apply In_zrange in H. eauto.
Qed.
Lemma rsum_ps {K : cring} (f : Z -> K) : rsum 0 n (fun i => f (ps i)) = rsum 0 n f.
Proof. unfold rsum. rewrite <- (lsum_map f ps). apply lsum_perm, ps_perm. Qed.
End Perm.

(** ** Sums of squares *)
Lemma rsum_nonneg (f : Z -> R) n : 0 <= n -> (forall k, 0 <= k < n -> (0 <= f k)%R) -> (0 <= @rsum Rring 0 n f)%R /\ forall k, 0 <= k < n -> (f k <= @rsum Rring 0 n f)%R.
Proof.
  intros Hn. pattern n. apply natlike_ind; [| |exact Hn].
  - intros _. rewrite (@rsum_empty Rring) by lia. cbn. split; [lra|intros; lia].
  - clear n Hn. intros n Hn IH Hf. unfold Z.succ. rewrite (@rsum_snoc Rring) by lia. destruct IH as (I1 & I2). { intros; apply Hf; lia. }
    specialize (Hf n ltac:(lia)) as Hk. cbn. split; [lra|]. intros k Hk2. destruct (Z.eq_dec k n) as [->|]; [lra|]. specialize (I2 k ltac:(lia)). lra.
Qed.
Lemma Rring_field (a : Rring) : a <> c0 -> exists s : Rring, cmul s a = c1.
Proof. intros H. exists (/ a)%R. cbn in *. field. exact H. Qed.

(** quad as y^T (A y). *)
Lemma quad_mv n (A : Z -> Z -> R) (y : Z -> R) : quad n A y = @rsum Rring 0 n (fun i => (y i * @rsum Rring 0 n (fun j => A i j * y j))%R).
Proof.
  unfold quad. apply (@rsum_ext Rring). intros i Hi. refine (eq_trans _ (@rsum_mul_l Rring 0 n (y i) (fun j => (A i j * y j)%R))). apply (@rsum_ext Rring). intros j Hj. cbn. ring.
Qed.
(** y^T (W^T W) y = |W y|^2. *)
Lemma quad_gram n (W : Z -> Z -> R) (y : Z -> R) : quad n (fun i j => @rsum Rring 0 n (fun k => W k i * W k j)%R) y =
  @rsum Rring 0 n (fun k => (@rsum Rring 0 n (fun j => W k j * y j) * @rsum Rring 0 n (fun j => W k j * y j))%R).
Proof.
  rewrite quad_mv.
  transitivity (@rsum Rring 0 n (fun i => (y i * @rsum Rring 0 n (fun k => W k i * @rsum Rring 0 n (fun j => W k j * y j)))%R)).
  - apply (@rsum_ext Rring). intros i Hi. f_equal. symmetry. apply (@rsum_assoc Rring n n (fun k => W k i) W y).
  - etransitivity; [apply (@rsum_assoc Rring n n y (fun i k => W k i) (fun k => @rsum Rring 0 n (fun j => W k j * y j)%R))|].
    apply (@rsum_ext Rring). intros k Hk. cbn. f_equal. apply (@rsum_ext Rring). intros j Hj. cbn. ring.
Qed.

(** A leading block of a positive definite matrix. *)
Lemma pd_leading n k (A : Z -> Z -> R) : 0 <= k <= n -> pos_def n A -> pos_def k A.
Proof.
  intros Hk PD y (i & Hi & Hy). set (y0 := fun j => if j <? k then y j else 0%R).
  assert (E : quad k A y = quad n A y0).
  { assert (In0 : forall a f, (forall j, 0 <= j < k -> f j = (y a * A a j * y j)%R) -> (forall j, k <= j < n -> f j = 0%R) -> @rsum Rring 0 k (fun j => y a * A a j * y j)%R = @rsum Rring 0 n f).
    { intros a f H1 H2. rewrite (@rsum_split Rring 0 k n f) by lia. rewrite (@rsum_zero Rring k n f) by auto. cbn. rewrite Rplus_0_r. apply (@rsum_ext Rring). intros j Hj. symmetry. auto. }
    unfold quad. rewrite (@rsum_split Rring 0 k n) by lia. rewrite (@rsum_zero Rring k n).
    - cbn. rewrite Rplus_0_r. apply (@rsum_ext Rring). intros a Ha. apply In0; intros j Hj; unfold y0; destruct (Z.ltb_spec a k), (Z.ltb_spec j k); try lia; auto. ring.
    - intros a Ha. apply (@rsum_zero Rring). intros j Hj. unfold y0. destruct (Z.ltb_spec a k); [lia|]. cbn. ring. }
  rewrite E. apply PD. exists i. split; [lia|]. unfold y0. destruct (Z.ltb_spec i k); [auto|lia].
Qed.

(** FSAI factors are lower triangular with invertible diagonal. *)
Lemma fsai_tri {K : cring} n (S : Z -> Z -> K) nb G m : (forall i, 0 <= i < n -> nbr_list m i (nb i)) -> fsai_rows n S nb G ->
  (forall i j, 0 <= i < n -> 0 <= j < n -> i < j -> G i j = c0) /\ forall i, 0 <= i < n -> exists s, cmul s (G i i) = c1.
Proof.
  intros Hnb HG. split.
  - intros i j Hi Hj Hl. destruct (HG i Hi) as (G1 & _). apply G1. intros Hin. destruct (Hnb i Hi) as (_ & _ & Hr & _). specialize (Hr j Hin). lia.
  - intros i Hi. destruct (HG i Hi) as (G1 & G2 & G3). exists (rsum 0 n (fun j => cmul (S i j) (G i j))).
    rewrite (rsum_only 0 n _ i) in G3; auto.
    + rewrite <- G3. apply (Rmul_comm (cth K)).
    + intros r Hr Hne. destruct (in_dec Z.eq_dec r (nb i)) as [Hin|Hin].
      * rewrite G2 by auto. rewrite (Rmul_comm (cth K)). apply (ARmul_0_l (Rth_ARth (Eqsth _) (Eq_ext _ _ _) (cth K))).
      * rewrite G1 by auto. apply (ARmul_0_l (Rth_ARth (Eqsth _) (Eq_ext _ _ _) (cth K))).
Qed.

(** The application of [a] is x -> M x in the user's order, whatever y and the
    work arrays contain; the work arrays keep their size. *)
Definition afn_applies (a : afn Rring) (n : Z) (M : Z -> Z -> R) : Prop :=
  forall (x y px py t1 t2 : mem Rring) (xv : Z -> R), (forall j, 0 <= j < n -> ld x j = Some (xv j)) -> n <= zlen y ->
    zlen px = n -> zlen py = n -> zlen t1 = n -> zlen t2 = n ->
    exists y' px' py' t1' t2', AFN_precond_apply (K := Rring) a x y px py t1 t2 = Some (y', (px', py', t1', t2')) /\
      zlen px' = n /\ zlen py' = n /\ zlen t1' = n /\ zlen t2' = n /\ zlen y' = zlen y /\
      (forall i, 0 <= i < n -> ld y' i = Some (@rsum Rring 0 n (fun j => M i j * xv j)%R)) /\ forall c, ~ 0 <= c < n -> ld y' c = ld y c.

(** All orders of the parallel regions. *)
Definition afn_orders (nt n1 n2 : Z) (o : afn_ord) : Prop :=
  (forall i, any_order nt (ao_fps o i)) /\ any_order nt (ao_k11 o) /\ any_order nt (ao_k12 o) /\
  any_order n2 (fo_knn (ao_fsai o)) /\ any_order n2 (fo_row (ao_fsai o)) /\ any_order n2 (fo_cpy (ao_fsai o)) /\ any_order n2 (fo_G (ao_fsai o)) /\ any_order n2 (fo_GT (ao_fsai o)).

Section Top.
Context {F : num}.
Variable kern : list F -> list F -> Z -> Z -> Rring.
Variable la : lapack Rring.
Hypothesis LA : lapack_ok la.
Hypothesis LE : lapack_exact la.
Variable big : F.
Hypothesis HT : total_lt (nlt (n := F)).
Variables (n dim : Z) (coord : mem F) (X : Z -> Z -> F).
Hypothesis Hdim : 0 <= dim.
Hypothesis HX : coords_at coord 0 n n dim X.
Variable mu : R.
(** The matrix K(X, X) + mu I. *)
Definition afn_matrix (i j : Z) : R := (kern (pt_of dim X i) (pt_of dim X j) 0%Z 0%Z + mu * @delta Rring i j)%R.
Hypothesis Ksym : forall i j, 0 <= i < n -> 0 <= j < n -> kern (pt_of dim X i) (pt_of dim X j) 0 0 = kern (pt_of dim X j) (pt_of dim X i) 0 0.
Hypothesis PD : pos_def n afn_matrix.
Hypothesis Hdist : distinct_points big n dim X.

Theorem AFN_spec nt max_k m est_rank nys o : 1 <= nt <= n -> 1 <= max_k < n -> max_k <= est_rank -> 1 <= m -> afn_orders nt max_k (n - max_k) o ->
  exists a M, AFN_precond_build kern la Rrsq big nt n dim coord mu max_k m est_rank nys o = Some a /\
    a_n a = n /\ afn_applies a n M /\ (forall i j, 0 <= i < n -> 0 <= j < n -> M i j = M j i) /\ pos_def n M /\
    (n - max_k <= m -> forall i j, 0 <= i < n -> 0 <= j < n -> @rsum Rring 0 n (fun k => afn_matrix i k * M k j)%R = @delta Rring i j).
Proof.
  intros Hnt Hk Her Hm (O1 & O2 & O3 & O4 & O5 & O6 & O7 & O8). unfold AFN_precond_build.
  destruct (Z.ltb_spec est_rank max_k); [lia|]. set (n1 := max_k) in *. set (n2 := n - n1) in *.
  assert (Za : zlen (alloc (A := Z) n) = n) by (apply zlen_alloc; lia).
  destruct (FPS_spec big HT n dim coord X Hdim HX nt (ao_fps o) Hnt O1 n1 (alloc n)) as (idx & sel & E1 & Z1 & L1 & FP). { rewrite Za. lia. }
  rewrite E1. cbn [bind]. destruct (farthest_distinct big HT n dim X Hdist n1 sel ltac:(lia) FP) as (Rs & Is).
  destruct (fps_perm_spec n n1 idx sel) as (perm & ps & E2 & PO & _); auto; try lia. rewrite E2. cbn [bind].
  pose proof PO as (Zp & Hp & Ip). assert (Rp : forall i, 0 <= i < n -> 0 <= ps i < n) by (intros; now apply Hp).
  destruct (gather_spec dim n coord 0 n perm 0 ps X (alloc (n * dim)) n) as (cp & E3 & Z3 & L3); auto; try lia.
  { rewrite zlen_alloc by nia. lia. }
  { intros a Ha. rewrite Z.add_0_l. now apply Hp. }
  { intros a d Ha Hd. rewrite <- (HX (ps a) d) by auto. f_equal. lia. }
  rewrite E3. cbn [bind]. set (Xp := fun j d => X (ps j) d).
  assert (HXp : coords_at cp 0 n n dim Xp). { intros j d Hj Hd. unfold Xp. rewrite Z.add_0_l. now apply L3. }
  assert (HX1 : coords_at cp 0 n n1 dim Xp) by (intros j d Hj Hd; apply HXp; lia).
  set (X2 := fun j d => Xp (n1 + j) d).
  assert (HX2 : coords_at cp n1 n n2 dim X2). { intros j d Hj Hd. unfold X2. rewrite <- (HXp (n1 + j) d) by lia. f_equal. lia. }
  destruct (eval_OMP_spec kern nt (ao_k11 o) dim cp 0 n n1 Xp cp 0 n n1 Xp (alloc (n1 * n1))) as (K11 & E4 & Z4 & H4); auto; try lia. { rewrite zlen_alloc; nia. }
  rewrite zlen_alloc in Z4 by nia. rewrite E4. cbn [bind].
  destruct (eval_OMP_spec kern nt (ao_k12 o) dim cp 0 n n1 Xp cp n1 n n2 X2 (alloc (n1 * n2))) as (K12 & E5 & Z5 & H5); auto; try lia. { rewrite zlen_alloc; nia. }
  rewrite zlen_alloc in Z5 by nia. rewrite E5. cbn [bind].
  set (A := fun i j => afn_matrix (ps i) (ps j)).
  assert (Hdl : forall i j, 0 <= i < n -> 0 <= j < n -> @delta Rring (ps i) (ps j) = @delta Rring i j).
  { intros i j Hi Hj. unfold delta. destruct (Z.eqb_spec (ps i) (ps j)) as [Eq|Ne], (Z.eqb_spec i j); auto; [apply Ip in Eq; lia|subst; lia]. }
  assert (Asym : forall i j, 0 <= i < n -> 0 <= j < n -> A i j = A j i).
  { intros i j Hi Hj. unfold A, afn_matrix. rewrite Ksym by auto. unfold delta. now rewrite Z.eqb_sym. }
  assert (PDA : pos_def n A).
  { intros y (i & Hi & Hy). set (y' := fun p => y (inv_perm n ps p)).
    replace (quad n A y) with (quad n afn_matrix y').
    - apply PD. exists (ps i). split; auto. unfold y'. now rewrite inv_perm_l.
    - unfold quad. rewrite <- (rsum_ps n ps Rp Ip). apply (@rsum_ext Rring). intros a Ha. rewrite <- (rsum_ps n ps Rp Ip). apply (@rsum_ext Rring). intros b Hb. unfold y', A. now rewrite !inv_perm_l by auto. }
  assert (Hn12 : (n1 + n2)%Z = n) by (unfold n2; lia).
  destruct (AFN_pre_spec kern la LA Rring_field n1 n2 A (fun i j => kern (pt_of dim Xp i) (pt_of dim Xp j) 0 0) mu K11 K12 cp dim m (ao_fsai o) Rrsq) as (invK11 & K12' & V21 & iL & inv & V & E6 & HI & HK & HV & Hinv & HA & HiL & HVV); auto; try lia.
  { rewrite Hn12. auto. }
  { intros i j Hi Hj. unfold A, afn_matrix. rewrite Hdl by lia. reflexivity. }
  { eapply holds_ext; [exact H5|]. intros i j Hi Hj. cbv beta. unfold afn_K12, A, afn_matrix. rewrite Hdl by lia. unfold delta. destruct (Z.eqb_spec i (n1 + j)); [lia|]. cbn. rewrite Rmult_0_r, Rplus_0_r. reflexivity. }
  { intros B HB. destruct (Z.eq_dec (fst (l_potrf la n1 B)) 0) as [|Ne]; auto. exfalso.
    destruct (le_chol la LE n1 B ltac:(lia)) with (2 := Ne) as (y & Hy & Hq). { intros i j Hi Hj. rewrite !HB by auto. apply Asym; lia. }
    pose proof (pd_leading n n1 A ltac:(lia) PDA y Hy) as P.
    replace (quad n1 B y) with (quad n1 A y) in Hq; [lra|].
    unfold quad. apply (@rsum_ext Rring). intros i Hi. apply (@rsum_ext Rring). intros j Hj. rewrite HB by auto. reflexivity. }
  rewrite E6. clear E6.
  set (S := schur (K := Rring) kern dim X2 n1 V mu).
  assert (HS : forall r c, 0 <= r < n2 -> 0 <= c < n2 -> S r c = afn_S (K := Rring) n1 A inv r c).
  { intros r c Hr Hc. unfold S, schur, afn_S. rewrite HVV by auto. f_equal. unfold A, afn_matrix. rewrite Hdl by lia. unfold X2, Xp. f_equal. unfold delta. destruct (Z.eqb_spec r c), (Z.eqb_spec (n1 + r) (n1 + c)); auto; lia. }
  assert (PDS : pos_def n2 S).
  { intros y (r & Hr & Hy).
    assert (Q : quad n A (afn_ext (K := Rring) n1 n2 A inv y) = quad n2 S y).
    { rewrite !quad_mv. etransitivity; [|etransitivity; [apply (afn_schur_quad (K := Rring) n1 n2 ltac:(lia) ltac:(lia) A inv ltac:(rewrite Hn12; exact Asym) HA y)|]].
      - rewrite Hn12. reflexivity.
      - apply (@rsum_ext Rring). intros i Hi. apply (f_equal (fun t => (y i * t)%R)). apply (@rsum_ext Rring). intros j Hj. rewrite HS by auto. reflexivity. }
    rewrite <- Q. apply PDA. exists (n1 + r). split; [lia|]. unfold afn_ext. destruct (Z.ltb_spec (n1 + r) n1); [lia|]. now replace (n1 + r - n1) with r by lia. }
  destruct (FSAI_build_pd kern la m n2 dim cp n1 (n1 + n2) X2 n1 V21 V mu (ao_fsai o)) as (g & G & nb & E7 & C1 & C2 & Hnb & HG); auto; try lia.
  { rewrite Hn12. auto. }
  { intros r c Hr Hc. unfold X2, Xp. apply Ksym; apply Rp; lia. }
  match goal with |- context [bind ?t _] => replace t with (Some g) by (symmetry; exact E7) end. cbn [bind].
  set (W := afn_W (K := Rring) n1 n2 A iL inv G).
  set (M := fun p q => @rsum Rring 0 n (fun k => W k (inv_perm n ps p) * W k (inv_perm n ps q))%R).
  assert (HW : forall xv i, 0 <= i < n -> afn_y (K := Rring) n1 n2 A inv G (fun j => xv (ps j)) i = @rsum Rring 0 n (fun q => M (ps i) q * xv q)%R).
  { intros xv i Hi. rewrite (afn_y_W (K := Rring) n1 n2 ltac:(lia) ltac:(lia) A iL inv G Hinv) by lia. rewrite Hn12. fold W.
    etransitivity; [apply (@rsum_assoc Rring)|]. rewrite <- (rsum_ps n ps Rp Ip (fun q => (M (ps i) q * xv q)%R : Rring)). apply (@rsum_ext Rring). intros j Hj. unfold M. rewrite !inv_perm_l by auto. reflexivity. }
  assert (Winj : forall x, (forall k, 0 <= k < n -> @rsum Rring 0 n (fun j => W k j * x j)%R = 0%R) -> forall i, 0 <= i < n -> x i = 0%R).
  { intros x H0. assert (Lo : forall i, 0 <= i < n1 -> x i = 0%R).
    { apply HiL. intros k Hkk. etransitivity; [|apply (H0 k); lia]. unfold W. symmetry. pose proof (afn_W_lo (K := Rring) n1 n2 ltac:(lia) ltac:(lia) A iL inv G x k Hkk) as Q. rewrite Hn12 in Q. exact Q. }
    destruct (fsai_tri n2 S nb G m) as (T1 & T2); auto. { intros i Hi. apply (Hnb i Hi). }
    assert (Hu : forall r, 0 <= r < n2 -> afn_u (K := Rring) n1 A inv x r = 0%R).
    { apply (tri_inj (K := Rring) n2 G); auto. intros k Hkk. etransitivity; [|apply (H0 (n1 + k)); lia]. unfold W. symmetry. pose proof (afn_W_hi (K := Rring) n1 n2 ltac:(lia) ltac:(lia) A iL inv G x k Hkk) as Q. rewrite Hn12 in Q. exact Q. }
    intros i Hi. destruct (Z.lt_ge_cases i n1); [apply Lo; lia|]. specialize (Hu (i - n1) ltac:(lia)). unfold afn_u in Hu. replace (n1 + (i - n1)) with i in Hu by lia.
    rewrite (rsum_zero (K := Rring) 0 n1) in Hu; [cbn in Hu; lra|]. intros l Hl. cbn. rewrite (rsum_zero (K := Rring) 0 n1); [cbn; ring|]. intros j Hj. cbn. rewrite Lo by auto. ring. }
  exists (Afn n n1 n2 perm (IsAfn invK11 K12' g)), M. split; [reflexivity|]. split; [reflexivity|]. split; [|split; [|split]].
  - intros x y px py t1 t2 xv Hx Zy Zpx Zpy Zt1 Zt2.
    destruct (AFN_apply_spec (K := Rring) n1 n2 A inv G ltac:(lia) ltac:(lia) invK11 K12' g HI HK C1 C2 perm ps ltac:(rewrite Hn12; auto) x y px py t1 t2 xv) as (y' & px' & py' & t1' & t2' & E & Q1 & Q2 & Q3 & Q4 & Q5 & Q6 & Q7); rewrite ?Hn12; auto.
    rewrite Hn12 in *. exists y', px', py', t1', t2'. split; [exact E|]. do 5 (split; [assumption|]). split; [|assumption].
    intros p Hpp. destruct (ps_onto n ps Rp Ip p Hpp) as (i & Hi & <-). rewrite Q6 by auto. now rewrite HW.
  - intros i j Hi Hj. unfold M. apply (@rsum_ext Rring). intros k Hkk. cbn. ring.
  - intros y (p & Hpp & Hy).
    assert (Q : quad n M y = @rsum Rring 0 n (fun k => (@rsum Rring 0 n (fun j => W k j * y (ps j)) * @rsum Rring 0 n (fun j => W k j * y (ps j)))%R)).
    { rewrite <- (quad_gram n W (fun j => y (ps j))). unfold quad. rewrite <- (rsum_ps n ps Rp Ip). apply (@rsum_ext Rring). intros a Ha. rewrite <- (rsum_ps n ps Rp Ip). apply (@rsum_ext Rring). intros b Hb. unfold M. now rewrite !inv_perm_l by auto. }
    rewrite Q. clear Q. set (w := fun k => @rsum Rring 0 n (fun j => (W k j * y (ps j))%R)).
    destruct (rsum_nonneg (fun k => (w k * w k)%R) n ltac:(lia)) as (P1 & P2). { intros k Hkk. cbv beta. nra. }
    destruct (Rle_lt_or_eq_dec _ _ P1) as [|E0]; auto. exfalso. apply Hy. destruct (ps_onto n ps Rp Ip p Hpp) as (i & Hi & <-).
    apply (Winj (fun j => y (ps j))); auto. intros k Hkk. specialize (P2 k Hkk). cbv beta in P2. rewrite <- E0 in P2. change (w k = 0%R). nra.
  - intros Hfull i j Hi Hj. destruct (ps_onto n ps Rp Ip i Hi) as (a & Ha & <-). destruct (ps_onto n ps Rp Ip j Hj) as (b & Hb & <-).
    assert (HGS : forall r c, 0 <= r < n2 -> 0 <= c < n2 -> @rsum Rring 0 n2 (fun j => cmul (afn_S (K := Rring) n1 A inv r j) (rsum 0 n2 (fun i => cmul (G i j) (G i c)))) = delta r c).
    { intros r c Hr Hc. rewrite <- (fsai_full_inverse (K := Rring) n2 S nb G); auto.
      - apply rsum_ext. intros k Hkk. now rewrite HS.
      - intros r0 c0 H0 H1. rewrite !HS by auto. apply (afn_S_sym (K := Rring) n1 n2 ltac:(lia) A iL inv); auto. rewrite Hn12. exact Asym.
      - intros k Hkk. apply (nearest_full m n2 (pt_of dim X2)); auto. }
    pose proof (afn_exact (K := Rring) n1 n2 ltac:(lia) ltac:(lia) A inv G ltac:(rewrite Hn12; exact Asym) HA (fun q => @delta Rring (ps b) (ps q)) HGS a ltac:(lia)) as Q.
    rewrite Hn12 in Q. cbv beta in Q. refine (eq_trans _ (eq_trans Q _)).
    + rewrite <- (rsum_ps n ps Rp Ip). apply (@rsum_ext Rring). intros k Hkk. unfold A. cbn. f_equal.
      rewrite (HW (fun q => @delta Rring (ps b) q)) by auto. rewrite (rsum_only (K := Rring) 0 n _ (ps b)); auto.
      * unfold delta. rewrite Z.eqb_refl. symmetry. apply Rmult_1_r.
      * intros l Hl Hne. unfold delta. destruct (Z.eqb_spec (ps b) l); [lia|]. apply Rmult_0_r.
    + unfold delta. now rewrite Z.eqb_sym.
Qed.
End Top.
