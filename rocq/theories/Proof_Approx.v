(** The error of a product with approximately interpolating bases. *)
From Coq Require Import ZArith QArith List Lia Bool Permutation Reals Lra.
From Verif Require Import Base Mem Num CRing FNum Conc Model_Utils Spec_Utils Proof_Utils Model_Dense Spec_Dense Proof_Dense Model_CSR Spec_CSR Model_Partition Spec_Tree Spec_Partition
  Model_Pairs Spec_Pairs Proof_Pairs Proof_PairsTop Props_Partition Props_Pairs Model_Matvec Spec_Matvec Proof_MvTree Proof_MvCor Proof_MvMid Proof_MvTop Model_Build Spec_Build Proof_Build Proof_BuildFill Proof_BuildTop Proof_BuildUse
  Model_ID Spec_ID Proof_IDMath Model_UJ Spec_UJ Spec_Approx.
Import ListNotations.
Open Scope Z_scope.

Lemma zcount_one {A} (f : A -> bool) l : zcount f l = 1 -> exists k x, getz l k = Some x /\ f x = true /\ forall k' x', getz l k' = Some x' -> f x' = true -> k' = k.
Proof.
  assert (Z0 : forall m : list A, zcount f m = 0 -> forall k x, getz m k = Some x -> f x = true -> False).
  { induction m as [|x l0 IH]; intros H k y G Fy; [apply getz_range in G; zlia|]. rewrite zcount_cons in H. pose proof (zcount_nonneg f l0).
    apply getz_cons_if in G as [[-> ->]|[_ G]]; [rewrite Fy in H; lia|]. apply (IH ltac:(destruct (f x); lia) _ _ G Fy). }
  induction l as [|x l IH]; intros H; [discriminate|]. rewrite zcount_cons in H. pose proof (zcount_nonneg f l). destruct (f x) eqn:E.
  - exists 0, x. split; [reflexivity|]. split; auto. intros k' x' G Fx. apply getz_cons_if in G as [[-> ->]|[_ G]]; auto. exfalso. apply (Z0 l ltac:(lia) _ _ G Fx).
  - destruct (IH ltac:(lia)) as (k & y & G & Fy & Uq). pose proof (getz_range _ _ _ G). exists (k + 1), y. split; [rewrite getz_cons by lia; now replace (k + 1 - 1) with k by lia|]. split; auto.
    intros k' x' G' Fx. apply getz_cons_if in G' as [[-> ->]|[_ G']]; [congruence|]. specialize (Uq _ _ G' Fx). lia.
Qed.
Lemma zcount_zero {A} (f : A -> bool) l : zcount f l = 0 -> forall k x, getz l k = Some x -> f x = false.
Proof.
  induction l as [|x l IH]; intros H k y G; [apply getz_range in G; zlia|]. rewrite zcount_cons in H. pose proof (zcount_nonneg f l).
  apply getz_cons_if in G as [[-> ->]|[_ G]]; [destruct (f x); auto; lia|]. apply (IH ltac:(destruct (f x); lia) _ _ G).
Qed.

Section Cases.
Context {F : num} {K : cring}.
Variable h : h2rep F K.
Hypothesis R : rep_ok h.
Add Ring Kring : (cth K).
Local Open Scope ring_K.

(** Every entry of the matrix comes from one block. *)
Lemma Hmat_cases KM p q : covered_once h ->
  (forall k p q, 0 <= k < h_nleaf h -> inside h (leaf h k) p = true -> inside h (leaf h k) q = true ->
     Dval h k (p - mfirst h (leaf h k)) (q - mfirst h (leaf h k)) = KMp h KM p q) ->
  (forall k n0 n1 p q, getz (h_inadm h) k = Some (n0, n1) -> inside h n0 p = true -> inside h n1 q = true ->
     Dval h (h_nleaf h + k) (p - mfirst h n0) (q - mfirst h n1) = KMp h KM p q) ->
  (forall i j, KM i j = KM j i) -> 0 <= p < h_kms h -> 0 <= q < h_kms h ->
  Hmat h p q = KMp h KM p q \/
  exists k n0 n1, getz (h_adm h) k = Some (n0, n1) /\
    (inside h n0 p = true /\ inside h n1 q = true /\ Hmat h p q = adm_block h k p q \/
     inside h n0 q = true /\ inside h n1 p = true /\ Hmat h p q = adm_block h k q p).
Proof.
  intros Cov X1 X2 Sym Hp Hq.
  assert (SymP : KMp h KM q p = KMp h KM p q) by apply Sym. set (v := KMp h KM p q) in *.
  assert (Dg : rsum 0 (h_nleaf h) (fun k => diag_block h k p q) = rsum 0 (h_nleaf h) (fun k => if inside h (leaf h k) p && inside h (leaf h k) q then v else c0)).
  { apply rsum_ext. intros k Hk. unfold diag_block. destruct (inside h (leaf h k) p) eqn:E1; auto. destruct (inside h (leaf h k) q) eqn:E2; auto. cbn [andb]. apply X1; auto. }
  assert (HP : 0 <= p / h_kdim h < h_npoint h).
  { destruct (ro_dims _ R) as (_ & D2 & _ & _ & Dk & _). split; [apply Z.div_pos; lia|apply Z.div_lt_upper_bound; lia]. }
  assert (HQ : 0 <= q / h_kdim h < h_npoint h).
  { destruct (ro_dims _ R) as (_ & D2 & _ & _ & Dk & _). split; [apply Z.div_pos; lia|apply Z.div_lt_upper_bound; lia]. }
  destruct (diag_total h R v p q Hp Hq) as [D1 D0].
  destruct (pairs_total h R (h_inadm h) (inadm_block h) v p q) as [I0 I1].
  { intros k n0 n1 Hk. apply (ro_inadm _ R _ _ _ Hk). }
  { intros k n0 n1 Hk. unfold inadm_block. rewrite Hk. destruct (inside h n0 p) eqn:E1; auto. destruct (inside h n1 q) eqn:E2; auto. cbn [andb]. apply (X2 _ _ _ _ _ Hk); auto. }
  { intros k n0 n1 Hk. unfold inadm_block. rewrite Hk. destruct (inside h n0 q) eqn:E1; auto. destruct (inside h n1 p) eqn:E2; auto. cbn [andb]. rewrite <- SymP. apply (X2 _ _ _ _ _ Hk); auto. }
  assert (Rg : forall k n0 n1, getz (h_adm h) k = Some (n0, n1) -> 0 <= n0 < h_nnode h /\ 0 <= n1 < h_nnode h).
  { intros k n0 n1 Hk. destruct (ro_adm _ R _ _ _ Hk) as (? & ? & _); auto. }
  cbv zeta in *. specialize (Cov _ _ HP HQ). cbv beta zeta in Cov.
  assert (IO : forall n0 n1 x y, 0 <= n0 < h_nnode h -> 0 <= n1 < h_nnode h -> inside h n0 x && inside h n1 y = owns (h_t h) n0 (x / h_kdim h) && owns (h_t h) n1 (y / h_kdim h)).
  { intros n0 n1 x y H0 H1. now rewrite !(inside_owns h R) by auto. }
  assert (A0 : forall x y, coverage (h_t h) (h_adm h) (x / h_kdim h) (y / h_kdim h) = 0 -> rsum 0 (zlen (h_adm h)) (fun k => adm_block h k x y) = c0).
  { intros x y H. apply rsum_zero. intros k Hk. destruct (getz_in _ _ Hk) as [[n0 n1] G]. apply (adm_block_support h R k n0 n1); auto. destruct (Rg _ _ _ G). rewrite IO by auto.
    unfold coverage in H. apply (zcount_zero _ _ H k (n0, n1) G). }
  assert (A1 : forall x y, coverage (h_t h) (h_adm h) (x / h_kdim h) (y / h_kdim h) = 1 -> exists k n0 n1, getz (h_adm h) k = Some (n0, n1) /\ inside h n0 x = true /\ inside h n1 y = true /\
     rsum 0 (zlen (h_adm h)) (fun k => adm_block h k x y) = adm_block h k x y).
  { intros x y H. unfold coverage in H. destruct (zcount_one _ _ H) as (k & [n0 n1] & G & Fx & Uq). destruct (Rg _ _ _ G) as [R0 R1]. exists k, n0, n1. split; auto.
    pose proof Fx as Fx'. rewrite <- (IO n0 n1 x y) in Fx' by auto. apply andb_true_iff in Fx' as [F0 F1]. split; auto. split; auto.
    apply (rsum_only 0 (zlen (h_adm h)) (fun k => adm_block h k x y) k (getz_range _ _ _ G)). intros k' Hk' Hne. destruct (getz_in _ _ Hk') as [[m0 m1] G']. destruct (Rg _ _ _ G').
    apply (adm_block_support h R k' m0 m1); auto. rewrite IO by auto. apply not_true_iff_false. intros X. apply Hne. apply (Uq _ _ G' X). }
  unfold Hmat. rewrite Dg. destruct Cov as [(SL & C1 & C2)|(SL & [(C1 & C2)|(C1 & C2)])].
  - left. assert (coverage (h_t h) (h_adm h) (p / h_kdim h) (q / h_kdim h) = 0 /\ coverage (h_t h) (h_adm h) (q / h_kdim h) (p / h_kdim h) = 0) as [Ca Cb].
    { unfold coverage in *. match type of C1 with (zcount ?f ?l + zcount ?g ?l)%Z = 0 => pose proof (zcount_nonneg f l); pose proof (zcount_nonneg g l) end. split; lia. }
    rewrite D1, I0, rsum_add, (A0 _ _ Ca), (A0 _ _ Cb) by auto. ring.
  - right. rewrite D0, I0, rsum_add by auto.
    assert (coverage (h_t h) (h_adm h) (p / h_kdim h) (q / h_kdim h) = 1 /\ coverage (h_t h) (h_adm h) (q / h_kdim h) (p / h_kdim h) = 0 \/
            coverage (h_t h) (h_adm h) (p / h_kdim h) (q / h_kdim h) = 0 /\ coverage (h_t h) (h_adm h) (q / h_kdim h) (p / h_kdim h) = 1) as [[Ca Cb]|[Ca Cb]].
    { unfold coverage in *. match type of C1 with (zcount ?f ?l + zcount ?g ?l)%Z = _ => pose proof (zcount_nonneg f l); pose proof (zcount_nonneg g l) end. lia. }
    + destruct (A1 _ _ Ca) as (k & n0 & n1 & G & F0 & F1 & E). exists k, n0, n1. split; auto. left. split; auto. split; auto. rewrite E, (A0 _ _ Cb). ring.
    + destruct (A1 _ _ Cb) as (k & n0 & n1 & G & F0 & F1 & E). exists k, n0, n1. split; auto. right. split; auto. split; auto. rewrite E, (A0 _ _ Ca). ring.
  - left. assert (coverage (h_t h) (h_adm h) (p / h_kdim h) (q / h_kdim h) = 0 /\ coverage (h_t h) (h_adm h) (q / h_kdim h) (p / h_kdim h) = 0) as [Ca Cb].
    { unfold coverage in *. match type of C1 with (zcount ?f ?l + zcount ?g ?l)%Z = 0 => pose proof (zcount_nonneg f l); pose proof (zcount_nonneg g l) end. split; lia. }
    rewrite D0, I1, rsum_add, (A0 _ _ Ca), (A0 _ _ Cb) by auto. ring.
Qed.
End Cases.

(** ** Sums of absolute values *)
Lemma sumR_abs lo hi (f : Z -> R) : (Rabs (sumR lo hi f) <= sumR lo hi (fun k => Rabs (f k)))%R.
Proof.
  destruct (Z.le_gt_cases hi lo) as [H|H]; [rewrite !sumR_empty by lia; rewrite Rabs_R0; lra|].
  replace hi with (lo + Z.of_nat (Z.to_nat (hi - lo))) by lia. induction (Z.to_nat (hi - lo)) as [|n IH]; [rewrite !sumR_empty by lia; rewrite Rabs_R0; lra|].
  rewrite Nat2Z.inj_succ. replace (lo + Z.succ (Z.of_nat n)) with (lo + Z.of_nat n + 1) by lia. rewrite !sumR_snoc by lia. eapply Rle_trans; [apply Rabs_triang|]. lra.
Qed.
Lemma sumR_le lo hi (f g : Z -> R) : (forall k, lo <= k < hi -> (f k <= g k)%R) -> (sumR lo hi f <= sumR lo hi g)%R.
Proof.
  intros H. assert (0 <= sumR lo hi (fun k => g k - f k)%R)%R by (apply sumR_nonneg; intros k Hk; specialize (H k Hk); lra). rewrite sumR_sub in H0. lra.
Qed.
Lemma sumR_weighted lo hi (a e : Z -> R) eps : (0 <= eps)%R -> (forall k, lo <= k < hi -> (Rabs (e k) <= eps)%R) -> (Rabs (sumR lo hi (fun k => a k * e k)) <= sumR lo hi (fun k => Rabs (a k)) * eps)%R.
Proof.
  intros He H. eapply Rle_trans; [apply sumR_abs|]. rewrite <- sumR_mul_r. apply sumR_le. intros k Hk. rewrite Rabs_mult. apply Rmult_le_compat_l; [apply Rabs_pos|auto].
Qed.

Section Approx.
Context {F : num}.
Variable h : h2rep F Rring.
Hypothesis R_ok : rep_ok h.
Variables (js : Z -> list Z) (KM : Z -> Z -> R) (eps lam : R).
Hypothesis Sym : forall i j, KM i j = KM j i.
Hypothesis HI : interpolates_up_to h js KM eps.
Hypothesis HB : @blocks_are_kernel F Rring h js KM.
Hypothesis Hown : forall i c, 0 <= i < h_nnode h -> h_minlevel h <= level h i -> 0 <= c < rank h i -> inside h i (skel_row h js i c) = true.
Hypothesis Hlam : row_sums_below h lam.
Hypothesis Heps : (0 <= eps)%R.
Hypothesis Hlam1 : (1 <= lam)%R.
Notation kmp := (@KMp F Rring h KM).
Notation bas := (@basis F Rring h).
Notation uval := (@Uval F Rring h).

Definition depth_err (i : Z) : R := (eps * (1 + IZR (h_maxlevel h - level h i) * lam))%R.

Lemma level_le i : 0 <= i < h_nnode h -> level h i <= h_maxlevel h.
Proof.
  intros Hi. destruct (ct_node _ _ _ _ _ _ (ro_tree _ R_ok) i Hi) as (s & e & l & hh & nc & (_ & _ & D & _) & _ & _ & H & _). unfold level. rewrite D. cbn [val]. lia.
Qed.

Lemma expand_err i p q : 0 <= i < h_nnode h -> h_minlevel h <= level h i -> far h i q -> inside h i p = true ->
  (Rabs (sumR 0 (rank h i) (fun c => bas i p c * kmp (skel_row h js i c) q) - kmp p q) <= depth_err i)%R.
Proof.
  intros Hi. replace i with (Z.of_nat (Z.to_nat i)) in * by lia. generalize dependent (Z.to_nat i). clear i.
  induction n as [n IH] using lt_wf_ind. intros Hi Hl Hf Hp. set (i := Z.of_nat n) in *. destruct (HI i q Hi Hl Hf) as (I1 & I2).
  pose proof (level_le i Hi) as Hlv.
  destruct (Z.eq_dec (nchild h i) 0) as [Hn|Hn].
  - pose proof (proj1 (inside_iff h _ _) Hp) as Hr. specialize (I1 Hn (p - mfirst h i) ltac:(lia)). replace (mfirst h i + (p - mfirst h i)) with p in I1 by lia.
    rewrite Rabs_minus_sym. rewrite (sumR_ext _ _ _ (fun c => uval i (p - mfirst h i)%Z c * kmp (skel_row h js i c) q)%R).
    2:{ intros c Hc. rewrite (basis_leaf h R_ok) by auto. now rewrite Hp. }
    eapply Rle_trans; [exact I1|]. unfold depth_err. assert (0 <= IZR (h_maxlevel h - level h i))%R by (apply IZR_le; lia).
    assert (0 <= IZR (h_maxlevel h - level h i) * lam)%R by (apply Rmult_le_pos; lra). rewrite <- (Rmult_1_r eps) at 1. apply Rmult_le_compat_l; lra.
  - rewrite (sumR_ext 0 (rank h i) _ (fun c => sumR 0 (nchild h i) (fun k => sumR 0 (rank h (child h i k)) (fun d =>
      bas (child h i k) p d * (uval i (choff h i k + d)%Z c * kmp (skel_row h js i c) q))))%R).
    2:{ intros c Hc. rewrite (basis_node h R_ok) by auto. cbn [cmul Rring]. rewrite <- sumR_mul_r. apply sumR_ext. intros k Hk. rewrite <- sumR_mul_r. apply sumR_ext. intros d Hd. cbn [cmul Rring]. ring. }
    rewrite sumR_swap. destruct (child_of_row h R_ok i p Hi Hn Hp) as (k & Hk & Hin & Hout).
    rewrite (rsum_only (K := Rring) 0 (nchild h i) _ k Hk).
    2:{ intros k' Hk' Hne. apply (sumR_zero 0 (rank h i)). intros c Hc. apply (sumR_zero 0 (rank h (child h i k'))). intros d Hd. rewrite (basis_support h R_ok) by (auto; apply child_at; auto). cbn [c0 Rring]. ring. }
    rewrite sumR_swap. destruct (child_at h R_ok i k Hi Hk) as (_ & Rc & Lt & Lv).
    assert (Hf' : far h (child h i k) q).
    { destruct Hf as (n' & m & A & B & C & D1 & D2 & D3). exists n', m. split; auto. split; auto. split; auto. split; [lia|].
      destruct (cluster_range h R_ok _ Rc) as (_ & M1 & _).
      assert (X1 : inside h i (mfirst h (child h i k)) = true) by (apply (child_inside h R_ok i k); auto; apply (inside_iff h); lia).
      assert (X2 : inside h i (mlast h (child h i k)) = true) by (apply (child_inside h R_ok i k); auto; apply (inside_iff h); unfold msize; unfold msize in M1; lia).
      unfold inside in X1, X2. apply andb_true_iff in X1, X2. lia. }
    pose proof (IH (Z.to_nat (child h i k))) as IH'. rewrite Z2Nat.id in IH' by lia. specialize (IH' ltac:(unfold i in *; lia) Rc ltac:(lia) Hf' Hin).
    set (ch := child h i k) in *.
    set (e := fun d => (sumR 0 (rank h i) (fun c => uval i (choff h i k + d)%Z c * kmp (skel_row h js i c) q) - kmp (skel_row h js ch d) q)%R).
    replace (sumR 0 (rank h ch) (fun j => sumR 0 (rank h i) (fun i0 => bas ch p j * (uval i (choff h i k + j)%Z i0 * kmp (skel_row h js i i0) q))%R) - kmp p q)%R
      with (sumR 0 (rank h ch) (fun d => bas ch p d * e d) + (sumR 0 (rank h ch) (fun d => bas ch p d * kmp (skel_row h js ch d) q) - kmp p q))%R.
    2:{ rewrite <- Rplus_minus_assoc || idtac. unfold Rminus. rewrite <- Rplus_assoc. f_equal. rewrite <- sumR_add. apply sumR_ext. intros d Hd. rewrite sumR_mul_l. unfold e. ring. }
    eapply Rle_trans; [apply Rabs_triang|].
    assert (B1 : (Rabs (sumR 0 (rank h ch) (fun d => bas ch p d * e d)) <= lam * eps)%R).
    { eapply Rle_trans; [apply (sumR_weighted _ _ _ _ eps Heps)|].
      - intros d Hd. unfold e. rewrite Rabs_minus_sym. apply (I2 k d Hk Hd).
      - apply Rmult_le_compat_r; auto. apply (Hlam ch p Rc ltac:(lia) Hin). }
    unfold depth_err in *. rewrite Lv in IH'. replace (IZR (h_maxlevel h - level h i)) with (IZR (h_maxlevel h - (level h i + 1)) + 1)%R by (rewrite <- plus_IZR; f_equal; lia).
    lra.
Qed.

Definition side_err : R := (eps * (1 + IZR (h_maxlevel h - h_minlevel h) * lam))%R.
Lemma side_err_nonneg : (0 <= side_err)%R.
Proof.
  unfold side_err. destruct (ro_dims _ R_ok) as (_ & _ & _ & _ & _ & Hl). assert (0 <= IZR (h_maxlevel h - h_minlevel h))%R by (apply IZR_le; lia).
  apply Rmult_le_pos; auto. assert (0 <= IZR (h_maxlevel h - h_minlevel h) * lam)%R by (apply Rmult_le_pos; lra). lra.
Qed.

Lemma side_err_sum n m p q sz : 0 <= n < h_nnode h -> 0 <= m < h_nnode h -> h_minlevel h <= Z.max (level h n) (level h m) ->
  (In (n, m) (h_adm h) \/ In (m, n) (h_adm h)) -> sz = (if level h m <=? level h n then rank h n else msize h n) ->
  inside h n p = true -> inside h m q = true ->
  (Rabs (sumR 0 sz (fun r => @side F Rring h n m r p * kmp (block_row h js n m r) q) - kmp p q) <= side_err)%R.
Proof.
  intros Hn Hm Hl Hin Hs Hp Hq. unfold side, block_row. destruct (Z.leb_spec (level h m) (level h n)).
  - subst sz. assert (Hf : far h n q) by (exists n, m; split; [auto|]; split; [auto|]; split; [auto|]; lia).
    eapply Rle_trans; [apply (expand_err n p q Hn ltac:(lia) Hf Hp)|]. unfold depth_err, side_err. apply Rmult_le_compat_l; auto. apply Rplus_le_compat_l, Rmult_le_compat_r; [lra|]. apply IZR_le. lia.
  - pose proof (proj1 (inside_iff h _ _) Hp). rewrite (rsum_only (K := Rring) 0 sz _ (p - mfirst h n)); [|lia|intros r Hr Hne; destruct (Z.eqb_spec p (mfirst h n + r)); [exfalso; lia|cbn; ring]].
    replace (mfirst h n + (p - mfirst h n)) with p by lia. rewrite Z.eqb_refl. cbn [c1 Rring]. rewrite Rmult_1_l, Rminus_diag_eq, Rabs_R0 by auto. apply side_err_nonneg.
Qed.

Lemma side_row_sum n m p sz : 0 <= n < h_nnode h -> h_minlevel h <= Z.max (level h n) (level h m) -> sz = (if level h m <=? level h n then rank h n else msize h n) -> inside h n p = true ->
  (sumR 0 sz (fun r => Rabs (@side F Rring h n m r p)) <= lam)%R.
Proof.
  intros Hn Hl Hs Hp. unfold side. destruct (Z.leb_spec (level h m) (level h n)).
  - subst sz. apply (Hlam n p Hn ltac:(lia) Hp).
  - pose proof (proj1 (inside_iff h _ _) Hp). rewrite (rsum_only (K := Rring) 0 sz _ (p - mfirst h n)); [|lia|intros r Hr Hne; destruct (Z.eqb_spec p (mfirst h n + r)); [exfalso; lia|cbn; apply Rabs_R0]].
    replace (mfirst h n + (p - mfirst h n)) with p by lia. rewrite Z.eqb_refl. cbn [c1 Rring]. rewrite Rabs_R1. auto.
Qed.

Lemma adm_block_err k n0 n1 p q : getz (h_adm h) k = Some (n0, n1) -> inside h n0 p = true -> inside h n1 q = true ->
  (Rabs (@adm_block F Rring h k p q - kmp p q) <= side_err * (1 + lam))%R.
Proof.
  intros En Hp Hq. destruct HB as (_ & _ & B3). destruct (ro_adm _ R_ok _ _ _ En) as (N0 & N1 & _ & Hl). destruct (ro_B _ R_ok _ _ _ En) as (ptr & nrow & ncol & P1 & P2 & P3 & P4 & P5 & _).
  assert (Er : Bnrow h k = nrow) by (unfold Bnrow; now rewrite P2). assert (Ec : Bncol h k = ncol) by (unfold Bncol; now rewrite P3).
  pose proof (getz_In _ _ _ En) as Hin. unfold adm_block. rewrite En.
  set (s0 := fun r => @side F Rring h n0 n1 r p). set (s1 := fun c => @side F Rring h n1 n0 c q).
  set (e := fun r => (sumR 0 (Bncol h k) (fun c => s1 c * kmp (block_row h js n1 n0 c) (block_row h js n0 n1 r)) - kmp (block_row h js n0 n1 r) q)%R).
  assert (Sp : forall x y, kmp x y = kmp y x) by (intros; apply Sym).
  replace (rsum (K := Rring) 0 (Bnrow h k) (fun r => rsum (K := Rring) 0 (Bncol h k) (fun c => cmul (c := Rring) (cmul (c := Rring) (side h n0 n1 r p) (Bval h k r c)) (side h n1 n0 c q))))
    with (sumR 0 (Bnrow h k) (fun r => s0 r * e r) + sumR 0 (Bnrow h k) (fun r => s0 r * kmp (block_row h js n0 n1 r) q))%R.
  2:{ rewrite <- sumR_add. apply sumR_ext. intros r Hr. transitivity (s0 r * sumR 0 (Bncol h k) (fun c => s1 c * kmp (block_row h js n1 n0 c) (block_row h js n0 n1 r)))%R; [unfold e; ring|].
      rewrite <- sumR_mul_l. apply sumR_ext. intros c Hc. rewrite (B3 k n0 n1 r c En Hr Hc). rewrite (Sp (block_row h js n0 n1 r)). unfold s0, s1. cbn [cmul Rring]. ring. }
  unfold Rminus. rewrite Rplus_assoc. eapply Rle_trans; [apply Rabs_triang|].
  assert (A1 : (Rabs (sumR 0 (Bnrow h k) (fun r => s0 r * e r)) <= lam * side_err)%R).
  { eapply Rle_trans; [apply (sumR_weighted _ _ _ _ side_err side_err_nonneg)|].
    - intros r Hr. unfold e. rewrite (Sp _ q). apply (side_err_sum n1 n0); auto; [lia|congruence|].
      apply (block_row_inside h js Hown n0 n1 r); auto. rewrite <- P4. lia.
    - apply Rmult_le_compat_r; [apply side_err_nonneg|]. apply side_row_sum; auto. congruence. }
  assert (A2 : (Rabs (sumR 0 (Bnrow h k) (fun r => s0 r * kmp (block_row h js n0 n1 r) q) - kmp p q) <= side_err)%R) by (apply (side_err_sum n0 n1); auto; congruence).
  unfold Rminus in A2. lra.
Qed.

Lemma Hmat_err p q : covered_once h -> 0 <= p < h_kms h -> 0 <= q < h_kms h -> (Rabs (@Hmat F Rring h p q - kmp p q) <= side_err * (1 + lam))%R.
Proof.
  intros Cov Hp Hq. destruct HB as (B1 & B2 & _).
  assert (Pos : (0 <= side_err * (1 + lam))%R) by (apply Rmult_le_pos; [apply side_err_nonneg|lra]).
  destruct (Hmat_cases h R_ok KM p q Cov) as [E|(k & n0 & n1 & G & [(I0 & I1 & E)|(I0 & I1 & E)])]; auto.
  - intros k p' q' Hk Hp' Hq'. apply (inside_iff h) in Hp', Hq'. rewrite B1 by lia. f_equal; lia.
  - intros k n0 n1 p' q' En Hp' Hq'. apply (inside_iff h) in Hp', Hq'. rewrite (B2 k n0 n1) by (auto; lia). f_equal; lia.
  - rewrite E. rewrite Rminus_diag_eq, Rabs_R0 by auto. auto.
  - rewrite E. apply (adm_block_err k n0 n1); auto.
  - rewrite E. replace (kmp p q) with (kmp q p) by apply Sym. apply (adm_block_err k n0 n1); auto.
Qed.

Lemma product_err sc s (x y : mem R) (xf : Z -> R) : covered_once h -> schedule_ok h sc -> @state_ok F Rring h s -> (forall j, 0 <= j < h_kms h -> ld x j = Some (xf j)) -> h_kms h <= zlen y ->
  exists s' y', @matvec F Rring h sc s x y = Some (s', y') /\
    forall i, 0 <= i < h_kms h -> exists v, ld y' i = Some v /\
      (Rabs (v - Rsum 0 (h_kms h) (fun j => KM i j * xf j)) <= side_err * (1 + lam) * Rsum 0 (h_kms h) (fun j => Rabs (xf j)))%R.
Proof.
  intros Cov Hs Hst Hx Hy. destruct (matvec_spec h R_ok sc s x y xf Hs Hst Hx Hy) as (s' & y' & E & _ & _ & G & _). exists s', y'. split; auto.
  intros i Hi. eexists. split; [apply (G i Hi)|]. destruct (ro_pmt _ R_ok) as (_ & _ & P). destruct (P i Hi) as (_ & Pi & _ & Qi).
  change (Rsum 0 (h_kms h) (fun j => KM i j * xf j)%R) with (sumR 0 (h_kms h) (fun j => KM i j * xf j)%R). cbn [cmul Rring].
  rewrite <- sumR_sub. eapply Rle_trans; [apply sumR_abs|]. change (Rsum 0 (h_kms h) (fun j => Rabs (xf j))) with (sumR 0 (h_kms h) (fun j => Rabs (xf j))). rewrite <- sumR_mul_l. apply sumR_le.
  intros j Hj. destruct (P j Hj) as (_ & Pj & _ & Qj).
  replace (@Hmat F Rring h (nthz (h_bwd h) i) (nthz (h_bwd h) j) * xf j - KM i j * xf j)%R with ((@Hmat F Rring h (nthz (h_bwd h) i) (nthz (h_bwd h) j) - kmp (nthz (h_bwd h) i) (nthz (h_bwd h) j)) * xf j)%R by (unfold KMp; rewrite Qi, Qj; ring).
  rewrite Rabs_mult. apply Rmult_le_compat_r; [apply Rabs_pos|]. apply Hmat_err; auto.
Qed.
End Approx.
