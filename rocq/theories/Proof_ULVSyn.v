(** The form of the whole system from that of a factorised node: vectors for given
    reduced vectors, and conversely for Cholesky. *)
From Coq Require Import ZArith List Lia Bool.
From Verif Require Import Base Mem Num CRing Conc Model_Matvec Spec_Matvec Proof_MvTree Proof_MvFwd Proof_MvCor Spec_Lapack Blk Model_ULV Spec_ULV Proof_ULVMath Proof_ULVTree Proof_ULVMem Proof_ULVAsm Proof_ULVFac Proof_ULVNode Proof_ULVEn Proof_ULVBil.
Import ListNotations.
Open Scope Z_scope.

Lemma zchoice {A} (P : Z -> A -> Prop) (d : A) n : (forall k, 0 <= k < n -> exists v, P k v) -> exists f, forall k, 0 <= k < n -> P k (f k).
Proof.
  destruct (Z.le_gt_cases 0 n) as [Hn|Hn]; [|intros _; exists (fun _ => d); intros; lia].
  revert n Hn. apply (natlike_ind (fun n => (forall k, 0 <= k < n -> exists v, P k v) -> exists f, forall k, 0 <= k < n -> P k (f k))).
  - intros _. exists (fun _ => d). intros; lia.
  - intros n Hn IH H. destruct IH as (f & Hf); [intros; apply H; lia|]. destruct (H n) as (v & Hv); [lia|].
    exists (fun k => if k =? n then v else f k). intros k Hk. destruct (Z.eqb_spec k n); [subst; auto|]. apply Hf. lia.
Qed.

Section Syn.
Context {F : num} {K : cring}.
Add Ring Kring : (cth K).
Local Open Scope ring_K.
Variable la : lapack K.
Hypothesis LA : lapack_ok la.
Variable h : h2rep F K.
Hypothesis R : rep_ok h.
Hypothesis HS : hss_ok h.
Variable chol : bool.
Variable shift : K.
Variable S : Z -> Prop.
Variables (u : @ulv K) (nf : Z -> @nfac K) (pos : Z -> Z -> Z).
Hypothesis INV : inv h chol shift S u nf pos.
Notation nn := (h_nnode h).
Notation N := (h_kms h).
Notation bil := (bil h shift).
Notation supp := (supp h).

Definition allz (n : Z) (v : Z -> K) : Prop := forall i, 0 <= i < n -> v i = c0.

Lemma T2_solve t (rhs : Z -> K) : 0 <= t < nn -> S t -> let m := (f_n (nf t) - f_r (nf t))%Z in
  exists x2 : Z -> K, forall i, 0 <= i < m -> rsum 0 m (fun l => f_T2 (nf t) i l * x2 l) = rhs i.
Proof.
  intros Ht St m. destruct (in_node _ _ _ _ _ _ _ INV t Ht St) as (_ & _ & Ff & _ & (Lm & Lf & v & Q & _ & _ & _ & (_ & ET2 & _) & Hd & _) & _). pose proof (fo_r _ Ff) as Hr.
  set (A := fun i j => Lf (f_r (nf t) + i)%Z (f_r (nf t) + j)%Z).
  assert (E : forall i j, f_T2 (nf t) i j = top chol (tri chol false A) i j). { intros i j. rewrite ET2. unfold T2_, T1_. now destruct chol. }
  exists (fun l => l_trsm la true chol chol false m 1 A (fun i _ => rhs i) l 0). intros i Hi.
  rewrite <- (la_trsm_left la LA chol chol false m 1 A (fun i _ => rhs i) ltac:(lia)) with (i := i) (j := 0); auto; [|lia]. apply rsum_ext. intros l Hl. now rewrite E.
Qed.
Lemma T2_inj t (x2 : Z -> K) : 0 <= t < nn -> S t -> let m := (f_n (nf t) - f_r (nf t))%Z in
  (forall i, 0 <= i < m -> rsum 0 m (fun l => f_T2 (nf t) i l * x2 l) = c0) -> allz m x2.
Proof.
  intros Ht St m H i Hi. destruct (in_node _ _ _ _ _ _ _ INV t Ht St) as (_ & _ & Ff & _ & (Lm & Lf & v & Q & _ & _ & _ & (_ & ET2 & _) & Hd & _) & _). pose proof (fo_r _ Ff) as Hr.
  set (A := fun i j => Lf (f_r (nf t) + i)%Z (f_r (nf t) + j)%Z).
  assert (E : forall i j, f_T2 (nf t) i j = top chol (tri chol false A) i j). { intros i0 j0. rewrite ET2. unfold T2_, T1_. now destruct chol. }
  pose proof (la_trsm_right la LA chol chol false m m A delta ltac:(lia) (fun _ => Hd)) as X. set (Xm := l_trsm la false chol chol false m m A delta) in *.
  rewrite <- (rsum_delta_l m i x2 Hi). rewrite (rsum_ext 0 m _ (fun j => rsum 0 m (fun l => Xm i l * f_T2 (nf t) l j) * x2 j)).
  2:{ intros j Hj. rewrite <- (X i j) by auto. f_equal. apply rsum_ext. intros l Hl. now rewrite E. }
  rewrite <- rsum_assoc. apply rsum_zero. intros l Hl. rewrite H by auto. ring.
Qed.

(** ** Vectors for given reduced vectors *)
Definition syn_asm (Dh Uh : Z -> Z -> K) (t : Z) : Prop := forall z, exists x, supp t x /\ bil x x = qf (nrows h t) Dh z /\
  (forall a, 0 <= a < rank h t -> yhat h x t a = rsum 0 (nrows h t) (fun i => Uh i a * z i)) /\ (allz N x -> allz (nrows h t) z).
Definition syn_node (t : Z) : Prop := forall w, exists x, supp t x /\ bil x x = qf (rank h t) (f_D (nf t)) w /\
  (forall a, 0 <= a < rank h t -> yhat h x t a = rsum 0 (rank h t) (fun i => f_R (nf t) i a * w i)) /\ (allz N x -> allz (rank h t) w).

Lemma syn_of_children Dh Uh t : 0 <= t < nn -> linkedm h shift nf Dh Uh t -> (forall k, 0 <= k < nchild h t -> syn_node (child h t k)) -> syn_asm Dh Uh t.
Proof.
  intros Ht Lk Hc z. pose proof (nchild_range h R t Ht) as Hn. destruct (cluster_range h R t Ht) as (M1 & M2 & M3). destruct (Z.eq_dec (nchild h t) 0) as [E|E].
  - set (x := fun p => if inside h t p then z (p - mfirst h t)%Z else c0).
    assert (Sx : supp t x) by (intros p Hp Ip; unfold x; now rewrite Ip).
    assert (Hx : forall i, 0 <= i < msize h t -> z i = x (mfirst h t + i)%Z).
    { intros i Hi. unfold x. rewrite (proj2 (inside_iff h t _)) by lia. f_equal. lia. }
    destruct (leaf_form h R HS shift nf Dh Uh t Ht Lk x z E Sx Hx) as [H1 H2]. exists x. split; auto. split; auto. split; auto.
    intros Hz i Hi. unfold nrows in Hi. rewrite E, Z.eqb_refl in Hi. rewrite Hx by auto. apply Hz. unfold msize in *. lia.
  - destruct (zchoice (fun k x => supp (child h t k) x /\ bil x x = qf (rank h (child h t k)) (f_D (nf (child h t k))) (fun i => z (choff h t k + i)%Z) /\
       (forall a, 0 <= a < rank h (child h t k) -> yhat h x (child h t k) a = rsum 0 (rank h (child h t k)) (fun i => f_R (nf (child h t k)) i a * z (choff h t k + i)%Z)) /\
       (allz N x -> allz (rank h (child h t k)) (fun i => z (choff h t k + i)%Z))) (fun _ => c0) (nchild h t)) as (xs & Hxs); [intros k Hk; apply (Hc k Hk)|].
    assert (S1 : forall k, 0 <= k < nchild h t -> supp (child h t k) (xs k)) by (intros; now apply Hxs).
    exists (xsum h t xs). split; [apply (xsum_supp h R t Ht xs S1)|]. split; [|split].
    + rewrite (node_form h R HS shift nf Dh Uh t Ht Lk E xs (fun k i => z (choff h t k + i)%Z) (fun _ => c0) z S1); [rewrite rsum_zero by auto; ring| | |auto].
      * intros k a Hk Ha. now apply Hxs.
      * intros k Hk. destruct (Hxs k Hk) as (_ & -> & _). ring.
    + intros a Ha. apply (node_yhat h R shift nf Dh Uh t Ht Lk E xs (fun k i => z (choff h t k + i)%Z) z S1); auto. intros k b Hk Hb. now apply Hxs.
    + intros Hz i Hi. unfold nrows in Hi. destruct (Z.eqb_spec (nchild h t) 0); [contradiction|]. destruct (choff_find h t (nchild h t) i Ht ltac:(lia) Hi) as (k & a & Hk & Ha & ->).
      destruct (Hxs k Hk) as (_ & _ & _ & H4). apply H4; auto. intros p Hp. destruct (inside h (child h t k) p) eqn:Ip; [|now apply S1].
      rewrite <- (Hz p Hp). unfold xsum. symmetry. apply (rsum_only 0 (nchild h t) (fun k => xs k p) k Hk). intros l Hl Hne. apply (S1 l Hl p Hp). apply not_true_iff_false. intros Il.
      destruct (child_at h R t k Ht Hk) as (_ & Rk & _ & Lk'). destruct (child_at h R t l Ht Hl) as (_ & Rl & _ & Ll).
      assert (child h t l = child h t k) as E' by (apply (same_level_disjoint h R _ _ p); auto; lia). destruct (child_inj h R t l t k Ht Hl Ht Hk E'). contradiction.
Qed.

Lemma syn_step t : 0 <= t < nn -> S t -> syn_asm (f_Dh (nf t)) (f_Uh (nf t)) t -> syn_node t.
Proof.
  intros Ht St HA w. destruct (in_node _ _ _ _ _ _ _ INV t Ht St) as (Fn & Fr & Ff & _). set (f := nf t) in *. pose proof (fo_r f Ff) as Hr.
  destruct (T2_solve t (fun i => c0 - rsum 0 (f_r f) (fun j => f_C21 f i j * w j)) Ht St) as (x2 & H2). fold f in H2.
  set (y := fun i => if (i <? f_r f)%Z then w i else x2 (i - f_r f)%Z).
  set (z := fun a => rsum 0 (f_n f) (fun j => f_Q f a j * y j)).
  assert (Ey : forall i, 0 <= i < f_n f -> qt_vec f z i = y i) by (intros i Hi; apply (qt_of_Q (f_n f) (f_Q f) y i (fo_Q f Ff) Hi)).
  assert (Yw : forall i, 0 <= i < f_r f -> y i = w i) by (intros i Hi; unfold y; destruct (Z.ltb_spec i (f_r f)); [auto|lia]).
  assert (Y2 : forall i, 0 <= i -> y (f_r f + i)%Z = x2 i) by (intros i Hi; unfold y; destruct (Z.ltb_spec (f_r f + i) (f_r f)); [lia|f_equal; lia]).
  destruct (HA z) as (x & Sx & Bx & Yx & Zx). rewrite <- Fn in Bx, Yx, Zx. exists x. split; auto. split; [|split].
  - rewrite Bx, (qf_node f Ff z). rewrite <- Fr. rewrite (qf_ext (f_r f) (f_D f) (f_D f) (qt_vec f z) w) by (auto; intros i Hi; rewrite Ey by lia; auto).
    rewrite (rsum_zero 0 (f_n f - f_r f)); [ring|]. intros l Hl. assert (Eg : gg f z l = c0); [|rewrite Eg; ring].
    unfold gg. rewrite (rsum_ext 0 (f_r f) _ (fun j => f_C21 f l j * w j)) by (intros j Hj; rewrite Ey by lia; now rewrite Yw).
    rewrite (rsum_ext 0 (f_n f - f_r f) _ (fun j => f_T2 f l j * x2 j)) by (intros j Hj; rewrite Ey by lia; rewrite Y2 by lia; auto). rewrite H2 by auto. ring.
  - intros a Ha. rewrite Yx by auto. rewrite (Uh_R f Ff z a) by lia. rewrite <- Fr. apply rsum_ext. intros i Hi. rewrite Ey, Yw by lia. reflexivity.
  - intros Hz i Hi. rewrite <- Yw, <- Ey by lia. unfold qt_vec. apply rsum_zero. intros a Ha. rewrite (Zx Hz) by auto. ring.
Qed.

Lemma syn_all t : 0 <= t < nn -> S t -> syn_node t.
Proof.
  intros Ht. replace t with (Z.of_nat (Z.to_nat t)) in * by lia. generalize dependent (Z.to_nat t). clear t. intros n.
  induction n as [n IH] using lt_wf_ind. intros Ht St. apply syn_step; auto. destruct (in_node _ _ _ _ _ _ _ INV _ Ht St) as (_ & _ & _ & Lk & _).
  apply syn_of_children; auto. intros k Hk. destruct (child_at h R _ k Ht Hk) as (_ & Rc & Lt & _). replace (child h (Z.of_nat n) k) with (Z.of_nat (Z.to_nat (child h (Z.of_nat n) k))) by lia.
  apply IH; [lia|lia|]. rewrite Z2Nat.id by lia. apply (in_closed _ _ _ _ _ _ _ INV); auto.
Qed.

(** A node that fails gives a nonzero vector on which the form is that of the pivot block. *)
Lemma failing_vector t Dh Uh Q y : 0 <= t < nn -> (forall k, 0 <= k < nchild h t -> S (child h t k)) -> linkedm h shift nf Dh Uh t -> orthogonal (nrows h t) Q ->
  exists x, bil x x = qf (nrows h t - rank h t) (fun i j => rsum 0 (nrows h t) (fun a => rsum 0 (nrows h t) (fun b => Q a (rank h t + i)%Z * Dh a b * Q b (rank h t + j)%Z))) y /\
    (allz N x -> allz (nrows h t - rank h t) y).
Proof.
  intros Ht Sc Lk HQ. pose proof (rank_le h R HS t Ht) as Hr.
  assert (HA : syn_asm Dh Uh t). { apply syn_of_children; auto. intros k Hk. destruct (child_at h R t k Ht Hk) as (_ & Rc & _). apply syn_all; auto. }
  set (y' := fun i => if (i <? rank h t)%Z then c0 else y (i - rank h t)%Z). set (z := fun a => rsum 0 (nrows h t) (fun j => Q a j * y' j)).
  assert (Y2 : forall i, 0 <= i -> y' (rank h t + i)%Z = y i) by (intros i Hi; unfold y'; destruct (Z.ltb_spec (rank h t + i) (rank h t)); [lia|f_equal; lia]).
  destruct (HA z) as (x & _ & Bx & _ & Zx). exists x. split.
  - rewrite Bx. unfold z. rewrite qf_conj. rewrite (qf_tail (nrows h t) (rank h t) _ y' Hr) by (intros i Hi; unfold y'; now rewrite (proj2 (Z.ltb_lt i (rank h t))) by lia).
    apply qf_ext; auto. intros i Hi. now apply Y2.
  - intros Hz i Hi. rewrite <- Y2 by lia. rewrite <- (qt_of_Q (nrows h t) Q y' (rank h t + i) HQ) by lia. apply rsum_zero. intros a Ha. fold (z a). rewrite (Zx Hz) by auto. ring.
Qed.

(** ** Cholesky: the form is a sum of squares *)
Hypothesis Hc : chol = true.
Variable nonneg : K -> Prop.
Hypothesis nn_0 : nonneg c0.
Hypothesis nn_add : forall a b, nonneg a -> nonneg b -> nonneg (a + b).
Hypothesis nn_sq : forall a, nonneg (a * a).
Hypothesis nn_split : forall a b, nonneg a -> nonneg b -> a + b = c0 -> a = c0 /\ b = c0.
Hypothesis sq_0 : forall a : K, a * a = c0 -> a = c0.

Lemma nn_sum n (f : Z -> K) : (forall i, 0 <= i < n -> nonneg (f i)) -> nonneg (rsum 0 n f).
Proof.
  destruct (Z.le_gt_cases 0 n) as [Hn|Hn]; [|intros; now rewrite rsum_empty by lia].
  revert n Hn. apply (natlike_ind (fun n => (forall i, 0 <= i < n -> nonneg (f i)) -> nonneg (rsum 0 n f))).
  - intros _. now rewrite rsum_empty by lia.
  - intros n Hn IH H. unfold Z.succ. rewrite rsum_snoc by lia. apply nn_add; [apply IH; intros; apply H; lia|apply H; lia].
Qed.
Lemma nn_sum0 n (f : Z -> K) : (forall i, 0 <= i < n -> nonneg (f i)) -> rsum 0 n f = c0 -> allz n f.
Proof.
  destruct (Z.le_gt_cases 0 n) as [Hn|Hn]; [|intros _ _ i Hi; lia].
  revert n Hn. apply (natlike_ind (fun n => (forall i, 0 <= i < n -> nonneg (f i)) -> rsum 0 n f = c0 -> allz n f)).
  - intros _ _ i Hi. lia.
  - intros n Hn IH H E. unfold Z.succ in *. rewrite rsum_snoc in E by lia. destruct (nn_split _ _ (nn_sum n f (fun i Hi => H i ltac:(lia))) (H n ltac:(lia)) E) as [E1 E2].
    intros i Hi. destruct (Z.eq_dec i n) as [->|]; auto. apply IH; auto; [intros; apply H; lia|lia].
Qed.

Lemma hh_gg t z : 0 <= t < nn -> S t -> forall l, 0 <= l < f_n (nf t) - f_r (nf t) -> hh (nf t) z l = gg (nf t) z l.
Proof.
  intros Ht St l Hl. destruct (in_node _ _ _ _ _ _ _ INV t Ht St) as (_ & _ & _ & _ & (Lm & Lf & v & Q & _ & _ & _ & (ET1 & ET2 & EC12 & EC21) & _ & Hp & _) & _).
  rewrite Hc in *. unfold hh, gg. rewrite ET1, ET2, EC12, EC21. f_equal; apply rsum_ext; intros i Hi.
  - unfold C12_, C21_. ring.
  - rewrite Hp. unfold T2_, T1_. ring.
Qed.

Definition ana_node (t : Z) : Prop := forall x, supp t x -> exists w g, nonneg g /\ bil x x = qf (rank h t) (f_D (nf t)) w + g /\
  (forall a, 0 <= a < rank h t -> yhat h x t a = rsum 0 (rank h t) (fun i => f_R (nf t) i a * w i)) /\ (g = c0 -> allz (rank h t) w -> allz N x).

Lemma ana_step t : 0 <= t < nn -> S t -> (forall k, 0 <= k < nchild h t -> ana_node (child h t k)) -> ana_node t.
Proof.
  intros Ht St HC x Sx. destruct (in_node _ _ _ _ _ _ _ INV t Ht St) as (Fn & Fr & Ff & Lk & _). set (f := nf t) in *. pose proof (fo_r f Ff) as Hr.
  pose proof (nchild_range h R t Ht) as Hn. destruct (cluster_range h R t Ht) as (M1 & M2 & M3).
  (* the assembled node *)
  assert (HA : exists z g, nonneg g /\ bil x x = qf (nrows h t) (f_Dh f) z + g /\ (forall a, 0 <= a < rank h t -> yhat h x t a = rsum 0 (nrows h t) (fun i => f_Uh f i a * z i)) /\
     (g = c0 -> allz (nrows h t) z -> allz N x)).
  { destruct (Z.eq_dec (nchild h t) 0) as [E|E].
    - exists (fun i => x (mfirst h t + i)%Z), c0. destruct (leaf_form h R HS shift nf _ _ t Ht Lk x (fun i => x (mfirst h t + i)%Z) E Sx) as [H1 H2]; auto. split; auto. split; [rewrite H1; ring|]. split; auto.
      intros _ Hz p Hp. destruct (inside h t p) eqn:Ip; [|now apply Sx]. apply inside_iff in Ip. replace p with (mfirst h t + (p - mfirst h t))%Z by lia. apply Hz. unfold nrows. rewrite E, Z.eqb_refl. lia.
    - set (xs := fun k p => if inside h (child h t k) p then x p else c0).
      assert (S1 : forall k, 0 <= k < nchild h t -> supp (child h t k) (xs k)) by (intros k Hk p Hp Ip; unfold xs; now rewrite Ip).
      destruct (zchoice (fun k (wg : (Z -> K) * K) => nonneg (snd wg) /\ bil (xs k) (xs k) = qf (rank h (child h t k)) (f_D (nf (child h t k))) (fst wg) + snd wg /\
         (forall a, 0 <= a < rank h (child h t k) -> yhat h (xs k) (child h t k) a = rsum 0 (rank h (child h t k)) (fun i => f_R (nf (child h t k)) i a * fst wg i)) /\
         (snd wg = c0 -> allz (rank h (child h t k)) (fst wg) -> allz N (xs k))) (fun _ => c0, c0) (nchild h t)) as (wg & Hwg).
      { intros k Hk. destruct (HC k Hk (xs k) (S1 k Hk)) as (w & g & H). exists (w, g). exact H. }
      (* the concatenation of the w's *)
      assert (Hz : exists z : Z -> K, forall k i, 0 <= k < nchild h t -> 0 <= i < rank h (child h t k) -> z (choff h t k + i)%Z = fst (wg k) i).
      { destruct (zchoice (fun a v => forall k i, 0 <= k < nchild h t -> 0 <= i < rank h (child h t k) -> a = (choff h t k + i)%Z -> v = fst (wg k) i) c0 (choff h t (nchild h t))) as (z & Hz).
        - intros a Ha. destruct (choff_find h t (nchild h t) a Ht ltac:(lia) Ha) as (k & i & Hk & Hi & ->). exists (fst (wg k) i). intros k' i' Hk' Hi' Eq.
          destruct (Z.lt_trichotomy k k') as [Lt|[->|Lt]].
          + pose proof (off_next h R HS t Ht E k k' ltac:(lia) ltac:(lia)). lia.
          + f_equal. lia.
          + pose proof (off_next h R HS t Ht E k' k ltac:(lia) ltac:(lia)). lia.
        - exists z. intros k i Hk Hi. apply (Hz (choff h t k + i)%Z); auto. destruct (choff_le h R t k Ht Hk). lia. }
      destruct Hz as (z & Hz). exists z, (rsum 0 (nchild h t) (fun k => snd (wg k))).
      assert (Ex : forall p, 0 <= p < N -> xsum h t xs p = x p).
      { intros p Hp. unfold xsum. destruct (inside h t p) eqn:Ip.
        - destruct (Proof_BuildUse.child_of_row h R t p Ht E Ip) as (k & Hk & Ik & U). rewrite (rsum_only 0 (nchild h t) _ k Hk); [unfold xs; now rewrite Ik|]. intros l Hl Hne. unfold xs. now rewrite U.
        - rewrite Sx by auto. apply rsum_zero. intros k Hk. unfold xs. destruct (inside h (child h t k) p) eqn:Ik; auto. }
      split; [apply nn_sum; intros k Hk; apply (Hwg k Hk)|].
      assert (Eb : bil x x = bil (xsum h t xs) (xsum h t xs)). { unfold Proof_ULVBil.bil. apply rsum_ext. intros p Hp. apply rsum_ext. intros q Hq. now rewrite !Ex. }
      split; [|split].
      + rewrite Eb. apply (node_form h R HS shift nf _ _ t Ht Lk E xs (fun k => fst (wg k)) (fun k => snd (wg k)) z S1); auto.
        * intros k a Hk Ha. now apply (Hwg k Hk).
        * intros k Hk. apply (Hwg k Hk).
      + intros a Ha. rewrite <- (node_yhat h R shift nf _ _ t Ht Lk E xs (fun k => fst (wg k)) z S1); auto.
        * unfold yhat. apply rsum_ext. intros p Hp. now rewrite Ex.
        * intros k b Hk Hb. now apply (Hwg k Hk).
      + intros Hg0 Hz0 p Hp. rewrite <- Ex by auto. unfold xsum. apply rsum_zero. intros k Hk. apply (Hwg k Hk); auto.
        * apply (nn_sum0 (nchild h t) (fun k => snd (wg k))); auto. intros l Hl. apply (Hwg l Hl).
        * intros i Hi. rewrite <- Hz by auto. apply Hz0. unfold nrows. destruct (Z.eqb_spec (nchild h t) 0); [contradiction|]. destruct (choff_le h R t k Ht Hk). lia. }
  destruct HA as (z & g & G1 & G2 & G3 & G4). rewrite <- Fn in G2, G3, G4.
  exists (qt_vec f z), (rsum 0 (f_n f - f_r f) (fun l => gg f z l * gg f z l) + g).
  assert (Gs : forall l, 0 <= l < f_n f - f_r f -> nonneg (gg f z l * gg f z l)) by auto.
  split; [apply nn_add; auto; apply nn_sum; auto|]. split; [|split].
  - rewrite G2, (qf_node f Ff z), Fr. rewrite (rsum_ext 0 (f_n f - rank h t) _ (fun l => gg f z l * gg f z l)) by (intros l Hl; unfold f; rewrite hh_gg; auto; fold f; lia). ring.
  - intros a Ha. rewrite G3 by auto. rewrite (Uh_R f Ff z a) by lia. now rewrite Fr.
  - intros Eg Hw. destruct (nn_split _ _ (nn_sum _ _ Gs) G1 Eg) as [E1 E2]. apply G4; auto. rewrite <- Fr in Hw.
    pose proof (nn_sum0 _ _ Gs E1) as Hgg.
    assert (Hx2 : allz (f_n f - f_r f) (fun j => qt_vec f z (f_r f + j)%Z)).
    { unfold f. apply T2_inj; auto. fold f. intros i Hi. pose proof (sq_0 _ (Hgg i Hi)) as Hi0. unfold gg in Hi0. rewrite (rsum_zero 0 (f_r f)) in Hi0 by (intros j Hj; rewrite Hw by auto; ring).
      rewrite <- Hi0. ring. }
    intros a Ha. rewrite (z_Qy f Ff z a Ha). apply rsum_zero. intros i Hi. destruct (Z.lt_ge_cases i (f_r f)) as [Lt|Ge].
    + rewrite Hw by lia. ring.
    + specialize (Hx2 (i - f_r f)%Z ltac:(lia)). cbv beta in Hx2. replace (f_r f + (i - f_r f))%Z with i in Hx2 by lia. rewrite Hx2. ring.
Qed.
Lemma ana_all t : 0 <= t < nn -> S t -> ana_node t.
Proof.
  intros Ht. replace t with (Z.of_nat (Z.to_nat t)) in * by lia. generalize dependent (Z.to_nat t). clear t. intros n.
  induction n as [n IH] using lt_wf_ind. intros Ht St. apply ana_step; auto.
  intros k Hk. destruct (child_at h R _ k Ht Hk) as (_ & Rc & Lt & _). replace (child h (Z.of_nat n) k) with (Z.of_nat (Z.to_nat (child h (Z.of_nat n) k))) by lia.
  apply IH; [lia|lia|]. rewrite Z2Nat.id by lia. apply (in_closed _ _ _ _ _ _ _ INV); auto.
Qed.
End Syn.
