(** Consequences of the formula for the matvec. *)
From Coq Require Import ZArith List Lia Bool Permutation.
From Verif Require Import Base Mem Num CRing Conc Model_Utils Spec_Utils Proof_Utils Model_Dense Spec_Dense Model_Partition Spec_Tree Model_Pairs Spec_Pairs Proof_Pairs Model_Matvec Spec_Matvec Proof_MvTree Proof_MvTop.
Import ListNotations.
Open Scope Z_scope.

Section Cor.
Context {F : num} {K : cring}.
Add Ring Kring : (cth K).
Local Open Scope ring_K.
Variable h : h2rep F K.
Hypothesis R : rep_ok h.
Notation t := (h_t h).

(** ** Support of the bases *)
Lemma tiles_within (p lv : Z) cs : forall s e, tiles t p lv s e cs ->
  forall c, In c cs -> exists cs' ce hc nc, node_data t c cs' ce lv hc nc /\ s <= cs' /\ ce <= e.
Proof.
  assert (TE : forall cs s e, tiles t p lv s e cs -> s <= e + 1).
  { clear. induction cs as [|c cs IH]; intros s e H; cbn [tiles] in H; [lia|]. destruct H as (ce & hc & nc & _ & _ & _ & H2 & H3). apply IH in H3. lia. }
  induction cs as [|c cs IH]; intros s e H c' Hc; [contradiction|]. cbn [tiles] in H.
  destruct H as (ce & hc & nc & D & _ & H1 & H2 & H3). pose proof (TE _ _ _ H3). destruct Hc as [<-|Hc].
  - exists s, ce, hc, nc. split; auto. lia.
  - destruct (IH _ _ H3 c' Hc) as (a & b & x & y & D' & A & B). exists a, b, x, y. split; auto. lia.
Qed.

Lemma child_inside i k p : 0 <= i < h_nnode h -> 0 <= k < nchild h i -> inside h (child h i k) p = true -> inside h i p = true.
Proof.
  intros Hi Hk. destruct (child_at h R i k Hi Hk) as (Ec & Rc & _ & _).
  destruct (node_at h R i Hi) as (s & e & hh & D & _ & _ & _ & _ & M1 & M2 & _).
  destruct (ct_children _ _ _ _ _ _ (ro_tree _ R) i _ _ _ _ _ Hi D ltac:(lia)) as (cs & Zc & Lc & Tc & _).
  destruct (ro_dims _ R) as (_ & D2 & _ & Dm & _). rewrite Dm, Lc in Ec by lia.
  destruct (tiles_within _ _ _ _ _ Tc _ (getz_In _ _ _ Ec)) as (s' & e' & h' & n' & D' & A & B).
  destruct (node_at h R _ Rc) as (s2 & e2 & h2 & D3 & _ & _ & _ & _ & N1 & N2 & _).
  destruct D' as (X1 & X2 & _). destruct D3 as (Y1 & Y2 & _). rewrite X1 in Y1. rewrite X2 in Y2. injection Y1 as <-. injection Y2 as <-.
  unfold inside. rewrite !andb_true_iff, !Z.leb_le, M1, M2, N1, N2. nia.
Qed.

Lemma basis_support i p c : 0 <= i < h_nnode h -> inside h i p = false -> basis h i p c = c0.
Proof.
  intros Hi. replace i with (Z.of_nat (Z.to_nat i)) in * by lia. revert c. generalize dependent (Z.to_nat i). clear i.
  induction n as [n IH] using lt_wf_ind. intros Hi c Hin. set (i := Z.of_nat n) in *.
  destruct (Z.eq_dec (nchild h i) 0) as [Hn|Hn].
  - rewrite (basis_leaf h R) by auto. now rewrite Hin.
  - rewrite (basis_node h R) by auto. apply rsum_zero. intros k Hk. apply rsum_zero. intros d Hd.
    destruct (child_at h R i k Hi Hk) as (_ & Rc & Lt & _).
    rewrite <- (Z2Nat.id (child h i k)) by lia. rewrite IH; [ring|unfold i in *; lia|lia|].
    rewrite Z2Nat.id by lia. apply not_true_iff_false. intros H. apply (child_inside i k p Hi Hk) in H. congruence.
Qed.

Lemma side_support n m k p sz : 0 <= n < h_nnode h -> sz = (if level h m <=? level h n then rank h n else msize h n) -> 0 <= k < sz ->
  inside h n p = false -> side h n m k p = c0.
Proof.
  intros Hn Hs Hk Hin. unfold side. destruct (Z.leb_spec (level h m) (level h n)).
  - now apply basis_support.
  - destruct (Z.eqb_spec p (mfirst h n + k)); auto. assert (inside h n p = true) by (apply (inside_iff h); lia). congruence.
Qed.

Lemma adm_block_support k n0 n1 p q : getz (h_adm h) k = Some (n0, n1) -> inside h n0 p && inside h n1 q = false -> adm_block h k p q = c0.
Proof.
  intros Hk Hin. unfold adm_block. rewrite Hk. destruct (ro_adm _ R _ _ _ Hk) as (N0 & N1 & _).
  destruct (ro_B _ R _ _ _ Hk) as (ptr & nrow & ncol & P1 & P2 & P3 & P4 & P5 & _).
  assert (Er : Bnrow h k = nrow) by (unfold Bnrow; now rewrite P2). assert (Ec : Bncol h k = ncol) by (unfold Bncol; now rewrite P3).
  rewrite Er, Ec. apply rsum_zero. intros r Hr. apply rsum_zero. intros c Hc.
  apply andb_false_iff in Hin as [Hin|Hin].
  - rewrite (side_support n0 n1 r p nrow) by auto. ring.
  - rewrite (side_support n1 n0 c q ncol) by auto. ring.
Qed.

(** ** Exact compression *)
Lemma inside_owns i p : 0 <= i < h_nnode h -> inside h i p = owns t i (p / h_kdim h).
Proof.
  intros Hi. destruct (node_at h R i Hi) as (s & e & hh & D & _ & _ & _ & _ & M1 & M2 & _).
  rewrite (owns_data _ _ _ _ _ _ _ _ D). unfold inside. rewrite M1, M2. destruct (ro_dims _ R) as (_ & D2 & _).
  pose proof (Z.div_mod p (h_kdim h) ltac:(lia)). pose proof (Z.mod_pos_bound p (h_kdim h) ltac:(lia)).
  apply eq_true_iff_eq. rewrite !andb_true_iff, !Z.leb_le. nia.
Qed.

(** A sum in which at most one pair of a list counts. *)
Lemma lsum_count {A} (f : A -> bool) (v : K) l : (zcount f l = 0 -> lsum (fun x => if f x then v else c0) l = c0) /\
  (zcount f l = 1 -> lsum (fun x => if f x then v else c0) l = v).
Proof.
  induction l as [|x l [IH1 IH2]]; [split; [auto|discriminate]|]. rewrite zcount_cons, lsum_cons. pose proof (zcount_nonneg f l).
  destruct (f x); split; intros H'; try lia.
  - rewrite IH1 by lia. ring.
  - rewrite IH1 by lia. ring.
  - rewrite IH2 by lia. ring.
Qed.
Lemma rsum_list {A} (l : list A) (f : Z -> K) (g : A -> K) : (forall k x, getz l k = Some x -> f k = g x) -> rsum 0 (zlen l) f = lsum g l.
Proof.
  intros H. revert f H. induction l as [|x l IH]; intros f H.
  - now rewrite rsum_empty by zlia.
  - rewrite zlen_cons, lsum_cons. pose proof (zlen_nonneg l). rewrite (rsum_split 0 1 (zlen l + 1)) by lia. f_equal.
    + change 1 with (0 + 1)%Z. rewrite rsum_one. apply H. reflexivity.
    + replace 1 with (0 + 1)%Z at 1 by lia. rewrite rsum_shift. apply IH. intros k y Hk. apply H.
      pose proof (getz_range _ _ _ Hk). rewrite getz_cons by lia. replace (k + 1 - 1)%Z with k by lia. auto.
Qed.

Lemma pairs_total (l : list (Z * Z)) (blk : Z -> Z -> Z -> K) v p q : 
  (forall k n0 n1, getz l k = Some (n0, n1) -> 0 <= n0 < h_nnode h /\ 0 <= n1 < h_nnode h) ->
  (forall k n0 n1, getz l k = Some (n0, n1) -> blk k p q = if inside h n0 p && inside h n1 q then v else c0) ->
  (forall k n0 n1, getz l k = Some (n0, n1) -> blk k q p = if inside h n0 q && inside h n1 p then v else c0) ->
  let c := (coverage t l (p / h_kdim h) (q / h_kdim h) + coverage t l (q / h_kdim h) (p / h_kdim h))%Z in
  (c = 0 -> rsum 0 (zlen l) (fun k => blk k p q + blk k q p) = c0) /\
  (c = 1 -> rsum 0 (zlen l) (fun k => blk k p q + blk k q p) = v).
Proof.
  intros Hr H1 H2. cbv zeta. rewrite rsum_add.
  rewrite (rsum_list l (fun k => blk k p q) (fun '(n0, n1) => if owns t n0 (p / h_kdim h) && owns t n1 (q / h_kdim h) then v else c0)).
  2:{ intros k [n0 n1] Hk. rewrite (H1 k n0 n1) by auto. destruct (Hr _ _ _ Hk). now rewrite !inside_owns by auto. }
  rewrite (rsum_list l (fun k => blk k q p) (fun '(n0, n1) => if owns t n0 (q / h_kdim h) && owns t n1 (p / h_kdim h) then v else c0)).
  2:{ intros k [n0 n1] Hk. rewrite (H2 k n0 n1) by auto. destruct (Hr _ _ _ Hk). now rewrite !inside_owns by auto. }
  unfold coverage.
  set (f1 := fun '(n0, n1) => owns t n0 (p / h_kdim h) && owns t n1 (q / h_kdim h)).
  set (f2 := fun '(n0, n1) => owns t n0 (q / h_kdim h) && owns t n1 (p / h_kdim h)).
  pose proof (zcount_nonneg f1 l). pose proof (zcount_nonneg f2 l).
  rewrite (lsum_ext _ (fun x => if f1 x then v else c0)) by (intros [? ?]; auto).
  rewrite (lsum_ext (fun '(n0, n1) => if owns t n0 (q / h_kdim h) && _ then v else c0) (fun x => if f2 x then v else c0)) by (intros [? ?]; auto).
  destruct (lsum_count f1 v l) as [A0 A1]. destruct (lsum_count f2 v l) as [B0 B1]. split; intros Hc.
  - rewrite A0, B0 by lia. ring.
  - assert (zcount f1 l = 0 \/ zcount f1 l = 1) as [E|E] by lia.
    + rewrite A0, B1 by lia. ring.
    + rewrite A1, B0 by lia. ring.
Qed.

Lemma leaf_list : exists ns, zlen ns = h_nleaf h /\ (forall k, 0 <= k < h_nleaf h -> getz ns k = Some (leaf h k)) /\ NoDup ns /\
  forall i, In i ns <-> (0 <= i < h_nnode h /\ nchild h i = 0).
Proof.
  pose proof (ro_tree _ R) as CT. destruct (ro_dims _ R) as (_ & _ & _ & _ & _ & Hl).
  destruct (ct_heights _ _ _ _ _ _ CT 0 ltac:(lia)) as (ns & C & Le & L & I & S). rewrite (ct_nleaf _ _ _ _ _ _ CT) in C. injection C as C.
  exists ns. split; auto. split; [|split].
  - intros k Hk. destruct (getz_in ns k ltac:(lia)) as [x Hx]. rewrite Hx. f_equal. unfold leaf. specialize (L k ltac:(lia)).
    replace (0 * h_nleaf h + k)%Z with k in L by lia. rewrite L, Hx. reflexivity.
  - apply NoDup_nth_error. intros a b Ha E.
    assert (G : forall x : nat, nth_error ns x = getz ns (Z.of_nat x)) by (intros x; unfold getz; destruct (Z.leb_spec 0 (Z.of_nat x)); [now rewrite Nat2Z.id|lia]).
    rewrite !G in E. destruct (getz_in ns (Z.of_nat a)) as [x Hx]; [unfold zlen; lia|]. rewrite Hx in E. symmetry in E.
    destruct (Nat.lt_trichotomy a b) as [Hlt|[Heq|Hlt]]; auto; exfalso.
    + specialize (S (Z.of_nat a) (Z.of_nat b) x x ltac:(lia) Hx E). lia.
    + specialize (S (Z.of_nat b) (Z.of_nat a) x x ltac:(lia) E Hx). lia.
  - intros i. rewrite I. split; intros [Hi H]; split; auto.
    + destruct (ct_node _ _ _ _ _ _ CT i Hi) as (s & e & lv & hh & nc & (D1 & D2 & D3 & D4 & D5) & _ & _ & _ & _ & _ & Hz).
      unfold nchild. rewrite D5. cbn [val]. apply Hz. congruence.
    + destruct (ct_node _ _ _ _ _ _ CT i Hi) as (s & e & lv & hh & nc & (D1 & D2 & D3 & D4 & D5) & _ & _ & _ & _ & _ & Hz).
      unfold nchild in H. rewrite D5 in H. cbn [val] in H. rewrite D4. f_equal. now apply Hz.
Qed.

Lemma diag_total (v : K) p q : 0 <= p < h_kms h -> 0 <= q < h_kms h ->
  (same_leaf t (h_nnode h) (p / h_kdim h) (q / h_kdim h) -> rsum 0 (h_nleaf h) (fun k => if inside h (leaf h k) p && inside h (leaf h k) q then v else c0) = v) /\
  (~ same_leaf t (h_nnode h) (p / h_kdim h) (q / h_kdim h) -> rsum 0 (h_nleaf h) (fun k => if inside h (leaf h k) p && inside h (leaf h k) q then v else c0) = c0).
Proof.
  intros Hp Hq. destruct leaf_list as (ns & Zn & Gn & Nn & In_). split; intros SL.
  - destruct SL as (i & Hi & Li & O1 & O2).
    assert (Hin : In i ns). { apply In_. split; auto. unfold nchild. unfold is_leaf in Li. now rewrite Li. }
    apply In_getz in Hin as (k & Hk). pose proof (getz_range _ _ _ Hk) as Rk. rewrite Zn in Rk. pose proof (Gn k Rk) as Gk. rewrite Hk in Gk. injection Gk as Ek.
    rewrite (rsum_only 0 (h_nleaf h) _ k Rk).
    + rewrite <- Ek, !inside_owns, O1, O2 by auto. reflexivity.
    + intros j Hj Hne. destruct (leaf_at h R j Hj) as (_ & Rl). destruct (inside h (leaf h j) p) eqn:Ip; auto. exfalso. apply Hne.
      rewrite inside_owns in Ip by auto.
      assert (Hpp : 0 <= p / h_kdim h < h_npoint h).
      { destruct (ro_dims _ R) as (_ & D2 & _ & _ & Dk & _). split; [apply Z.div_pos; lia|apply Z.div_lt_upper_bound; lia]. }
      assert (E : leaf h j = i).
      { destruct (ct_leaf_of_point _ _ _ _ _ _ (ro_tree _ R) _ Hpp) as (i0 & _ & Hu).
        assert (U : forall i', 0 <= i' < h_nnode h -> nchild h i' = 0 -> owns t i' (p / h_kdim h) = true -> i' = i0).
        { intros i' Hi' Hn' Ho. apply Hu. split; auto. destruct (node_at h R i' Hi') as (s & e & hh & D & _).
          destruct (ct_node _ _ _ _ _ _ (ro_tree _ R) i' Hi') as (s' & e' & lv' & hh' & nc' & D' & _ & _ & _ & _ & _ & Hz).
          rewrite (owns_data _ _ _ _ _ _ _ _ D') in Ho. exists s', e', lv'.
          assert (nc' = 0). { destruct D as (_ & _ & _ & _ & D5). destruct D' as (_ & _ & _ & _ & D5'). rewrite D5 in D5'. injection D5' as <-. auto. }
          subst nc'. assert (hh' = 0) by now apply Hz. subst hh'. split; auto. lia. }
        rewrite (U i), (U (leaf h j)); auto.
        - pose proof (Gn j Hj) as Gj. apply getz_In in Gj. now apply In_ in Gj.
        - unfold nchild. unfold is_leaf in Li. now rewrite Li. }
      pose proof (Gn j Hj) as Gj. rewrite E in Gj.
      assert (G : forall x, 0 <= x -> nth_error ns (Z.to_nat x) = getz ns x) by (intros x Hx; unfold getz; destruct (Z.leb_spec 0 x); [auto|lia]).
      assert (Z.to_nat j = Z.to_nat k); [|lia]. apply (proj1 (NoDup_nth_error ns) Nn); [unfold zlen in Zn; lia|]. rewrite !G by lia. congruence.
  - apply rsum_zero. intros k Hk. destruct (leaf_at h R k Hk) as (_ & Rl). destruct (inside h (leaf h k) p && inside h (leaf h k) q) eqn:E; auto.
    exfalso. apply SL. exists (leaf h k). apply andb_true_iff in E as [E1 E2]. rewrite !inside_owns in E1, E2 by auto. repeat (split; auto).
    unfold is_leaf. rewrite (ld_nchild h R) by auto. f_equal. pose proof (Gn k Hk) as Gk. apply getz_In in Gk. now apply In_ in Gk.
Qed.

Lemma exact_Hmat KM p q : covered_once h -> blocks_exact h KM -> (forall i j, KM i j = KM j i) -> 0 <= p < h_kms h -> 0 <= q < h_kms h -> Hmat h p q = KMp h KM p q.
Proof.
  intros Cov (X1 & X2 & X3) Sym Hp Hq. unfold Hmat.
  assert (SymP : KMp h KM q p = KMp h KM p q) by apply Sym. set (v := KMp h KM p q) in *.
  rewrite (rsum_ext 0 (h_nleaf h) _ (fun k => if inside h (leaf h k) p && inside h (leaf h k) q then v else c0)).
  2:{ intros k Hk. unfold diag_block. destruct (inside h (leaf h k) p) eqn:E1; auto. destruct (inside h (leaf h k) q) eqn:E2; auto. cbn [andb]. apply X1; auto. }
  assert (HP : 0 <= p / h_kdim h < h_npoint h).
  { destruct (ro_dims _ R) as (_ & D2 & _ & _ & Dk & _). split; [apply Z.div_pos; lia|apply Z.div_lt_upper_bound; lia]. }
  assert (HQ : 0 <= q / h_kdim h < h_npoint h).
  { destruct (ro_dims _ R) as (_ & D2 & _ & _ & Dk & _). split; [apply Z.div_pos; lia|apply Z.div_lt_upper_bound; lia]. }
  destruct (diag_total v p q Hp Hq) as [D1 D0].
  destruct (pairs_total (h_inadm h) (inadm_block h) v p q) as [I0 I1].
  { intros k n0 n1 Hk. apply (ro_inadm _ R _ _ _ Hk). }
  { intros k n0 n1 Hk. unfold inadm_block. rewrite Hk. destruct (inside h n0 p) eqn:E1; auto. destruct (inside h n1 q) eqn:E2; auto. cbn [andb]. apply (X2 _ _ _ _ _ Hk); auto. }
  { intros k n0 n1 Hk. unfold inadm_block. rewrite Hk. destruct (inside h n0 q) eqn:E1; auto. destruct (inside h n1 p) eqn:E2; auto. cbn [andb]. rewrite <- SymP. apply (X2 _ _ _ _ _ Hk); auto. }
  destruct (pairs_total (h_adm h) (adm_block h) v p q) as [A0 A1].
  { intros k n0 n1 Hk. destruct (ro_adm _ R _ _ _ Hk) as (? & ? & _); auto. }
  { intros k n0 n1 Hk. destruct (inside h n0 p && inside h n1 q) eqn:E; [|now apply (adm_block_support k n0 n1)]. apply andb_true_iff in E as [E1 E2]. now apply (X3 k n0 n1). }
  { intros k n0 n1 Hk. destruct (inside h n0 q && inside h n1 p) eqn:E; [|now apply (adm_block_support k n0 n1)]. apply andb_true_iff in E as [E1 E2]. rewrite <- SymP. now apply (X3 k n0 n1). }
  cbv zeta in *. specialize (Cov _ _ HP HQ). cbv zeta in Cov. destruct Cov as [(SL & C1 & C2)|(SL & [(C1 & C2)|(C1 & C2)])].
  - rewrite D1, I0, A0 by auto. ring.
  - rewrite D0, I0, A1 by auto. ring.
  - rewrite D0, I1, A0 by auto. ring.
Qed.

(** ** Symmetry *)
Lemma Hmat_sym p q : (forall k r c, 0 <= k < h_nleaf h -> 0 <= r < msize h (leaf h k) -> 0 <= c < msize h (leaf h k) -> Dval h k r c = Dval h k c r) ->
  Hmat h p q = Hmat h q p.
Proof.
  intros HD. unfold Hmat. f_equal; [f_equal|].
  - apply rsum_ext. intros k Hk. unfold diag_block. rewrite (andb_comm (inside h (leaf h k) q)).
    destruct (inside h (leaf h k) p) eqn:E1; auto. destruct (inside h (leaf h k) q) eqn:E2; auto. cbn [andb].
    apply (inside_iff h) in E1. apply (inside_iff h) in E2. apply HD; auto; lia.
  - apply rsum_ext. intros; ring.
  - apply rsum_ext. intros; ring.
Qed.
End Cor.
