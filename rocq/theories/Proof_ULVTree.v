(** From the nodes to the whole system: if every node is factorised as in
    Proof_ULVMath.v and the vectors of the two sweeps are linked through the tree,
    the result solves (H + shift I) x = b. *)
From Coq Require Import ZArith List Lia Bool Permutation.
From Verif Require Import Base Mem Num CRing Conc Model_Utils Spec_Utils Proof_Utils Model_Dense Spec_Dense Model_Partition Spec_Tree Model_Pairs Spec_Pairs Proof_Pairs Model_Matvec Spec_Matvec Proof_MvTree Proof_MvFwd Proof_MvCor Proof_MvRace Model_MvFine Proof_BuildUse Spec_Lapack Spec_ULV Proof_ULVMath.
Import ListNotations.
Open Scope Z_scope.

Section Tree.
Context {F : num} {K : cring}.
Add Ring Kring : (cth K).
Local Open Scope ring_K.
Variable h : h2rep F K.
Hypothesis R : rep_ok h.
Notation nn := (h_nnode h).
Notation rt := (h_nnode h - 1)%Z.

(** ** Tree facts *)
Lemma root_level : 0 <= rt < nn /\ level h rt = 0.
Proof.
  destruct (ct_root _ _ _ _ _ _ (ro_tree _ R)) as (Hn & _ & nc & (_ & _ & D & _)). split; [lia|]. unfold level. now rewrite D.
Qed.
Lemma has_parent i : 0 <= i < nn -> i <> rt -> exists p k, 0 <= p < nn /\ 0 <= k < nchild h p /\ child h p k = i.
Proof.
  intros Hi Hne. destruct (ct_parent _ _ _ _ _ _ (ro_tree _ R) i ltac:(lia)) as (p & nc & k & _ & Hp & En & Hk & Ec).
  destruct (ro_dims _ R) as (_ & _ & _ & Dm & _). rewrite (ld_nchild h R) in En by lia. injection En as <-.
  exists p, k. split; [lia|]. split; auto. unfold child. rewrite Dm, Ec. reflexivity.
Qed.
Lemma level_pos i : 0 <= i < nn -> i <> rt -> 1 <= level h i.
Proof.
  intros Hi Hne. destruct (has_parent i Hi Hne) as (p & k & Hp & Hk & <-). destruct (child_at h R p k Hp Hk) as (_ & _ & _ & ->).
  pose proof (level_range h R p Hp). lia.
Qed.
Lemma level0_root i : 0 <= i < nn -> level h i = 0 -> i = rt.
Proof. intros Hi E. destruct (Z.eq_dec i rt); auto. pose proof (level_pos i Hi n). lia. Qed.
Lemma child_inj i k j l : 0 <= i < nn -> 0 <= k < nchild h i -> 0 <= j < nn -> 0 <= l < nchild h j -> child h i k = child h j l -> i = j /\ k = l.
Proof.
  intros Hi Hk Hj Hl E.
  assert (P : forall i k, 0 <= i < nn -> 0 <= k < nchild h i -> ld (a_parent (h_t h)) (child h i k) = Some i).
  { intros i0 k0 Hi0 Hk0. apply (child_facts h R); auto. exists (nchild h i0), k0. split; [apply (ld_nchild h R); auto|]. split; auto. apply (child_at h R); auto. }
  assert (i = j) as -> by (pose proof (P i k Hi Hk) as A; pose proof (P j l Hj Hl) as B; rewrite E in A; congruence).
  split; auto.
  destruct (child_at h R j k Hj Hk) as (_ & Rc & _). destruct (cluster_range h R _ Rc) as (C1 & C2 & C3).
  assert (I1 : inside h (child h j k) (mfirst h (child h j k)) = true) by (apply inside_iff; lia).
  pose proof (child_inside h R j k _ Hj Hk I1) as Ij.
  destruct (child_of_row h R j _ Hj ltac:(lia) Ij) as (k0 & Hk0 & _ & U).
  assert (k = k0). { destruct (Z.eq_dec k k0); auto. rewrite (U k) in I1 by auto. discriminate. }
  assert (l = k0). { destruct (Z.eq_dec l k0); auto. rewrite E in I1. rewrite E in U. rewrite (U l Hl n) in I1. discriminate. }
  congruence.
Qed.
(** Nodes of one level are disjoint. *)
Lemma same_level_disjoint i j p : 0 <= i < nn -> 0 <= j < nn -> level h i = level h j -> inside h i p = true -> inside h j p = true -> i = j.
Proof.
  intros Hi. pose proof (level_range h R i Hi) as Hl. remember (Z.to_nat (level h i)) as n eqn:En. revert i j Hi Hl En.
  induction n as [|n IH]; intros i j Hi Hl En Hj E Ii Ij.
  - rewrite (level0_root i), (level0_root j); auto; lia.
  - destruct (Z.eq_dec i rt) as [->|Ni]; [destruct root_level; lia|]. destruct (Z.eq_dec j rt) as [->|Nj]; [destruct root_level; lia|].
    destruct (has_parent i Hi Ni) as (a & k & Ha & Hk & <-). destruct (has_parent j Hj Nj) as (b & l & Hb & Hl' & <-).
    destruct (child_at h R a k Ha Hk) as (_ & _ & _ & La). destruct (child_at h R b l Hb Hl') as (_ & _ & _ & Lb).
    pose proof (child_inside h R a k p Ha Hk Ii) as Ia. pose proof (child_inside h R b l p Hb Hl' Ij) as Ib.
    assert (a = b) as ->. { apply (IH a b); auto; try lia. all: try (apply (level_range h R); auto). }
    destruct (child_of_row h R b p Hb ltac:(lia) Ib) as (k0 & Hk0 & _ & U).
    assert (k = k0). { destruct (Z.eq_dec k k0); auto. rewrite (U k) in Ii by auto. discriminate. }
    assert (l = k0). { destruct (Z.eq_dec l k0); auto. rewrite (U l) in Ij by auto. discriminate. }
    congruence.
Qed.
(** Sums over the rows of a non-leaf node's matrices, by children. *)
Lemma rsum_choff i nc (f : Z -> K) : 0 <= i < nn -> 0 <= nc <= nchild h i ->
  rsum 0 (choff h i nc) f = rsum 0 nc (fun k => rsum 0 (rank h (child h i k)) (fun d => f (choff h i k + d)%Z)).
Proof.
  intros Hi Hnc. destruct Hnc as [H0 Hnc]. revert Hnc. pattern nc. apply natlike_ind; [| |exact H0]; clear nc H0.
  - intros _. rewrite choff_0. now rewrite !rsum_empty by lia.
  - intros k Hk IH Hlt. unfold Z.succ in *. rewrite choff_step by lia. rewrite rsum_snoc by lia. rewrite <- IH by lia.
    destruct (choff_le h R i k Hi ltac:(lia)) as (C1 & C2). pose proof (rank_nonneg h R (child h i k) ltac:(apply child_at; auto; lia)).
    rewrite (rsum_split0 (choff h i k)) by lia. f_equal. f_equal. lia.
Qed.
(** Every row of a non-leaf node's matrices belongs to a child. *)
Lemma choff_find i nc a : 0 <= i < nn -> 0 <= nc <= nchild h i -> 0 <= a < choff h i nc ->
  exists k d, 0 <= k < nc /\ 0 <= d < rank h (child h i k) /\ a = (choff h i k + d)%Z.
Proof.
  intros Hi [H0 Hnc]. revert Hnc. pattern nc. apply natlike_ind; [| |exact H0]; clear nc H0.
  - intros _ Ha. rewrite choff_0 in Ha. lia.
  - intros k Hk IH Hlt Ha. unfold Z.succ in *. rewrite choff_step in Ha by lia.
    destruct (Z.lt_ge_cases a (choff h i k)) as [H|H].
    + destruct (IH ltac:(lia) ltac:(lia)) as (k' & d & H1 & H2 & H3). exists k', d. lia.
    + exists k, (a - choff h i k)%Z. lia.
Qed.

(** ** The system *)
Hypothesis HS : hss_ok h.
Variable shift : K.
Variable nf : Z -> @nfac K.
Hypothesis Nn : forall t, 0 <= t < nn -> f_n (nf t) = nrows h t.
Hypothesis Nr : forall t, 0 <= t < nn -> f_r (nf t) = rank h t.
Hypothesis Nf : forall t, 0 <= t < nn -> fac_ok (nf t).
(** How a node's matrices are assembled. *)
Record linkedm (Dh Uh : Z -> Z -> K) (t : Z) : Prop := {
  lk_leafD : forall k i j, 0 <= k < h_nleaf h -> t = leaf h k -> 0 <= i < msize h t -> 0 <= j < msize h t -> Dh i j = Dval h k i j + shift * delta i j;
  lk_leafU : forall i c, nchild h t = 0 -> 0 <= i < msize h t -> 0 <= c < rank h t -> Uh i c = Uval h t i c;
  lk_diag : forall k i j, 0 <= k < nchild h t -> 0 <= i < rank h (child h t k) -> 0 <= j < rank h (child h t k) ->
    Dh (choff h t k + i)%Z (choff h t k + j)%Z = f_D (nf (child h t k)) i j;
  lk_off : forall q k l i j, 0 <= k < l -> l < nchild h t -> getz (h_adm h) q = Some (child h t k, child h t l) ->
    0 <= i < rank h (child h t k) -> 0 <= j < rank h (child h t l) ->
    let v := rsum 0 (rank h (child h t k)) (fun a => f_R (nf (child h t k)) i a * rsum 0 (rank h (child h t l)) (fun b => Bval h q a b * f_R (nf (child h t l)) j b)) in
    Dh (choff h t k + i)%Z (choff h t l + j)%Z = v /\ Dh (choff h t l + j)%Z (choff h t k + i)%Z = v;
  lk_U : forall k i c, 0 <= k < nchild h t -> 0 <= i < rank h (child h t k) -> 0 <= c < rank h t ->
    Uh (choff h t k + i)%Z c = rsum 0 (rank h (child h t k)) (fun d => f_R (nf (child h t k)) i d * Uval h t (choff h t k + d)%Z c) }.
Notation linked t := (linkedm (f_Dh (nf t)) (f_Uh (nf t)) t).
Hypothesis Nl : forall t, 0 <= t < nn -> linked t.

Variables (b x : Z -> K) (inn out w z : Z -> Z -> K).
Hypothesis S_leaf_in : forall t i, 0 <= t < nn -> nchild h t = 0 -> 0 <= i < msize h t -> inn t i = b (mfirst h t + i)%Z.
Hypothesis S_in : forall t k i, 0 <= t < nn -> 0 <= k < nchild h t -> 0 <= i < rank h (child h t k) -> inn t (choff h t k + i)%Z = out (child h t k) i.
Hypothesis S_up : forall t, 0 <= t < nn -> up_rel (nf t) (inn t) (out t).
Hypothesis S_w : forall t k i, 0 <= t < nn -> 0 <= k < nchild h t -> 0 <= i < rank h (child h t k) -> w (child h t k) i = z t (choff h t k + i)%Z.
Hypothesis S_w2 : forall t i, 0 <= t < nn -> rank h t <= i < nrows h t -> w t i = out t i.
Hypothesis S_down : forall t, 0 <= t < nn -> down_rel (nf t) (w t) (z t).
Hypothesis S_leaf_out : forall t i, 0 <= t < nn -> nchild h t = 0 -> 0 <= i < msize h t -> x (mfirst h t + i)%Z = z t i.

(** The projections of the solution on the bases. *)
Lemma proj_z t : 0 <= t < nn -> forall c, 0 <= c < rank h t -> rsum 0 (nrows h t) (fun a => f_Uh (nf t) a c * z t a) = yhat h x t c.
Proof.
  intros Ht. replace t with (Z.of_nat (Z.to_nat t)) in * by lia. generalize dependent (Z.to_nat t). clear t. intros n.
  induction n as [n IH] using lt_wf_ind. intros Ht c Hc. set (t := Z.of_nat n) in *. unfold nrows.
  destruct (Z.eqb_spec (nchild h t) 0) as [E|E].
  - rewrite (yhat_leaf h R x t c Ht E). apply rsum_ext. intros a Ha. rewrite (lk_leafU _ _ t (Nl t Ht)), S_leaf_out by auto. ring.
  - pose proof (nchild_range h R t Ht). rewrite (rsum_choff t) by (auto; lia). rewrite (yhat_node h R x t c Ht E). apply rsum_ext. intros k Hk.
    destruct (child_at h R t k Ht Hk) as (_ & Rc & Lt & _).
    rewrite (rsum_ext 0 (rank h (child h t k)) (fun d => Uval h t (choff h t k + d) c * yhat h x (child h t k) d)
      (fun d => Uval h t (choff h t k + d) c * rsum 0 (rank h (child h t k)) (fun i => f_R (nf (child h t k)) i d * w (child h t k) i))).
    2:{ intros d Hd. f_equal. replace (child h t k) with (Z.of_nat (Z.to_nat (child h t k))) in * by lia. rewrite <- (IH (Z.to_nat (child h t k))) by (auto; lia).
        rewrite <- Nn by auto. rewrite (down_Uh (nf _) (Nf _ Rc) (w _) (z _) (S_down _ Rc)) by (rewrite Nr; auto). rewrite Nr by auto. reflexivity. }
    rewrite rsum_assoc. apply rsum_ext. intros i Hi. rewrite (lk_U _ _ t (Nl t Ht)), <- S_w by auto. f_equal. apply rsum_ext. intros d Hd. ring.
Qed.
Lemma proj_w t : 0 <= t < nn -> forall c, 0 <= c < rank h t -> rsum 0 (rank h t) (fun i => f_R (nf t) i c * w t i) = yhat h x t c.
Proof.
  intros Ht c Hc. rewrite <- proj_z by auto. rewrite <- Nn by auto. rewrite (down_Uh (nf t) (Nf t Ht) (w t) (z t) (S_down t Ht)) by (rewrite Nr; auto). now rewrite Nr.
Qed.

(** What the admissible pairs contribute at node s. *)
Definition y1f (s d : Z) : K := rsum 0 (zlen (h_adm h)) (fun q => match getz (h_adm h) q with
  | Some (n0, n1) => (if (n0 =? s)%Z then rsum 0 (rank h n1) (fun c => Bval h q d c * yhat h x n1 c) else c0)
                   + (if (n1 =? s)%Z then rsum 0 (rank h n0) (fun c => Bval h q c d * yhat h x n0 c) else c0)
  | None => c0 end).

(** Re-indexing a sum over the pairs by the siblings. *)
Lemma rsum_reindex (P : Z -> bool) (f : Z -> K) (g : Z -> K) lo hi lo' hi' (pi : Z -> Z) :
  (forall l, lo' <= l < hi' -> lo <= pi l < hi /\ P (pi l) = true /\ f (pi l) = g l) ->
  (forall q, lo <= q < hi -> P q = true -> exists l, lo' <= l < hi' /\ q = pi l) ->
  (forall l l', lo' <= l < hi' -> lo' <= l' < hi' -> pi l = pi l' -> l = l') ->
  rsum lo hi (fun q => if P q then f q else c0) = rsum lo' hi' g.
Proof.
  intros H1 H2 H3.
  rewrite (rsum_ext lo hi _ (fun q => rsum lo' hi' (fun l => if (q =? pi l)%Z then f q else c0))).
  - rewrite rsum_swap. apply rsum_ext. intros l Hl. destruct (H1 l Hl) as (A & _ & C). rewrite rsum_delta.
    rewrite (proj2 (Z.leb_le _ _)), (proj2 (Z.ltb_lt _ _)) by lia. auto.
  - intros q Hq. destruct (P q) eqn:E.
    + destruct (H2 q Hq E) as (l & Hl & ->). rewrite (rsum_only lo' hi' _ l); auto; [now rewrite Z.eqb_refl|].
      intros l' Hl' Hne. destruct (Z.eqb_spec (pi l) (pi l')); auto. exfalso. apply Hne. symmetry. now apply H3.
    + symmetry. apply rsum_zero. intros l Hl. destruct (Z.eqb_spec q (pi l)) as [->|]; auto. destruct (H1 l Hl) as (_ & A & _). congruence.
Qed.

(** The index of the pair of children k < l. *)
Definition pairidx (t k l : Z) : Z :=
  match find (fun q => match getz (h_adm h) q with Some (n0, n1) => (n0 =? child h t k)%Z && (n1 =? child h t l)%Z | None => false end) (zrange 0 (zlen (h_adm h))) with
  | Some q => q | None => 0 end.
Lemma pairidx_spec t k l : 0 <= t < nn -> 0 <= k < l -> l < nchild h t -> getz (h_adm h) (pairidx t k l) = Some (child h t k, child h t l).
Proof.
  intros Ht Hk Hl. destruct (hs_all h HS t k l Ht Hk Hl) as (q & Eq). unfold pairidx. pose proof (getz_range _ _ _ Eq).
  match goal with |- context [find ?f ?l] => destruct (find f l) as [q'|] eqn:Ef end.
  - apply find_some in Ef as [_ E]. destruct (getz (h_adm h) q') as [[n0 n1]|]; [|discriminate]. apply andb_true_iff in E as [E1 E2]. apply Z.eqb_eq in E1, E2. congruence.
  - exfalso. pose proof (find_none _ _ Ef q ltac:(apply In_zrange; lia)) as E. cbv beta in E. rewrite Eq, !Z.eqb_refl in E. discriminate.
Qed.
Lemma adm_inj q q' p : getz (h_adm h) q = Some p -> getz (h_adm h) q' = Some p -> q = q'.
Proof.
  intros E E'. pose proof (hs_once h HS) as Hnd. pose proof (getz_range _ _ _ E). pose proof (getz_range _ _ _ E'). rewrite NoDup_nth_error in Hnd. unfold getz in *.
  destruct (0 <=? q) eqn:?; [|discriminate]. destruct (0 <=? q') eqn:?; [|discriminate]. assert (Z.to_nat q = Z.to_nat q'); [|lia]. apply Hnd; [unfold zlen in *; lia|congruence].
Qed.

Lemma y1_child t k d : 0 <= t < nn -> 0 <= k < nchild h t ->
  y1f (child h t k) d = rsum (k + 1) (nchild h t) (fun l => rsum 0 (rank h (child h t l)) (fun c => Bval h (pairidx t k l) d c * yhat h x (child h t l) c))
     + rsum 0 k (fun l => rsum 0 (rank h (child h t l)) (fun c => Bval h (pairidx t l k) c d * yhat h x (child h t l) c)).
Proof.
  intros Ht Hk. unfold y1f.
  rewrite (rsum_ext 0 (zlen (h_adm h)) _ (fun q =>
     (if match getz (h_adm h) q with Some (n0, n1) => (n0 =? child h t k)%Z | None => false end then
        match getz (h_adm h) q with Some (n0, n1) => rsum 0 (rank h n1) (fun c => Bval h q d c * yhat h x n1 c) | None => c0 end else c0)
     + (if match getz (h_adm h) q with Some (n0, n1) => (n1 =? child h t k)%Z | None => false end then
        match getz (h_adm h) q with Some (n0, n1) => rsum 0 (rank h n0) (fun c => Bval h q c d * yhat h x n0 c) | None => c0 end else c0))).
  2:{ intros q Hq. destruct (getz (h_adm h) q) as [[n0 n1]|]; [reflexivity|ring]. }
  rewrite rsum_add. f_equal.
  - apply rsum_reindex with (pi := fun l => pairidx t k l).
    + intros l Hl. rewrite (pairidx_spec t k l) by lia. pose proof (getz_range _ _ _ (pairidx_spec t k l Ht ltac:(lia) ltac:(lia))). rewrite Z.eqb_refl. auto.
    + intros q Hq E. destruct (getz (h_adm h) q) as [[n0 n1]|] eqn:Eq; [|discriminate]. apply Z.eqb_eq in E. subst n0.
      destruct (hs_sib h HS q _ _ Eq) as (i & k' & l & Hi & Hkl & Hl & E1 & ->). destruct (child_inj t k i k' Ht Hk Hi ltac:(lia) E1) as [<- <-].
      exists l. split; [lia|]. eapply adm_inj; [exact Eq|]. apply pairidx_spec; lia.
    + intros l l' Hl Hl' E. pose proof (pairidx_spec t k l Ht ltac:(lia) ltac:(lia)) as A. pose proof (pairidx_spec t k l' Ht ltac:(lia) ltac:(lia)) as B.
      rewrite E, B in A. injection A as A. symmetry. apply (child_inj t l' t l); auto; lia.
  - apply rsum_reindex with (pi := fun l => pairidx t l k).
    + intros l Hl. rewrite (pairidx_spec t l k) by lia. pose proof (getz_range _ _ _ (pairidx_spec t l k Ht ltac:(lia) ltac:(lia))). rewrite Z.eqb_refl. auto.
    + intros q Hq E. destruct (getz (h_adm h) q) as [[n0 n1]|] eqn:Eq; [|discriminate]. apply Z.eqb_eq in E. subst n1.
      destruct (hs_sib h HS q _ _ Eq) as (i & k' & l & Hi & Hkl & Hl & -> & E1). destruct (child_inj t k i l Ht Hk Hi ltac:(lia) E1) as [<- <-].
      exists k'. split; [lia|]. eapply adm_inj; [exact Eq|]. apply pairidx_spec; lia.
    + intros l l' Hl Hl' E. pose proof (pairidx_spec t l k Ht ltac:(lia) ltac:(lia)) as A. pose proof (pairidx_spec t l' k Ht ltac:(lia) ltac:(lia)) as B.
      rewrite E, B in A. injection A as A. symmetry. apply (child_inj t l' t l); auto; lia.
Qed.

(** Sum over the nodes of levels 1 .. l of what they contribute at row p. *)
Definition gsum (l p : Z) : K := rsum 0 nn (fun s => if (1 <=? level h s)%Z && (level h s <=? l)%Z then rsum 0 (rank h s) (fun d => basis h s p d * y1f s d) else c0).

Lemma gsum_step s p : 0 <= s < nn -> 1 <= level h s -> inside h s p = true ->
  gsum (level h s) p = gsum (level h s - 1) p + rsum 0 (rank h s) (fun d => basis h s p d * y1f s d).
Proof.
  intros Hs Hl Hp. unfold gsum.
  assert (E : forall s', 0 <= s' < nn -> s' <> s ->
    (if (1 <=? level h s')%Z && (level h s' <=? level h s)%Z then rsum 0 (rank h s') (fun d => basis h s' p d * y1f s' d) else c0) =
    (if (1 <=? level h s')%Z && (level h s' <=? level h s - 1)%Z then rsum 0 (rank h s') (fun d => basis h s' p d * y1f s' d) else c0)).
  { intros s' Hs' Hne. destruct (Z.leb_spec 1 (level h s')); cbn [andb]; auto.
    destruct (Z.leb_spec (level h s') (level h s)), (Z.leb_spec (level h s') (level h s - 1)); auto; try lia.
    apply rsum_zero. intros d Hd. rewrite (basis_support h R); auto; [ring|]. apply not_true_iff_false. intros I. apply Hne.
    apply (same_level_disjoint s' s p); auto. lia. }
  apply (rsum_upd 0 nn _ _ s); auto.
  destruct (Z.leb_spec 1 (level h s)); [|lia]. cbn [andb]. rewrite Z.leb_refl. destruct (Z.leb_spec (level h s) (level h s - 1)); [lia|ring].
Qed.

(** What reaches a node from outside. *)
Definition ext_ok (t : Z) (e : Z -> K) : Prop :=
  (forall i, 0 <= i < rank h t -> rsum 0 (rank h t) (fun j => f_D (nf t) i j * w t j) + rsum 0 (rank h t) (fun c => f_R (nf t) i c * e c) = out t i) /\
  forall p, inside h t p = true -> rsum 0 (rank h t) (fun c => basis h t p c * e c) = gsum (level h t) p.

Lemma node_eq t e : 0 <= t < nn -> ext_ok t e -> forall i, 0 <= i < nrows h t ->
  rsum 0 (nrows h t) (fun j => f_Dh (nf t) i j * z t j) + rsum 0 (rank h t) (fun c => f_Uh (nf t) i c * e c) = inn t i.
Proof.
  intros Ht [He _] i Hi. rewrite <- Nn, <- Nr by auto. apply (node_solved (nf t) (Nf t Ht) (inn t) (out t) (w t) (z t) e (S_up t Ht) (S_down t Ht)).
  - intros a Ha. rewrite Nr, Nn in Ha by auto. now apply S_w2.
  - intros a Ha. rewrite Nr in * by auto. now apply He.
  - now rewrite Nn.
Qed.

Lemma ext_exists t : 0 <= t < nn -> exists e, ext_ok t e.
Proof.
  intros Ht. pose proof (level_range h R t Ht) as Hl. remember (Z.to_nat (level h t)) as n eqn:En. revert t Ht Hl En.
  induction n as [|n IH]; intros t Ht Hl En.
  - assert (L0 : level h t = 0) by lia. destruct (U_at h R t Ht) as (U & _ & _ & H0 & _). pose proof (hs_min h HS). specialize (H0 ltac:(lia)).
    exists (fun _ => c0). split; [rewrite H0; intros; lia|]. intros p _. rewrite H0, rsum_empty by lia. unfold gsum. symmetry. apply rsum_zero. intros s Hs.
    destruct (Z.leb_spec 1 (level h s)), (Z.leb_spec (level h s) (level h t)); cbn [andb]; auto; lia.
  - assert (Nt : t <> rt) by (intros ->; destruct root_level; lia).
    destruct (has_parent t Ht Nt) as (p & k & Hp & Hk & <-). destruct (child_at h R p k Hp Hk) as (_ & Rc & _ & Lc).
    pose proof (level_range h R p Hp) as Hlp. destruct (IH p Hp Hlp ltac:(lia)) as (ep & Hep). clear IH.
    set (t := child h p k) in *. exists (fun d => rsum 0 (rank h p) (fun c => Uval h p (choff h p k + d) c * ep c) + y1f t d).
    assert (Hnz : nchild h p <> 0) by lia. split.
    + intros i Hi. destruct (choff_le h R p k Hp Hk) as (C1 & C2). fold t in C2.
      pose proof (node_eq p ep Hp Hep (choff h p k + i)) as E. unfold nrows in E. destruct (Z.eqb_spec (nchild h p) 0); [contradiction|].
      specialize (E ltac:(lia)). rewrite S_in in E by auto. fold t in E. rewrite <- E. clear E.
      rewrite (rsum_choff p (nchild h p)) by (auto; lia).
      (* row k of the block matrix *)
      rewrite (rsum_split 0 k (nchild h p)) by lia. rewrite (rsum_split k (k + 1) (nchild h p)) by lia. rewrite rsum_one.
      assert (E1 : rsum 0 (rank h (child h p k)) (fun d => f_Dh (nf p) (choff h p k + i) (choff h p k + d) * z p (choff h p k + d)%Z) = rsum 0 (rank h t) (fun j => f_D (nf t) i j * w t j)).
      { apply rsum_ext. intros j Hj. rewrite (lk_diag _ _ p (Nl p Hp)), <- S_w by auto. reflexivity. }
      rewrite E1. clear E1.
      assert (E2 : forall l, 0 <= l < k -> rsum 0 (rank h (child h p l)) (fun d => f_Dh (nf p) (choff h p k + i) (choff h p l + d) * z p (choff h p l + d)%Z)
        = rsum 0 (rank h t) (fun a => f_R (nf t) i a * rsum 0 (rank h (child h p l)) (fun c => Bval h (pairidx p l k) c a * yhat h x (child h p l) c))).
      { intros l Hl'. destruct (child_at h R p l Hp ltac:(lia)) as (_ & Rl & _ & _).
        rewrite (rsum_ext 0 (rank h (child h p l)) _ (fun d => rsum 0 (rank h (child h p l)) (fun c => (f_R (nf (child h p l)) d c) * rsum 0 (rank h t) (fun a => Bval h (pairidx p l k) c a * f_R (nf t) i a)) * w (child h p l) d)).
        2:{ intros d Hd. destruct (lk_off _ _ p (Nl p Hp) (pairidx p l k) l k d i ltac:(lia) ltac:(lia) (pairidx_spec p l k Hp ltac:(lia) ltac:(lia)) Hd Hi) as [_ ->]. rewrite <- S_w by (auto; lia). reflexivity. }
        rewrite (rsum_ext 0 (rank h (child h p l)) _ (fun d => rsum 0 (rank h (child h p l)) (fun c => rsum 0 (rank h t) (fun a => Bval h (pairidx p l k) c a * f_R (nf t) i a) * f_R (nf (child h p l)) d c) * w (child h p l) d))
          by (intros d Hd; f_equal; apply rsum_ext; intros; ring).
        rewrite <- (rsum_assoc (rank h (child h p l)) (rank h (child h p l)) _ (fun c d => f_R (nf (child h p l)) d c)).
        rewrite (rsum_ext 0 (rank h (child h p l)) _ (fun c => yhat h x (child h p l) c * rsum 0 (rank h t) (fun a => Bval h (pairidx p l k) c a * f_R (nf t) i a))) by (intros c Hc; rewrite proj_w by auto; ring).
        rewrite rsum_assoc. apply rsum_ext. intros a Ha. rewrite (rsum_ext 0 (rank h (child h p l)) _ (fun c => Bval h (pairidx p l k) c a * yhat h x (child h p l) c)) by (intros; ring). ring. }
      rewrite (rsum_ext 0 k _ _ E2). clear E2.
      assert (E3 : forall l, k + 1 <= l < nchild h p -> rsum 0 (rank h (child h p l)) (fun d => f_Dh (nf p) (choff h p k + i) (choff h p l + d) * z p (choff h p l + d)%Z)
        = rsum 0 (rank h t) (fun a => f_R (nf t) i a * rsum 0 (rank h (child h p l)) (fun c => Bval h (pairidx p k l) a c * yhat h x (child h p l) c))).
      { intros l Hl'. destruct (child_at h R p l Hp ltac:(lia)) as (_ & Rl & _ & _).
        rewrite (rsum_ext 0 (rank h (child h p l)) _ (fun d => rsum 0 (rank h t) (fun a => f_R (nf t) i a * rsum 0 (rank h (child h p l)) (fun c => Bval h (pairidx p k l) a c * f_R (nf (child h p l)) d c)) * w (child h p l) d)).
        2:{ intros d Hd. destruct (lk_off _ _ p (Nl p Hp) (pairidx p k l) k l i d ltac:(lia) ltac:(lia) (pairidx_spec p k l Hp ltac:(lia) ltac:(lia)) Hi Hd) as [-> _]. rewrite <- S_w by (auto; lia). reflexivity. }
        rewrite <- (rsum_assoc (rank h t) (rank h (child h p l)) _ (fun a d => rsum 0 (rank h (child h p l)) (fun c => Bval h (pairidx p k l) a c * f_R (nf (child h p l)) d c))).
        apply rsum_ext. intros a Ha. f_equal. rewrite <- (rsum_assoc (rank h (child h p l)) (rank h (child h p l)) _ (fun c d => f_R (nf (child h p l)) d c)).
        apply rsum_ext. intros c Hc. now rewrite proj_w. }
      rewrite (rsum_ext (k + 1) (nchild h p) _ _ E3). clear E3.
      rewrite (rsum_ext 0 (rank h p) (fun c => f_Uh (nf p) (choff h p k + i) c * ep c) (fun c => rsum 0 (rank h t) (fun d => f_R (nf t) i d * Uval h p (choff h p k + d) c) * ep c))
        by (intros c Hc; rewrite (lk_U _ _ p (Nl p Hp)) by auto; reflexivity).
      rewrite <- (rsum_assoc (rank h t) (rank h p) _ (fun d c => Uval h p (choff h p k + d) c)).
      rewrite (rsum_swap 0 k), (rsum_swap (k + 1) (nchild h p)).
      rewrite (rsum_ext 0 (rank h t) (fun c => f_R (nf t) i c * (_ + _)) (fun d => f_R (nf t) i d * rsum 0 (rank h p) (fun c => Uval h p (choff h p k + d) c * ep c)
         + (rsum (k + 1) (nchild h p) (fun l => f_R (nf t) i d * rsum 0 (rank h (child h p l)) (fun c => Bval h (pairidx p k l) d c * yhat h x (child h p l) c))
          + rsum 0 k (fun l => f_R (nf t) i d * rsum 0 (rank h (child h p l)) (fun c => Bval h (pairidx p l k) c d * yhat h x (child h p l) c))))).
      2:{ intros d Hd. unfold t at 2. rewrite y1_child by auto. fold t. rewrite !rsum_mul_l. ring. }
      rewrite !rsum_add. ring.
    + intros r Hr. pose proof (child_inside h R p k r Hp Hk Hr) as Hrp. destruct Hep as [_ Hg]. specialize (Hg r Hrp).
      rewrite (rsum_ext 0 (rank h t) _ (fun d => basis h t r d * rsum 0 (rank h p) (fun c => Uval h p (choff h p k + d) c * ep c) + basis h t r d * y1f t d)) by (intros; ring).
      rewrite rsum_add. rewrite (gsum_step t r Rc ltac:(lia) Hr). f_equal. rewrite Lc. replace (level h p + 1 - 1)%Z with (level h p) by lia. rewrite <- Hg.
      rewrite rsum_assoc. apply rsum_ext. intros c Hc. f_equal. rewrite (basis_node h R) by auto. symmetry.
      rewrite (rsum_only 0 (nchild h p) _ k); auto. intros k' Hk' Hne. apply rsum_zero. intros d Hd. rewrite (basis_support h R); [ring|apply child_at; auto|].
      destruct (child_of_row h R p r Hp Hnz Hrp) as (k0 & Hk0 & _ & U). apply U; auto. intros ->. apply Hne. destruct (Z.eq_dec k k0); auto. pose proof (U k Hk n0) as Hx. fold t in Hx. congruence.
Qed.

(** H x, row by row. *)
Lemma side_basis q n0 n1 k p : getz (h_adm h) q = Some (n0, n1) -> side h n0 n1 k p = basis h n0 p k /\ side h n1 n0 k p = basis h n1 p k.
Proof.
  intros E. destruct (hs_sib h HS q n0 n1 E) as (i & a & l & Hi & Ha & Hl & -> & ->). unfold side.
  destruct (child_at h R i a Hi ltac:(lia)) as (_ & _ & _ & ->). destruct (child_at h R i l Hi ltac:(lia)) as (_ & _ & _ & ->). rewrite Z.leb_refl. auto.
Qed.
Lemma pair_dims q n0 n1 : getz (h_adm h) q = Some (n0, n1) -> 0 <= n0 < nn /\ 0 <= n1 < nn /\ 1 <= level h n0 /\ level h n0 = level h n1 /\ Bnrow h q = rank h n0 /\ Bncol h q = rank h n1.
Proof.
  intros E. destruct (ro_B _ R _ _ _ E) as (p & nr & nc & _ & E2 & E3 & E4 & E5 & _). unfold Bnrow, Bncol. rewrite E2, E3. cbn [val]. subst.
  destruct (hs_sib h HS q n0 n1 E) as (i & a & l & Hi & Ha & Hl & -> & ->).
  destruct (child_at h R i a Hi ltac:(lia)) as (_ & R1 & _ & L1). destruct (child_at h R i l Hi ltac:(lia)) as (_ & R2 & _ & L2). rewrite L1, L2, Z.leb_refl.
  pose proof (level_range h R i Hi). repeat (split; [auto; lia|]). auto.
Qed.

Lemma adm_times_x p : 0 <= p < h_kms h ->
  rsum 0 (h_kms h) (fun q => rsum 0 (zlen (h_adm h)) (fun k => adm_block h k p q + adm_block h k q p) * x q) = gsum (h_maxlevel h) p.
Proof.
  intros Hp.
  rewrite (rsum_ext 0 (h_kms h) _ (fun q => rsum 0 (zlen (h_adm h)) (fun k => (adm_block h k p q + adm_block h k q p) * x q))) by (intros; now rewrite rsum_mul_r).
  rewrite rsum_swap. unfold gsum, y1f.
  rewrite (rsum_ext 0 nn _ (fun s => rsum 0 (zlen (h_adm h)) (fun k => match getz (h_adm h) k with
      | Some (n0, n1) => (if (s =? n0)%Z then rsum 0 (rank h s) (fun d => basis h s p d * rsum 0 (rank h n1) (fun c => Bval h k d c * yhat h x n1 c)) else c0)
                       + (if (s =? n1)%Z then rsum 0 (rank h s) (fun d => basis h s p d * rsum 0 (rank h n0) (fun c => Bval h k c d * yhat h x n0 c)) else c0)
      | None => c0 end))).
  - rewrite (rsum_swap 0 nn). apply rsum_ext. intros k Hk. destruct (getz_in (h_adm h) k Hk) as [[n0 n1] E]. rewrite E.
    destruct (pair_dims k n0 n1 E) as (H0 & H1 & _ & _ & D1 & D2).
    rewrite rsum_add, !rsum_delta. repeat rewrite (proj2 (Z.leb_le _ _)), (proj2 (Z.ltb_lt _ _)) by lia. cbn [andb].
    rewrite (rsum_ext 0 (h_kms h) _ (fun q => rsum 0 (rank h n0) (fun r => rsum 0 (rank h n1) (fun c => basis h n0 p r * Bval h k r c * (basis h n1 q c * x q)))
       + rsum 0 (rank h n1) (fun c => rsum 0 (rank h n0) (fun r => basis h n1 p c * Bval h k r c * (basis h n0 q r * x q))))).
    2:{ intros q Hq. unfold adm_block. rewrite E, D1, D2.
        rewrite (rsum_swap 0 (rank h n1)).
        rewrite (rsum_ext 0 (rank h n0) (fun r => rsum 0 (rank h n1) (fun c => side h n0 n1 r p * Bval h k r c * side h n1 n0 c q)) (fun r => rsum 0 (rank h n1) (fun c => basis h n0 p r * Bval h k r c * basis h n1 q c))).
        2:{ intros r Hr. apply rsum_ext. intros c Hc. destruct (side_basis k n0 n1 r p E) as [-> _]. destruct (side_basis k n0 n1 c q E) as [_ ->]. reflexivity. }
        rewrite (rsum_ext 0 (rank h n0) (fun r => rsum 0 (rank h n1) (fun c => side h n0 n1 r q * Bval h k r c * side h n1 n0 c p)) (fun r => rsum 0 (rank h n1) (fun c => basis h n0 q r * Bval h k r c * basis h n1 p c))).
        2:{ intros r Hr. apply rsum_ext. intros c Hc. destruct (side_basis k n0 n1 r q E) as [-> _]. destruct (side_basis k n0 n1 c p E) as [_ ->]. reflexivity. }
        transitivity (rsum 0 (rank h n0) (fun r => rsum 0 (rank h n1) (fun c => basis h n0 p r * Bval h k r c * basis h n1 q c)) * x q
          + rsum 0 (rank h n0) (fun r => rsum 0 (rank h n1) (fun c => basis h n0 q r * Bval h k r c * basis h n1 p c)) * x q); [ring|].
        rewrite <- !rsum_mul_r. f_equal; apply rsum_ext; intros r Hr; rewrite <- rsum_mul_r; apply rsum_ext; intros; ring. }
    rewrite rsum_add. f_equal; rewrite rsum_swap; apply rsum_ext; intros r Hr; rewrite rsum_swap, <- rsum_mul_l; apply rsum_ext; intros c Hc; rewrite rsum_mul_l; unfold yhat; ring.
  - intros s Hs. destruct (Z.leb_spec 1 (level h s)) as [H1|H1]; cbn [andb].
    + pose proof (level_range h R s Hs). rewrite (proj2 (Z.leb_le (level h s) (h_maxlevel h))) by lia.
      rewrite (rsum_ext 0 (rank h s) _ (fun d => rsum 0 (zlen (h_adm h)) (fun k => basis h s p d * match getz (h_adm h) k with
         | Some (n0, n1) => (if (n0 =? s)%Z then rsum 0 (rank h n1) (fun c => Bval h k d c * yhat h x n1 c) else c0)
                          + (if (n1 =? s)%Z then rsum 0 (rank h n0) (fun c => Bval h k c d * yhat h x n0 c) else c0)
         | None => c0 end))) by (intros; now rewrite rsum_mul_l).
      rewrite rsum_swap. apply rsum_ext. intros k Hk. destruct (getz (h_adm h) k) as [[n0 n1]|]; [|apply rsum_zero; intros; ring].
      rewrite (Z.eqb_sym s n0), (Z.eqb_sym s n1).
      destruct (n0 =? s)%Z, (n1 =? s)%Z; try rewrite <- rsum_add; try (symmetry; apply rsum_zero; intros; ring).
      all: try (rewrite (rsum_ext 0 (rank h s) _ (fun _ => c0)) by (intros; ring); rewrite rsum_zero by auto; ring).
      all: try (apply rsum_ext; intros; ring).
      * transitivity (rsum 0 (rank h s) (fun d => basis h s p d * rsum 0 (rank h n1) (fun c => Bval h k d c * yhat h x n1 c))); [apply rsum_ext; intros; ring|ring].
      * transitivity (rsum 0 (rank h s) (fun d => basis h s p d * rsum 0 (rank h n0) (fun c => Bval h k c d * yhat h x n0 c))); [apply rsum_ext; intros; ring|ring].
    + symmetry. apply rsum_zero. intros k Hk. destruct (getz_in (h_adm h) k Hk) as [[n0 n1] E]. rewrite E.
      destruct (pair_dims k n0 n1 E) as (_ & _ & L0 & L1 & _). destruct (Z.eqb_spec s n0), (Z.eqb_spec s n1); subst; try lia; ring.
Qed.

Theorem tree_solved : forall p, 0 <= p < h_kms h -> rsum 0 (h_kms h) (fun q => Smat h shift p q * x q) = b p.
Proof.
  intros p Hp.
  destruct (leaf_list h R) as (ls & Zls & Gls & Nls & Ils).
  (* the leaf of the row *)
  assert (HL : exists k0, 0 <= k0 < h_nleaf h /\ inside h (leaf h k0) p = true /\ forall k, 0 <= k < h_nleaf h -> k <> k0 -> inside h (leaf h k) p = false).
  { assert (HL : forall t, 0 <= t < nn -> inside h t p = true -> exists t', 0 <= t' < nn /\ nchild h t' = 0 /\ inside h t' p = true).
    { intros t Ht. replace t with (Z.of_nat (Z.to_nat t)) in * by lia. generalize dependent (Z.to_nat t). clear t. intros n. induction n as [n IH] using lt_wf_ind. intros Ht It.
      destruct (Z.eq_dec (nchild h (Z.of_nat n)) 0) as [E|E]; [eauto|]. destruct (child_of_row h R _ p Ht E It) as (k & Hk & Ik & _).
      destruct (child_at h R _ k Ht Hk) as (_ & Rc & Lt & _). apply (IH (Z.to_nat (child h (Z.of_nat n) k))); rewrite ?Z2Nat.id by lia; auto. lia. }
    destruct (HL rt) as (t & Ht & Et & It).
    { apply root_level. }
    { destruct root_level as [Rr _]. apply inside_iff. destruct (ct_root _ _ _ _ _ _ (ro_tree _ R)) as (_ & _ & nc & (D1 & D2 & _)).
      destruct (ro_mcl _ R _ _ _ Rr D1 D2) as [M1 M2]. unfold msize, mfirst, mlast. rewrite M1, M2. cbn [val].
      destruct (ro_dims _ R) as (_ & _ & _ & _ & Dk & _). rewrite Dk in Hp. nia. }
    destruct (In_getz ls t (proj2 (Ils t) (conj Ht Et))) as (k0 & Gk). pose proof (getz_range _ _ _ Gk). rewrite Gls in Gk by lia. injection Gk as Gk.
    exists k0. split; [lia|]. rewrite Gk. split; auto. intros k Hk Hne. apply not_true_iff_false. intros Ik. apply Hne.
    assert (leaf h k = t). { destruct (proj1 (Ils (leaf h k)) (getz_In _ _ _ (Gls k Hk))) as [Rk Ek]. apply inside_iff in Ik, It. apply (leaf_rows h R (leaf h k) t p); auto; unfold msize in *; lia. }
    assert (getz ls k = getz ls k0) by (rewrite !Gls by lia; congruence). rewrite NoDup_nth_error in Nls. unfold getz in H1.
    destruct (Z.leb_spec 0 k), (Z.leb_spec 0 k0); try lia. assert (Z.to_nat k = Z.to_nat k0); [|lia]. apply Nls; auto. unfold zlen in *. lia. }
  destruct HL as (k0 & Hk0 & I0 & U0). set (t := leaf h k0) in *.
  destruct (proj1 (Ils t) (getz_In _ _ _ (Gls k0 Hk0))) as [Ht Et].
  destruct (ext_exists t Ht) as (e & He). pose proof (node_eq t e Ht He (p - mfirst h t)) as E.
  pose proof (proj1 (inside_iff h t p) I0) as Ip. unfold nrows in E. rewrite Et in E. rewrite Z.eqb_refl in E. specialize (E ltac:(lia)).
  rewrite S_leaf_in in E by (auto; lia). replace (mfirst h t + (p - mfirst h t))%Z with p in E by lia. rewrite <- E. clear E.
  destruct He as [_ Hg]. specialize (Hg p I0).
  rewrite (rsum_ext 0 (rank h t) (fun c => f_Uh (nf t) (p - mfirst h t) c * e c) (fun c => basis h t p c * e c)).
  2:{ intros c Hc. rewrite (lk_leafU _ _ t (Nl t Ht)) by (auto; lia). rewrite (basis_leaf h R) by auto. rewrite I0. reflexivity. }
  rewrite Hg. unfold Smat, Hmat. rewrite (hs_inadm h HS).
  rewrite (rsum_ext 0 (h_kms h) _ (fun q => rsum 0 (h_nleaf h) (fun k => diag_block h k p q) * x q + rsum 0 (zlen (h_adm h)) (fun k => adm_block h k p q + adm_block h k q p) * x q + shift * (delta p q * x q))).
  2:{ intros q Hq. rewrite (rsum_empty 0 (zlen [])) by zlia. ring. }
  rewrite !rsum_add, rsum_mul_l, rsum_delta_l, adm_times_x by auto.
  assert (Eg : gsum (h_maxlevel h) p = gsum (level h t) p).
  { unfold gsum. apply rsum_ext. intros s Hs. pose proof (level_range h R s Hs). rewrite (proj2 (Z.leb_le (level h s) (h_maxlevel h))) by lia.
    destruct (Z.leb_spec 1 (level h s)); cbn [andb]; auto. destruct (Z.leb_spec (level h s) (level h t)) as [|Hgt]; auto.
    apply rsum_zero. intros d Hd. rewrite (basis_support h R); auto; [ring|]. apply not_true_iff_false. intros Is.
    (* an ancestor of s at the level of t would be t, which has no children *)
    assert (A : forall n s, 0 <= s < nn -> inside h s p = true -> Z.to_nat (level h s - level h t) = n -> level h t < level h s -> False).
    { clear s Hs H H0 Hgt Is d Hd. induction n as [|n IH]; intros s Hs Is En Hgt; [lia|]. assert (Ns : s <> rt) by (intros ->; destruct root_level; pose proof (level_range h R t Ht); lia).
      destruct (has_parent s Hs Ns) as (a & k & Ha & Hk & <-). destruct (child_at h R a k Ha Hk) as (_ & _ & _ & Lc). pose proof (child_inside h R a k p Ha Hk Is) as Ia.
      destruct (Z.eq_dec (level h a) (level h t)) as [El|]; [|apply (IH a); auto; lia]. assert (a = t) by (apply (same_level_disjoint a t p); auto). subst a. lia. }
    eapply A; eauto. }
  rewrite Eg.
  assert (Ed : rsum 0 (h_kms h) (fun q => rsum 0 (h_nleaf h) (fun k => diag_block h k p q) * x q) + shift * x p = rsum 0 (msize h t) (fun j => f_Dh (nf t) (p - mfirst h t) j * z t j)).
  { rewrite (rsum_ext 0 (h_kms h) _ (fun q => if inside h t q then Dval h k0 (p - mfirst h t) (q - mfirst h t) * x q else c0)).
    - rewrite (rsum_inside h R t (fun q => Dval h k0 (p - mfirst h t) (q - mfirst h t) * x q) Ht).
      rewrite (rsum_ext 0 (msize h t) (fun j => f_Dh (nf t) (p - mfirst h t) j * z t j) (fun j => Dval h k0 (p - mfirst h t) j * z t j + shift * (delta (p - mfirst h t) j * z t j))).
      2:{ intros j Hj. rewrite (lk_leafD _ _ t (Nl t Ht) k0) by (auto; lia). ring. }
      rewrite rsum_add, rsum_mul_l, rsum_delta_l by lia. rewrite <- S_leaf_out by (auto; lia). replace (mfirst h t + (p - mfirst h t))%Z with p by lia. f_equal.
      apply rsum_ext. intros j Hj. rewrite S_leaf_out by auto. replace (mfirst h t + j - mfirst h t)%Z with j by lia. reflexivity.
    - intros q Hq. rewrite (rsum_only 0 (h_nleaf h) _ k0 Hk0).
      + unfold diag_block. fold t. rewrite I0. cbn [andb]. destruct (inside h t q); ring.
      + intros k Hk Hne. unfold diag_block. rewrite (U0 k Hk Hne). reflexivity. }
  rewrite <- Ed. ring.
Qed.
End Tree.
