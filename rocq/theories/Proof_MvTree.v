(** Facts about a well-formed representation used by the sweeps. *)
From Coq Require Import ZArith List Lia Bool Permutation.
From Verif Require Import Base Mem Num CRing Model_Utils Spec_Utils Proof_Utils Model_Dense Spec_Dense Model_Partition Spec_Tree Model_Matvec Spec_Matvec.
Import ListNotations.
Open Scope Z_scope.

Lemma val_ld {A} (d : A) (m : mem A) i v : ld m i = Some v -> val d (ld m i) = v.
Proof. now intros ->. Qed.

Section Tree.
Context {F : num} {K : cring}.
Add Ring Kring : (cth K).
Local Open Scope ring_K.
Variable h : h2rep F K.
Hypothesis R : rep_ok h.
Notation t := (h_t h).

Lemma node_at i : 0 <= i < h_nnode h -> exists s e hh, node_data t i s e (level h i) hh (nchild h i) /\
  0 <= s <= e /\ e < h_npoint h /\ 0 <= level h i <= h_maxlevel h /\ 0 <= nchild h i <= 2 ^ h_ptdim h /\
  mfirst h i = (h_kdim h * s)%Z /\ mlast h i = (h_kdim h * (e + 1) - 1)%Z /\
  ld (h_mcl h) (i * 2) = Some (mfirst h i) /\ ld (h_mcl h) (i * 2 + 1) = Some (mlast h i).
Proof.
  intros Hi. destruct (ct_node _ _ _ _ _ _ (ro_tree _ R) i Hi) as (s & e & lv & hh & nc & D & H1 & H2 & H3 & H4 & H5 & _).
  destruct D as (D1 & D2 & D3 & D4 & D5).
  assert (El : level h i = lv) by (unfold level; now rewrite D3).
  assert (En : nchild h i = nc) by (unfold nchild; now rewrite D5).
  destruct (ro_mcl _ R i s e Hi D1 D2) as [M1 M2].
  exists s, e, hh. rewrite El, En. unfold mfirst, mlast. rewrite M1, M2. cbn [val].
  repeat (split; auto).
Qed.

Lemma ld_level i : 0 <= i < h_nnode h -> ld (a_level t) i = Some (level h i).
Proof. intros Hi. destruct (node_at i Hi) as (s & e & hh & (D1 & D2 & D3 & D4 & D5) & _). auto. Qed.
Lemma ld_nchild i : 0 <= i < h_nnode h -> ld (a_nchild t) i = Some (nchild h i).
Proof. intros Hi. destruct (node_at i Hi) as (s & e & hh & (D1 & D2 & D3 & D4 & D5) & _). auto. Qed.
Lemma level_range i : 0 <= i < h_nnode h -> 0 <= level h i <= h_maxlevel h.
Proof. intros Hi. destruct (node_at i Hi) as (s & e & hh & _ & _ & _ & H & _). auto. Qed.
Lemma nchild_range i : 0 <= i < h_nnode h -> 0 <= nchild h i.
Proof. intros Hi. destruct (node_at i Hi) as (s & e & hh & _ & _ & _ & _ & H & _). lia. Qed.
Lemma ld_mfirst i : 0 <= i < h_nnode h -> ld (h_mcl h) (i * 2) = Some (mfirst h i).
Proof. intros Hi. destruct (node_at i Hi) as (s & e & hh & _ & _ & _ & _ & _ & _ & _ & H & _). auto. Qed.
Lemma ld_mlast i : 0 <= i < h_nnode h -> ld (h_mcl h) (i * 2 + 1) = Some (mlast h i).
Proof. intros Hi. destruct (node_at i Hi) as (s & e & hh & _ & _ & _ & _ & _ & _ & _ & _ & H). auto. Qed.
Lemma cluster_range i : 0 <= i < h_nnode h -> 0 <= mfirst h i /\ 1 <= msize h i /\ mfirst h i + msize h i <= h_kms h.
Proof.
  intros Hi. destruct (node_at i Hi) as (s & e & hh & _ & H1 & H2 & _ & _ & M1 & M2 & _).
  destruct (ro_dims _ R) as (_ & D2 & _ & _ & Dk & _). unfold msize. rewrite M1, M2, Dk. nia.
Qed.
Lemma inside_iff i p : inside h i p = true <-> mfirst h i <= p < mfirst h i + msize h i.
Proof. unfold inside, msize. rewrite andb_true_iff, Z.leb_le, Z.leb_le. lia. Qed.
Lemma inside_false i p : ~ (mfirst h i <= p < mfirst h i + msize h i) -> inside h i p = false.
Proof. intros H. rewrite <- inside_iff in H. now destruct (inside h i p). Qed.

Lemma tiles_child (p lv : Z) cs : forall s e, tiles t p lv s e cs ->
  forall c, In c cs -> 0 <= c < p /\ ld (a_level t) c = Some lv.
Proof.
  induction cs as [|c cs IH]; intros s e H c' Hc; [contradiction|]. cbn [tiles] in H.
  destruct H as (ce & hc & nc & D & _ & H1 & H2 & H3). destruct Hc as [<-|Hc].
  - split; auto. apply D.
  - eapply IH; eauto.
Qed.

Lemma child_at i k : 0 <= i < h_nnode h -> 0 <= k < nchild h i ->
  ld (a_children t) (i * h_maxchild h + k) = Some (child h i k) /\
  0 <= child h i k < h_nnode h /\ child h i k < i /\ level h (child h i k) = (level h i + 1)%Z.
Proof.
  intros Hi Hk. destruct (node_at i Hi) as (s & e & hh & D & _).
  destruct (ct_children _ _ _ _ _ _ (ro_tree _ R) i _ _ _ _ _ Hi D ltac:(lia)) as (cs & Zc & Lc & Tc & _).
  destruct (ro_dims _ R) as (_ & _ & _ & Dm & _).
  destruct (getz_in cs k) as [c Hc]; [lia|].
  assert (E : ld (a_children t) (i * h_maxchild h + k) = Some c) by (rewrite Dm, Lc by lia; auto).
  unfold child. rewrite E. cbn [val]. split; auto.
  destruct (tiles_child _ _ _ _ _ Tc c (getz_In _ _ _ Hc)) as [B L].
  split; [lia|]. split; [lia|]. unfold level at 1. now rewrite L.
Qed.

Lemma leaf_at k : 0 <= k < h_nleaf h ->
  ld (a_height_nodes t) k = Some (leaf h k) /\ 0 <= leaf h k < h_nnode h.
Proof.
  intros Hk. pose proof (level_range (h_nnode h - 1)) as Hl.
  destruct (ct_root _ _ _ _ _ _ (ro_tree _ R)) as (Hn & _). specialize (Hl ltac:(lia)).
  destruct (ct_heights _ _ _ _ _ _ (ro_tree _ R) 0 ltac:(lia)) as (ns & C & _ & L & In_ & _).
  rewrite (ct_nleaf _ _ _ _ _ _ (ro_tree _ R)) in C. injection C as C.
  destruct (getz_in ns k) as [x Hx]; [lia|]. specialize (L k ltac:(lia)).
  replace (0 * h_nleaf h + k)%Z with k in L by lia.
  rewrite Hx in L. unfold leaf. rewrite L. cbn [val]. split; auto.
  apply getz_In, In_ in Hx. tauto.
Qed.

(** The nodes of a level, as the level list gives them. *)
Lemma level_list l : 0 <= l <= h_maxlevel h -> exists ns, ld (a_level_n t) l = Some (zlen ns) /\
  (forall j, 0 <= j < zlen ns -> ld (a_level_nodes t) (l * h_nleaf h + j) = getz ns j) /\
  NoDup ns /\ forall i, In i ns <-> (0 <= i < h_nnode h /\ level h i = l).
Proof.
  intros Hl. destruct (ct_levels _ _ _ _ _ _ (ro_tree _ R) l Hl) as (ns & C & _ & L & In_ & S).
  exists ns. split; auto. split; auto. split.
  - apply NoDup_nth_error. intros a b Ha E.
    destruct (Nat.lt_trichotomy a b) as [Hlt|[->|Hlt]]; auto; exfalso.
    + destruct (nth_error ns a) as [x|] eqn:Ex; [|apply nth_error_None in Ex; lia].
      specialize (S (Z.of_nat a) (Z.of_nat b) x x ltac:(lia)). unfold getz in S.
      rewrite !(proj2 (Z.leb_le 0 _)), !Nat2Z.id in S by lia. rewrite <- E, Ex in S. specialize (S eq_refl eq_refl). lia.
    + destruct (nth_error ns a) as [x|] eqn:Ex; [|apply nth_error_None in Ex; lia].
      specialize (S (Z.of_nat b) (Z.of_nat a) x x ltac:(lia)). unfold getz in S.
      rewrite !(proj2 (Z.leb_le 0 _)), !Nat2Z.id in S by lia. rewrite <- E, Ex in S. specialize (S eq_refl eq_refl). lia.
  - intros i. rewrite In_. split.
    + intros [A B]. split; auto. unfold level. now rewrite B.
    + intros [A B]. split; auto. rewrite <- B. now apply ld_level.
Qed.

Lemma U_at i : 0 <= i < h_nnode h -> exists U, getz (h_U h) i = Some U /\ dm_ncol U = rank h i /\
  (level h i < h_minlevel h -> rank h i = 0) /\
  (h_minlevel h <= level h i -> 1 <= rank h i /\
     dm_nrow U = (if nchild h i =? 0 then msize h i else choff h i (nchild h i)) /\
     forall r c, 0 <= r < dm_nrow U -> 0 <= c < rank h i -> ld (dm_data U) (0 + r * dm_ld U + c) = Some (Uval h i r c)).
Proof.
  intros Hi. destruct (ro_U _ R) as [Zu Hu]. destruct (getz_in (h_U h) i) as [U HU]; [lia|].
  exists U. split; auto. assert (Er : rank h i = dm_ncol U) by (unfold rank; now rewrite HU). rewrite Er.
  split; auto. destruct (Hu i U HU) as [H1 H2]. split; auto. intros Hl. destruct (H2 Hl) as (A & B & C & D).
  split; auto. split; auto. intros r c Hr Hc. destruct (D r c Hr Hc) as [v Hv].
  unfold Uval. rewrite HU. replace (0 + r * dm_ld U + c)%Z with (r * dm_ld U + c)%Z by lia. rewrite Hv. auto.
Qed.

Lemma rank_nonneg i : 0 <= i < h_nnode h -> 0 <= rank h i.
Proof. intros Hi. destruct (U_at i Hi) as (U & _ & _ & H1 & H2). destruct (Z.lt_ge_cases (level h i) (h_minlevel h)); [|specialize (H2 H)]; lia. Qed.

Lemma choff_step i k : 0 <= k -> choff h i (k + 1) = (choff h i k + rank h (child h i k))%Z.
Proof. intros. unfold choff. now rewrite zsumf_snoc by lia. Qed.
Lemma choff_0 i : choff h i 0 = 0.
Proof. unfold choff. now rewrite zsumf_empty by lia. Qed.

Lemma choff_le i k : 0 <= i < h_nnode h -> 0 <= k < nchild h i ->
  0 <= choff h i k /\ choff h i k + rank h (child h i k) <= choff h i (nchild h i).
Proof.
  intros Hi Hk.
  assert (A : forall k', 0 <= k' < nchild h i -> 0 <= rank h (child h i k')).
  { intros k' Hk'. apply rank_nonneg. now apply child_at. }
  split.
  - unfold choff. apply zsumf_nonneg. intros; apply A; lia.
  - rewrite <- choff_step by lia. unfold choff. rewrite (zsumf_split _ 0 (k + 1) (nchild h i)) by lia.
    pose proof (zsumf_nonneg (fun k' => rank h (child h i k')) (k + 1) (nchild h i)). cbv beta in H.
    specialize (H ltac:(intros; apply A; lia)). lia.
Qed.

(** The equations of the nested basis. *)
Lemma basis_leaf i p c : 0 <= i < h_nnode h -> nchild h i = 0 ->
  basis h i p c = if inside h i p then Uval h i (p - mfirst h i) c else c0.
Proof.
  intros Hi Hn. unfold basis. pose proof (level_range i Hi).
  replace (Z.to_nat (h_maxlevel h + 1 - level h i)) with (S (Z.to_nat (h_maxlevel h - level h i))) by lia.
  cbn [basis_n]. rewrite Hn. reflexivity.
Qed.
Lemma basis_node i p c : 0 <= i < h_nnode h -> nchild h i <> 0 ->
  basis h i p c = rsum 0 (nchild h i) (fun k => rsum 0 (rank h (child h i k)) (fun d =>
    basis h (child h i k) p d * Uval h i (choff h i k + d) c)).
Proof.
  intros Hi Hn. unfold basis at 1. pose proof (level_range i Hi).
  replace (Z.to_nat (h_maxlevel h + 1 - level h i)) with (S (Z.to_nat (h_maxlevel h - level h i))) by lia.
  cbn [basis_n]. destruct (Z.eqb_spec (nchild h i) 0); [contradiction|].
  apply rsum_ext. intros k Hk. apply rsum_ext. intros d Hd. f_equal. unfold basis. f_equal.
  destruct (child_at i k Hi Hk) as (_ & _ & _ & ->). lia.
Qed.

(** Sums over rows of the matrix restricted to a cluster. *)
Lemma rsum_inside i (f : Z -> K) : 0 <= i < h_nnode h ->
  rsum 0 (h_kms h) (fun p => if inside h i p then f p else c0) = rsum 0 (msize h i) (fun r => f (mfirst h i + r)%Z).
Proof.
  intros Hi. destruct (cluster_range i Hi) as (A & B & C).
  rewrite (rsum_split 0 (mfirst h i) (h_kms h)) by lia.
  rewrite (rsum_split (mfirst h i) (mfirst h i + msize h i) (h_kms h)) by lia.
  rewrite rsum_zero. 2:{ intros p Hp. rewrite inside_false; auto. lia. }
  rewrite (rsum_zero (mfirst h i + msize h i)). 2:{ intros p Hp. rewrite inside_false; auto. lia. }
  replace (rsum (mfirst h i) (mfirst h i + msize h i)%Z (fun p => if inside h i p then f p else c0))
    with (rsum (0 + mfirst h i)%Z (msize h i + mfirst h i)%Z (fun p => if inside h i p then f p else c0)) by (f_equal; lia).
  rewrite rsum_shift. transitivity (rsum 0 (msize h i) (fun r => if inside h i (r + mfirst h i) then f (r + mfirst h i)%Z else c0)); [ring|].
  apply rsum_ext. intros r Hr. rewrite (proj2 (inside_iff i (r + mfirst h i))) by lia. f_equal. lia.
Qed.

End Tree.
