(** H2P_matmul: the forward transformation. *)
From Coq Require Import ZArith List Lia Bool Permutation.
From Verif Require Import Base Mem Num CRing Conc Model_Utils Spec_Utils Proof_Utils Model_Dense Spec_Dense Model_Partition Spec_Tree Model_Matvec Spec_Matvec
  Proof_Gemv Proof_MvTree Proof_MvFwd Model_Matmul Proof_Gemm.
Import ListNotations.
Open Scope Z_scope.

Lemma fits_ld m n off l z : 0 <= m -> 0 <= n -> 0 <= off -> n <= l -> off + m * l <= z -> fits m n off l z.
Proof. intros. unfold fits. repeat split; nia. Qed.

Section Fwd.
Context {F : num} {K : cring}.
Add Ring Kring : (cth K).
Local Open Scope ring_K.
Variable h : h2rep F K.
Hypothesis R : rep_ok h.
Notation t := (h_t h).
(** The columns of the batch, the width and the layout of the permuted arrays. *)
Variables (nv mmx : Z) (col : bool).
Hypothesis Hnv : 1 <= nv <= mmx.
Notation ldp := (if col then h_kms h else mmx).
Notation prs := (if col then 1 else ldp)%Z.

(** Cell of row p, column l of the permuted arrays. *)
Definition pcell (p l : Z) : Z := if col then (l * h_kms h + p)%Z else (p * mmx + l)%Z.
Definition pmat (m : mem K) (f : Z -> Z -> K) : Prop := forall p l, 0 <= p < h_kms h -> 0 <= l < nv -> ld m (pcell p l) = Some (f p l).

Variable xv : Z -> Z -> K.

Definition y0m_good (y0 : list (dmat K)) (i : Z) : Prop :=
  exists m, getz y0 i = Some m /\ dm_nrow m = rank h i /\ dm_ld m = nv /\
    forall c l, 0 <= c < rank h i -> 0 <= l < nv -> ld (dm_data m) (c * nv + l) = Some (yhat h (fun p => xv p l) i c).


Lemma mm_fwd_node_spec s y0 node :
  s_y0 s = Some y0 -> zlen y0 = h_nnode h -> Forall dm_ok y0 -> pmat (s_px s) xv ->
  0 <= node < h_nnode h -> h_minlevel h <= level h node ->
  (forall k, 0 <= k < nchild h node -> y0m_good y0 (child h node k)) ->
  exists y0', mm_fwd_node h nv ldp prs col node s = Some (set_y0 s y0') /\ zlen y0' = h_nnode h /\ Forall dm_ok y0' /\
    y0m_good y0' node /\ forall j, j <> node -> getz y0' j = getz y0 j.
Proof.
  intros Ey Zy Fy Hx Hi Hl Hk. unfold mm_fwd_node. rewrite (ld_nchild h R) by auto. cbn [bind].
  destruct (U_at h R node Hi) as (U & EU & Er & _ & HU). specialize (HU Hl). destruct HU as (Hr1 & Hnr & HUv).
  rewrite EU, Ey. cbn [bind]. destruct (getz_in y0 node) as [yn En]; [lia|]. rewrite En. cbn [bind].
  destruct (dm_resize_ok yn (dm_ncol U) nv) as (O1 & O2 & O3 & O4 & O5); [eapply Forall_getz; eauto|nia|].
  cbv zeta. set (yr := dm_resize yn (dm_ncol U) nv) in *. rewrite Er, O4 in *.
  match goal with |- exists _, (d <- ?E; _) = _ /\ _ => cut (exists d, E = Some d /\ zlen d = zlen (dm_data yr) /\
    forall c l, 0 <= c < rank h node -> 0 <= l < nv -> ld d (c * nv + l) = Some (yhat h (fun p => xv p l) node c)) end.
  { intros (d & Ed & Zd & Vd). rewrite Ed. cbn [bind].
    destruct (setz_Some y0 node (dm_set_data yr d)) as [y0' Es]; [lia|]. rewrite Es. cbn [bind].
    exists y0'. split; auto. pose proof (setz_zlen _ _ _ _ Es). split; [lia|]. split.
    { eapply (Forall_setz _ _ _ _ _ Fy); [|exact Es]. apply dm_set_data_ok; auto. }
    split.
    - exists (dm_set_data yr d). rewrite (getz_setz _ _ _ _ _ Es), Z.eqb_refl. cbn. auto.
    - intros j Hj. rewrite (getz_setz _ _ _ _ _ Es). destruct (Z.eqb_spec node j); [congruence|auto]. }
  assert (Hfit : forall d : mem K, zlen d = zlen (dm_data yr) -> fits (rank h node) nv 0 nv (zlen d)).
  { intros d Zd. apply fits_ld; lia. }
  destruct (Z.eqb_spec (nchild h node) 0) as [Hn|Hn].
  - replace (2 * node)%Z with (node * 2)%Z by lia. rewrite (ld_mfirst h R), (ld_mlast h R) by auto. cbn [bind]. destruct (cluster_range h R node Hi) as (C1 & C2 & C3).
    fold (msize h node).
    destruct (gemm_spec true col (rank h node) nv (msize h node) (dm_data U) 0 (dm_ld U) (s_px s) (mfirst h node * prs) ldp false (dm_data yr) 0 nv
      (fun c r => Uval h node r c) (fun r l => xv (mfirst h node + r)%Z l) (fun _ _ => c0)) as (d & Ed & Zd & Vd & _); auto; try lia.
    + intros c r Hc Hr. rewrite <- HUv by lia. f_equal; lia.
    + intros r l Hr Hl'. rewrite <- (Hx (mfirst h node + r)%Z l) by lia. unfold pcell. destruct col; f_equal; lia.
    + exists d. split; auto. split; auto. intros c l Hc Hl'. specialize (Vd c l Hc Hl'). rewrite Z.add_0_l in Vd. rewrite Vd. f_equal. rewrite (yhat_leaf h R) by auto. ring.
  - pose proof (nchild_range h R node Hi) as Hn0.
    pose (P := fun (k : Z) (x : Z * mem K) => let '(srow, d) := x in srow = choff h node k /\ zlen d = zlen (dm_data yr) /\
      (0 < k -> forall c l, 0 <= c < rank h node -> 0 <= l < nv -> ld d (c * nv + l) = Some (rsum 0 k (fun k => rsum 0 (rank h (child h node k)) (fun d =>
         Uval h node (choff h node k + d) c * yhat h (fun p => xv p l) (child h node k) d))))).
    match goal with |- context [zfor 0 (nchild h node) ?b ?z] => destruct (zfor_inv P 0 (nchild h node) b z) as [[srow d] [E (P1 & P2 & P3)]] end; auto.
    + split; [now rewrite choff_0|]. split; auto. lia.
    + intros k [srow d] Hk' (P1 & P2 & P3). destruct (child_at h R node k Hi Hk') as (Ec & Rc & _ & Lc).
      rewrite Ec. cbn [bind]. destruct (Hk k Hk') as (yk & Eyk & Nyk & Lyk & Vyk). rewrite Eyk. cbn [bind]. rewrite Nyk, Lyk.
      destruct (choff_le h R node k Hi Hk') as (B1 & B2). pose proof (rank_nonneg h R _ Rc).
      destruct (gemm_spec true false (rank h node) nv (rank h (child h node k)) (dm_data U) (srow * dm_ld U) (dm_ld U) (dm_data yk) 0 nv (negb (k =? 0)) d 0 nv
        (fun c r => Uval h node (choff h node k + r) c) (fun r l => yhat h (fun p => xv p l) (child h node k) r)
        (fun c l => rsum 0 k (fun k => rsum 0 (rank h (child h node k)) (fun d =>
         Uval h node (choff h node k + d) c * yhat h (fun p => xv p l) (child h node k) d)))) as (d' & Ed' & Zd' & Vd' & _); auto; try lia.
      * intros c r Hc Hr. subst srow. rewrite <- HUv by lia. f_equal; lia.
      * intros Hk0 c l Hc Hl'. rewrite Z.add_0_l. apply P3; auto. destruct (Z.eqb_spec k 0); [discriminate|lia].
      * rewrite Ed'. cbn [bind]. eexists; split; [reflexivity|]. unfold P. split; [rewrite choff_step by lia; lia|]. split; [lia|].
        intros _ c l Hc Hl'. specialize (Vd' c l Hc Hl'). rewrite Z.add_0_l in Vd'. rewrite Vd'. f_equal. rewrite rsum_snoc by lia.
        destruct (Z.eqb_spec k 0) as [Hk0|Hk0]; cbn [negb]; [|reflexivity]. rewrite (rsum_empty 0 k) by lia. reflexivity.
    + rewrite E. cbn [bind]. exists d. split; auto. split; auto. intros c l Hc Hl'. rewrite P3 by (auto; lia). f_equal.
      now rewrite (yhat_node h R) by auto.
Qed.

Lemma mm_fwd_spec sched s :
  (forall i n, h_minlevel h <= i <= h_maxlevel h -> ld (a_level_n t) i = Some n ->
     omp_for (Z.min n (h_nthread h)) n (sched i)) ->
  mats_ok (h_nnode h) (s_y0 s) -> pmat (s_px s) xv ->
  exists y0, mm_fwd h nv ldp prs col sched s = Some (set_y0 s y0) /\ zlen y0 = h_nnode h /\ Forall dm_ok y0 /\
    forall i, 0 <= i < h_nnode h -> h_minlevel h <= level h i -> y0m_good y0 i.
Proof.
  intros Hsc Hm Hx. unfold mm_fwd. cbv zeta.
  assert (H0 : exists y0, mm_init_y0 h nv s = set_y0 s y0 /\ zlen y0 = h_nnode h /\ Forall dm_ok y0).
  { unfold mm_init_y0. destruct (s_y0 s) as [y0|] eqn:E.
    - destruct Hm. exists y0. split; auto. destruct s; cbn in *; subst; auto.
    - eexists; split; [reflexivity|]. rewrite zlen_map. destruct (ro_U _ R) as [-> _]. split; auto.
      rewrite Forall_map, Forall_forall. intros U HU. destruct (0 <? dm_ncol U); unfold dm_ok, dm_init; cbn; rewrite ?zlen_alloc; auto; nia. }
  destruct H0 as (y00 & E0 & Z0 & F0). rewrite E0.
  destruct (ro_dims _ R) as (_ & _ & _ & _ & _ & Hlv).
  pose (P := fun (k : Z) (s' : mvst K) => exists y0, s' = set_y0 s y0 /\ zlen y0 = h_nnode h /\ Forall dm_ok y0 /\
    forall i, 0 <= i < h_nnode h -> h_maxlevel h - k < level h i -> y0m_good y0 i).
  match goal with |- context [zfor 0 ?n ?b ?z] => destruct (zfor_inv P 0 n b z) as [s1 [E1 (y0 & -> & Z1 & F1 & G1)]] end; [lia| | |].
  - exists y00. repeat (split; auto). intros i Hi Hl. pose proof (level_range h R i Hi). lia.
  - intros k s' Hk (y0 & -> & Z1 & F1 & G1).
    destruct (level_list h R (h_maxlevel h - k) ltac:(lia)) as (ns & C & L & Nd & In_).
    destruct (level_sweep_inv h (fun done s' => exists y0, s' = set_y0 s y0 /\ zlen y0 = h_nnode h /\ Forall dm_ok y0 /\
      (forall i, 0 <= i < h_nnode h -> h_maxlevel h - k < level h i -> y0m_good y0 i) /\ (forall i, In i done -> y0m_good y0 i))
      (fun _ node s => mm_fwd_node h nv ldp prs col node s) (sched (h_maxlevel h - k)%Z) (h_maxlevel h - k)%Z ns (Z.min (zlen ns) (h_nthread h)) (set_y0 s y0))
      as (s' & done & E & (y0' & -> & Z2 & F2 & G2 & D2) & Hd); auto.
    + apply Hsc; auto. lia.
    + exists y0. repeat (split; auto). intros i [].
    + intros done tid node s' Hnode Hnd _ (y1 & -> & Z2 & F2 & G2 & D2). apply In_ in Hnode as [Hi Hl].
      destruct (mm_fwd_node_spec (set_y0 s y1) y1 node) as (y2 & E2 & Z3 & F3 & G3 & O3); auto; try lia.
      { intros k' Hk'. destruct (child_at h R node k' Hi Hk') as (_ & Rc & _ & Lc). apply G2; auto. lia. }
      exists (set_y0 s y2). rewrite E2. split; auto. exists y2. split; auto. split; auto. split; auto. split.
      * intros i Hi' Hl'. assert (Hne : i <> node) by (intros ->; lia). destruct (G2 i Hi' Hl') as (m & Em & A & B).
        exists m. rewrite O3; auto.
      * intros i [<-|Hin]; auto. assert (Hne : i <> node) by congruence. destruct (D2 i Hin) as (m & Em & A & B).
        exists m. rewrite O3; auto.
    + exists (set_y0 s y0'). split; auto. exists y0'. split; auto. split; auto. split; auto.
      intros i Hi Hl. destruct (Z.eq_dec (level h i) (h_maxlevel h - k)) as [El|Hne].
      * apply D2, Hd, In_. auto.
      * apply G2; auto. lia.
  - exists y0. split; auto. split; auto. split; auto. intros i Hi Hl. apply G1; auto. lia.
Qed.
End Fwd.
