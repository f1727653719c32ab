(** The forward transformation computes the expanded bases' products with x. *)
From Coq Require Import ZArith List Lia Bool Permutation.
From Verif Require Import Base Mem Num CRing Conc Model_Utils Spec_Utils Proof_Utils Model_Dense Spec_Dense Model_Partition Spec_Tree Model_Matvec Spec_Matvec Proof_Gemv Proof_MvTree.
Import ListNotations.
Open Scope Z_scope.

(** Running events with distinct keys, in any order. *)
Lemma run_each {St E X} (key : E -> X) (a : E -> act St) (P : list X -> St -> Prop) (evs : list E) : forall done s,
  NoDup (map key evs) -> (forall e, In e evs -> ~ In (key e) done) -> P done s ->
  (forall done e s, In e evs -> ~ In (key e) done -> P done s -> exists s', a e s = Some s' /\ P (key e :: done) s') ->
  exists s', run (map a evs) s = Some s' /\ P (rev (map key evs) ++ done) s'.
Proof.
  induction evs as [|e evs IH]; intros done s Hn Hd H0 Hs.
  - exists s. auto.
  - cbn [map run rev]. inversion Hn as [|? ? Hnin Hnd]; subst.
    destruct (Hs done e s (or_introl eq_refl) (Hd e (or_introl eq_refl)) H0) as (s1 & E1 & P1). rewrite E1. cbn [bind].
    destruct (IH (key e :: done) s1) as (s' & E' & P'); auto.
    + intros e' He' [Heq|Hin]; [|now apply (Hd e' (or_intror He'))].
      apply Hnin. rewrite Heq. now apply in_map.
    + intros; apply Hs; auto. now right.
    + exists s'. split; auto. now rewrite <- app_assoc.
Qed.

Lemma dm_resize_ok {A} (m : dmat A) r c : dm_ok m -> 0 <= r * c ->
  dm_ok (dm_resize m r c) /\ dm_nrow (dm_resize m r c) = r /\ dm_ncol (dm_resize m r c) = c /\
  dm_ld (dm_resize m r c) = c /\ r * c <= zlen (dm_data (dm_resize m r c)).
Proof.
  unfold dm_ok, dm_resize. intros H Hn. destruct (Z.ltb_spec (dm_size m) (r * c)); cbn; rewrite ?zlen_alloc by lia; lia.
Qed.
Lemma dm_set_data_ok {A} (m : dmat A) d : dm_ok m -> zlen d = zlen (dm_data m) -> dm_ok (dm_set_data m d).
Proof. unfold dm_ok, dm_set_data. cbn. lia. Qed.

Lemma mok_resize {K : cring} (m : dmat K) r c : dm_ok m -> 0 <= r * c -> mok (dm_resize m r c).
Proof. intros H1 Hrc. destruct (dm_resize_ok m r c H1 Hrc) as (A & B & C & D & E). split; auto. lia. Qed.
Lemma mok_set_data {K : cring} (m : dmat K) d : mok m -> zlen d = zlen (dm_data m) -> mok (dm_set_data m d).
Proof. intros [H1 H2] Hz. split; [apply dm_set_data_ok; auto|]. unfold dm_set_data. cbn. lia. Qed.

Lemma Forall_getz {A} (P : A -> Prop) l i x : Forall P l -> getz l i = Some x -> P x.
Proof. intros H E. rewrite Forall_forall in H. apply H. eapply getz_In; eauto. Qed.
Lemma Forall_setz {A} (P : A -> Prop) l i x l' : Forall P l -> P x -> setz l i x = Some l' -> Forall P l'.
Proof.
  intros H Hx E. rewrite Forall_forall. intros y Hy. apply In_getz in Hy as (j & Hj).
  rewrite (getz_setz _ _ _ _ _ E) in Hj. destruct (i =? j); [congruence|]. eapply Forall_getz; eauto.
Qed.

Section Fwd.
Context {F : num} {K : cring}.
Add Ring Kring : (cth K).
Local Open Scope ring_K.
Variable h : h2rep F K.
Hypothesis R : rep_ok h.
Notation t := (h_t h).

(** Sweeping one level. *)
Lemma level_sweep_inv (P : list Z -> mvst K -> Prop) item sched l ns m s :
  (forall j, 0 <= j < zlen ns -> ld (a_level_nodes t) (l * h_nleaf h + j) = getz ns j) -> NoDup ns ->
  omp_for m (zlen ns) sched -> P [] s ->
  (forall done tid node s, In node ns -> ~ In node done -> 0 <= tid < m -> P done s ->
     exists s', item tid node s = Some s' /\ P (node :: done) s') ->
  exists s' done, level_sweep h item sched l s = Some s' /\ P done s' /\ forall i, In i done <-> In i ns.
Proof.
  intros HL Hn [Ht Hp] H0 Hs. unfold level_sweep.
  rewrite Forall_forall in Ht.
  assert (Hj : forall ev, In ev sched -> 0 <= snd ev < zlen ns).
  { intros ev Hev. apply In_zrange. eapply Permutation_in; [exact Hp|]. now apply in_map. }
  pose (key := fun ev : Z * Z => nthz ns (snd ev)).
  assert (Pk : Permutation (map key sched) ns).
  { unfold key. rewrite <- (map_map snd (nthz ns)). rewrite Hp.
    replace (map (nthz ns) (zrange 0 (zlen ns))) with ns; auto.
    apply getz_ext.
    - rewrite zlen_map, zlen_zrange by (pose proof (zlen_nonneg ns); lia). lia.
    - intros i Hi. rewrite getz_map, getz_zrange by lia. cbn [option_map]. replace (0 + i)%Z with i by lia. now apply getz_nthz. }
  match goal with |- context [run (map ?a sched) s] => destruct (run_each key a P sched [] s) as (s' & E & P') end; auto.
  - eapply Permutation_NoDup; [symmetry; exact Pk|auto].
  - intros done [tid j] s1 Hev Hd P1. specialize (Hj _ Hev). specialize (Ht _ Hev). cbn [fst snd] in Hj, Ht.
    rewrite HL by lia. rewrite (getz_nthz ns j) by lia. cbn [bind]. apply Hs; auto.
    unfold key. cbn [snd]. eapply getz_In. apply getz_nthz. exact Hj.
  - exists s', (rev (map key sched) ++ []). split; auto. split; auto. intros i. rewrite app_nil_r, <- in_rev.
    split; intros Hin; [exact (Permutation_in _ Pk Hin)|exact (Permutation_in _ (Permutation_sym Pk) Hin)].
Qed.

Variable xv : Z -> K.

(** The projection of x on the expanded basis of node i. *)
Definition yhat (i c : Z) : K := rsum 0 (h_kms h) (fun p => basis h i p c * xv p).

Lemma yhat_leaf i c : 0 <= i < h_nnode h -> nchild h i = 0 ->
  yhat i c = rsum 0 (msize h i) (fun r => Uval h i r c * xv (mfirst h i + r)%Z).
Proof.
  intros Hi Hn. unfold yhat.
  rewrite (rsum_ext 0 (h_kms h) _ (fun p => if inside h i p then Uval h i (p - mfirst h i) c * xv p else c0)).
  2:{ intros p Hp. rewrite (basis_leaf h R) by auto. destruct (inside h i p); ring. }
  rewrite (rsum_inside h R) by auto. apply rsum_ext. intros r Hr. do 2 f_equal. lia.
Qed.

Lemma yhat_node i c : 0 <= i < h_nnode h -> nchild h i <> 0 ->
  yhat i c = rsum 0 (nchild h i) (fun k => rsum 0 (rank h (child h i k)) (fun d =>
    Uval h i (choff h i k + d) c * yhat (child h i k) d)).
Proof.
  intros Hi Hn. unfold yhat.
  rewrite (rsum_ext 0 (h_kms h) _ (fun p => rsum 0 (nchild h i) (fun k => rsum 0 (rank h (child h i k)) (fun d =>
    Uval h i (choff h i k + d) c * (basis h (child h i k) p d * xv p))))).
  2:{ intros p Hp. rewrite (basis_node h R) by auto. rewrite <- rsum_mul_r. apply rsum_ext. intros k Hk.
      rewrite <- rsum_mul_r. apply rsum_ext. intros d Hd. ring. }
  rewrite rsum_swap. apply rsum_ext. intros k Hk. rewrite rsum_swap. apply rsum_ext. intros d Hd.
  now rewrite rsum_mul_l.
Qed.

Definition y0_good (y0 : list (dmat K)) (i : Z) : Prop :=
  exists m, getz y0 i = Some m /\ (dm_nrow m = rank h i /\ dm_ld m = 1) /\ forall c, 0 <= c < rank h i -> ld (dm_data m) c = Some (yhat i c).

Lemma fwd_node_spec s y0 node :
  s_y0 s = Some y0 -> zlen y0 = h_nnode h -> Forall dm_ok y0 ->
  (forall p, 0 <= p < h_kms h -> ld (s_px s) p = Some (xv p)) ->
  0 <= node < h_nnode h -> h_minlevel h <= level h node ->
  (forall k, 0 <= k < nchild h node -> y0_good y0 (child h node k)) ->
  exists y0', fwd_node h node s = Some (set_y0 s y0') /\ zlen y0' = h_nnode h /\ Forall dm_ok y0' /\
    y0_good y0' node /\ forall j, j <> node -> getz y0' j = getz y0 j.
Proof.
  intros Ey Zy Fy Hx Hi Hl Hk. unfold fwd_node. rewrite (ld_nchild h R) by auto. cbn [bind].
  destruct (U_at h R node Hi) as (U & EU & Er & _ & HU). specialize (HU Hl). destruct HU as (Hr1 & Hnr & HUv).
  rewrite EU, Ey. cbn [bind]. destruct (getz_in y0 node) as [yn En]; [lia|]. rewrite En. cbn [bind].
  destruct (dm_resize_ok yn (dm_ncol U) 1) as (O1 & O2 & O3 & O4 & O5); [eapply Forall_getz; eauto|lia|].
  set (yr := dm_resize yn (dm_ncol U) 1) in *. rewrite Er in *.
  cut (exists d, (if nchild h node =? 0 then
          xs <- ld (h_mcl h) (node * 2);
          gemv_t (dm_nrow U) (rank h node) (dm_data U) 0 (dm_ld U) (fun r => ld (s_px s) (xs + r)) false (dm_data yr)
        else
          '(srow, d) <- zfor 0 (nchild h node) (fun k (x : Z * mem K) => let '(srow, d) := x in
             c <- ld (a_children (h_t h)) (node * h_maxchild h + k);
             yk <- getz y0 c;
             d <- gemv_t (dm_nrow yk) (rank h node) (dm_data U) (srow * dm_ld U) (dm_ld U)
                    (fun r => ld (dm_data yk) r) (negb (k =? 0)%Z) d;
             Some ((srow + dm_nrow yk)%Z, d)) (0, dm_data yr);
          Some d) = Some d /\ zlen d = zlen (dm_data yr) /\ forall c, 0 <= c < rank h node -> ld d c = Some (yhat node c)).
  { intros (d & Ed & Zd & Vd). rewrite Ed. cbn [bind].
    destruct (setz_Some y0 node (dm_set_data yr d)) as [y0' Es]; [lia|]. rewrite Es. cbn [bind].
    exists y0'. split; auto. pose proof (setz_zlen _ _ _ _ Es). split; [lia|]. split.
    { eapply (Forall_setz _ _ _ _ _ Fy); [|exact Es]. apply dm_set_data_ok; auto. }
    split.
    - exists (dm_set_data yr d). rewrite (getz_setz _ _ _ _ _ Es), Z.eqb_refl. cbn. auto.
    - intros j Hj. rewrite (getz_setz _ _ _ _ _ Es). destruct (Z.eqb_spec node j); [congruence|auto]. }
  destruct (Z.eqb_spec (nchild h node) 0) as [Hn|Hn].
  - rewrite (ld_mfirst h R) by auto. cbn [bind]. destruct (cluster_range h R node Hi) as (C1 & C2 & C3).
    destruct (gemv_t_spec (dm_nrow U) (rank h node) (dm_data U) 0 (dm_ld U) (fun r => ld (s_px s) (mfirst h node + r)) false
      (dm_data yr) (Uval h node) (fun r => xv (mfirst h node + r)%Z) (fun _ => c0)) as (d & Ed & Zd & Vd); auto; try lia.
    + intros r Hr. apply Hx. lia.
    + exists d. split; auto. split; auto. intros c Hc. rewrite Vd by auto. f_equal. rewrite yhat_leaf by auto. rewrite Hnr. ring.
  - pose proof (nchild_range h R node Hi) as Hn0.
    pose (P := fun (k : Z) (x : Z * mem K) => let '(srow, d) := x in srow = choff h node k /\ zlen d = zlen (dm_data yr) /\
      (0 < k -> forall c, 0 <= c < rank h node -> ld d c = Some (rsum 0 k (fun k => rsum 0 (rank h (child h node k)) (fun d =>
         Uval h node (choff h node k + d) c * yhat (child h node k) d))))).
    match goal with |- context [zfor 0 (nchild h node) ?b ?z] => destruct (zfor_inv P 0 (nchild h node) b z) as [[srow d] [E (P1 & P2 & P3)]] end; auto.
    + split; [now rewrite choff_0|]. split; auto. lia.
    + intros k [srow d] Hk' (P1 & P2 & P3). destruct (child_at h R node k Hi Hk') as (Ec & Rc & _ & Lc).
      rewrite Ec. cbn [bind]. destruct (Hk k Hk') as (yk & Eyk & (Nyk & _) & Vyk). rewrite Eyk. cbn [bind]. rewrite Nyk.
      destruct (choff_le h R node k Hi Hk') as (B1 & B2).
      destruct (U_at h R _ Rc) as (Uc & EUc & _ & _ & HUc). specialize (HUc ltac:(lia)). destruct HUc as (HUc & _).
      destruct (gemv_t_spec (rank h (child h node k)) (rank h node) (dm_data U) (srow * dm_ld U) (dm_ld U) (fun r => ld (dm_data yk) r) (negb (k =? 0))
        d (fun r c => Uval h node (choff h node k + r) c) (yhat (child h node k))
        (fun c => rsum 0 k (fun k => rsum 0 (rank h (child h node k)) (fun d =>
         Uval h node (choff h node k + d) c * yhat (child h node k) d)))) as (d' & Ed' & Zd' & Vd'); auto; try lia.
      * intros r c Hr Hc. subst srow. rewrite <- HUv by lia. f_equal. lia.
      * intros Hk0 c Hc. apply P3; auto. destruct (Z.eqb_spec k 0); [discriminate|lia].
      * rewrite Ed'. cbn [bind]. eexists; split; [reflexivity|]. unfold P. split; [rewrite choff_step by lia; lia|]. split; [lia|].
        intros _ c Hc. rewrite Vd' by auto. f_equal. rewrite rsum_snoc by lia.
        destruct (Z.eqb_spec k 0) as [->|Hk0]; cbn [negb]; auto.
    + rewrite E. cbn [bind]. exists d. split; auto. split; auto. intros c Hc. rewrite P3 by (auto; lia). f_equal.
      now rewrite yhat_node by auto.
Qed.

Lemma fwd_transform_spec sched s :
  (forall i n, h_minlevel h <= i <= h_maxlevel h -> ld (a_level_n t) i = Some n ->
     omp_for (Z.min n (h_nthread h)) n (sched i)) ->
  mats_ok (h_nnode h) (s_y0 s) -> (forall p, 0 <= p < h_kms h -> ld (s_px s) p = Some (xv p)) ->
  exists y0, fwd_transform h sched s = Some (set_y0 s y0) /\ zlen y0 = h_nnode h /\ Forall dm_ok y0 /\
    forall i, 0 <= i < h_nnode h -> h_minlevel h <= level h i -> y0_good y0 i.
Proof.
  intros Hsc Hm Hx. unfold fwd_transform. cbv zeta.
  assert (H0 : exists y0, init_y0 h s = set_y0 s y0 /\ zlen y0 = h_nnode h /\ Forall dm_ok y0).
  { unfold init_y0. destruct (s_y0 s) as [y0|] eqn:E.
    - destruct Hm. exists y0. split; auto. destruct s; cbn in *; subst; auto.
    - eexists; split; [reflexivity|]. rewrite zlen_map. destruct (ro_U _ R) as [-> _]. split; auto.
      rewrite Forall_map, Forall_forall. intros U HU. destruct (0 <? dm_ncol U); unfold dm_ok, dm_init; cbn; rewrite ?zlen_alloc; auto; nia. }
  destruct H0 as (y00 & E0 & Z0 & F0). rewrite E0.
  destruct (ro_dims _ R) as (_ & _ & _ & _ & _ & Hlv).
  pose (P := fun (k : Z) (s' : mvst K) => exists y0, s' = set_y0 s y0 /\ zlen y0 = h_nnode h /\ Forall dm_ok y0 /\
    forall i, 0 <= i < h_nnode h -> h_maxlevel h - k < level h i -> y0_good y0 i).
  match goal with |- context [zfor 0 ?n ?b ?z] => destruct (zfor_inv P 0 n b z) as [s1 [E1 (y0 & -> & Z1 & F1 & G1)]] end; [lia| | |].
  - exists y00. repeat (split; auto). intros i Hi Hl. pose proof (level_range h R i Hi). lia.
  - intros k s' Hk (y0 & -> & Z1 & F1 & G1).
    destruct (level_list h R (h_maxlevel h - k) ltac:(lia)) as (ns & C & L & Nd & In_).
    destruct (level_sweep_inv (fun done s' => exists y0, s' = set_y0 s y0 /\ zlen y0 = h_nnode h /\ Forall dm_ok y0 /\
      (forall i, 0 <= i < h_nnode h -> h_maxlevel h - k < level h i -> y0_good y0 i) /\ (forall i, In i done -> y0_good y0 i))
      (fun _ node s => fwd_node h node s) (sched (h_maxlevel h - k)%Z) (h_maxlevel h - k)%Z ns (Z.min (zlen ns) (h_nthread h)) (set_y0 s y0))
      as (s' & done & E & (y0' & -> & Z2 & F2 & G2 & D2) & Hd); auto.
    + apply Hsc; auto. lia.
    + exists y0. repeat (split; auto). intros i [].
    + intros done tid node s' Hnode Hnd _ (y1 & -> & Z2 & F2 & G2 & D2). apply In_ in Hnode as [Hi Hl].
      destruct (fwd_node_spec (set_y0 s y1) y1 node) as (y2 & E2 & Z3 & F3 & G3 & O3); auto; try lia.
      { intros k' Hk'. destruct (child_at h R node k' Hi Hk') as (_ & Rc & _ & Lc). apply G2; auto. lia. }
      exists (set_y0 s y2). rewrite E2. split; auto. exists y2. split; auto. split; auto. split; auto. split.
      * intros i Hi' Hl'. assert (Hne : i <> node) by (intros ->; lia). destruct (G2 i Hi' Hl') as (m & Em & A & B).
        exists m. rewrite O3; auto.
      * intros i [<-|Hin]; auto. assert (Hne : i <> node) by congruence. destruct (D2 i Hin) as (m & Em & A & B).
        exists m. rewrite O3; auto.
    + exists (set_y0 s y0'). split; auto. exists y0'. split; auto. split; auto. split; auto.
      intros i Hi Hl. destruct (Z.eq_dec (level h i) (h_maxlevel h - k)) as [El|Hne].
      * apply D2, Hd, In_. auto.
      * apply G2; auto. lia.
  - exists y0. split; auto. split; auto. split; auto. intros i Hi Hl. apply G1; auto. lia.
Qed.

End Fwd.
