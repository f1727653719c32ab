(** H2P_matmul: the backward transformation. *)
From Coq Require Import ZArith List Lia Bool Permutation.
From Verif Require Import Base Mem Num CRing Conc Model_Utils Spec_Utils Proof_Utils Model_Dense Spec_Dense Proof_Dense Proof_Dense2 Model_Partition Spec_Tree Model_CSR Model_Matvec Spec_Matvec
  Model_Build Proof_Gemv Proof_MvTree Proof_MvFwd Proof_MvMid Proof_MvBwd Model_Matmul Proof_Gemm Proof_MmFwd Proof_MmMid.
Import ListNotations.
Open Scope Z_scope.

Section Bwd.
Context {F : num} {K : cring}.
Add Ring Kring : (cth K).
Local Open Scope ring_K.
Variable h : h2rep F K.
Hypothesis R : rep_ok h.
Notation t := (h_t h).
Notation nth := (h_nthread h).
Variables (nv mmx : Z) (col : bool).
Hypothesis Hnv : 1 <= nv <= mmx.
Notation ldp := (if col then h_kms h else mmx).
Notation prs := (if col then 1 else ldp)%Z.
Notation pcell := (pcell h mmx col).
Notation pmat := (pmat h nv mmx col).
Notation filledm := (filledm h nv).

(** Contribution to row p, column l, of the nodes still to be handled. *)
Definition psumc (pend : Z -> bool) (y1 : list (dmat K)) (p l : Z) : K :=
  rsum 0 (h_nnode h) (fun i => if pend i then rsum 0 (rank h i) (fun c => basis h i p c * y1val y1 i (c * nv + l)) else c0).

Lemma psumc_add pend y1 y1' ch (w : Z -> Z -> K) p l : 0 <= ch < h_nnode h -> pend ch = true ->
  (forall j, j <> ch -> getz y1' j = getz y1 j) ->
  (forall d, 0 <= d < rank h ch -> y1val y1' ch (d * nv + l) = y1val y1 ch (d * nv + l) + w d l) ->
  psumc pend y1' p l = psumc pend y1 p l + rsum 0 (rank h ch) (fun d => basis h ch p d * w d l).
Proof.
  intros Hc Hp Ho Hv. unfold psumc.
  rewrite (rsum_upd 0 (h_nnode h) (fun i => if pend i then rsum 0 (rank h i) (fun c => basis h i p c * y1val y1 i (c * nv + l)) else c0) _ ch
    (rsum 0 (rank h ch) (fun d => basis h ch p d * w d l))); [ring|auto| |].
  - rewrite Hp, <- rsum_add. apply rsum_ext. intros d Hd. rewrite Hv by auto. ring.
  - intros i Hi Hne. destruct (pend i); auto. apply rsum_ext. intros c Hcc. unfold y1val. now rewrite Ho by auto.
Qed.

Definition bwdm_ok (y1 m0 : list (dmat K)) (py : mem K) (f : Z -> Z -> K) : Prop :=
  zlen y1 = h_nnode h /\ Forall mok y1 /\ (forall i, 0 <= i < h_nnode h -> filledm y1 i) /\ m0_ok h m0 /\
  zlen py = (h_kms h * mmx)%Z /\ pmat py f.

(** The rows of a leaf. *)
Lemma mm_bwd_leaf (td py : mem K) si n (tv f : Z -> Z -> K) : zlen py = (h_kms h * mmx)%Z -> pmat py f -> 0 <= si -> 0 <= n -> si + n <= h_kms h ->
  (forall r l, 0 <= r < n -> 0 <= l < nv -> ld td (r * nv + l) = Some (tv r l)) ->
  exists py', (if col then
             zfor 0 nv (fun l py => zfor 0 n (fun k py =>
               v <- ld td (l + k * nv)%Z; madd py (l * ldp + (si + k))%Z v) py) py
           else
             zfor 0 n (fun k py => zfor 0 nv (fun l py =>
               v <- ld td (k * nv + l)%Z; madd py ((si + k) * ldp + l)%Z v) py) py) = Some py' /\ zlen py' = zlen py /\
    pmat py' (fun p l => f p l + (if (si <=? p) && (p <? si + n) then tv (p - si)%Z l else c0)).
Proof.
  intros Zp Hp Hs Hn He Ht. pose proof (kms_nonneg h R) as Hk.
  cut (exists py', (if col then
             zfor 0 nv (fun l py => zfor 0 n (fun k py =>
               v <- ld td (l + k * nv)%Z; madd py (l * ldp + (si + k))%Z v) py) py
           else
             zfor 0 n (fun k py => zfor 0 nv (fun l py =>
               v <- ld td (k * nv + l)%Z; madd py ((si + k) * ldp + l)%Z v) py) py) = Some py' /\ zlen py' = zlen py /\
     (forall r l, 0 <= r < n -> 0 <= l < nv -> ld py' (pcell (si + r) l) = Some (f (si + r)%Z l + tv r l)) /\
     (forall x, (forall r l, 0 <= r < n -> 0 <= l < nv -> x <> pcell (si + r) l) -> getz py' x = getz py x)).
  { intros (py' & E & Z' & V' & O'). exists py'. split; auto. split; auto. apply (pmat_add h nv mmx col Hnv py py'); auto. }
  assert (Hpc : forall r l, 0 <= r < n -> 0 <= l < nv -> ld py (pcell (si + r) l) = Some (f (si + r)%Z l)) by (intros; apply Hp; lia).
  unfold Proof_MmFwd.pcell in *. destruct col.
  - destruct (region_loop nv n si (h_kms h) (fun l k py => v <- ld td (l + k * nv)%Z; madd py (l * h_kms h + (si + k))%Z v) (fun l k => f (si + k)%Z l + tv k l) py)
      as (py' & E & Z' & V' & O').
    + unfold fits. rewrite Zp. repeat split; try lia. intros. assert ((nv - 1) * h_kms h <= (mmx - 1) * h_kms h)%Z by (apply Z.mul_le_mono_nonneg_r; lia). lia.
    + intros l k D Hl Hkk ZD GD. replace (l + k * nv)%Z with (k * nv + l)%Z by lia. rewrite Ht by auto. cbn [bind].
      destruct (madd_getz D (l * h_kms h + (si + k)) (tv k l) (f (si + k)%Z l)) as (D' & E' & Z' & G').
      { replace (l * h_kms h + (si + k))%Z with (si + (l * h_kms h + k))%Z by lia. rewrite ld_getz, GD, <- ld_getz.
        rewrite <- Hpc by auto. f_equal; lia. }
      exists D'. split; auto. split; auto. intros x. rewrite G'. replace (l * h_kms h + (si + k))%Z with (si + (l * h_kms h + k))%Z by lia. reflexivity.
    + exists py'. split; [exact E|]. split; auto. split.
      * intros r l Hr Hl. replace (l * h_kms h + (si + r))%Z with (si + (l * h_kms h + r))%Z by lia. auto.
      * intros x Hx. apply O'. intros l r Hl Hr. replace (si + (l * h_kms h + r))%Z with (l * h_kms h + (si + r))%Z by lia. auto.
  - destruct (region_loop n nv (si * mmx) mmx (fun k l py => v <- ld td (k * nv + l)%Z; madd py ((si + k) * mmx + l)%Z v) (fun k l => f (si + k)%Z l + tv k l) py)
      as (py' & E & Z' & V' & O').
    + unfold fits. rewrite Zp. split; [lia|]. split; [lia|]. split; [nia|]. split; [lia|]. intros. assert ((si + n) * mmx <= h_kms h * mmx)%Z by (apply Z.mul_le_mono_nonneg_r; lia). nia.
    + intros k l D Hkk Hl ZD GD. rewrite Ht by auto. cbn [bind].
      destruct (madd_getz D ((si + k) * mmx + l) (tv k l) (f (si + k)%Z l)) as (D' & E' & Z' & G').
      { replace ((si + k) * mmx + l)%Z with (si * mmx + (k * mmx + l))%Z by lia. rewrite ld_getz, GD, <- ld_getz.
        rewrite <- Hpc by auto. f_equal; lia. }
      exists D'. split; auto. split; auto. intros x. rewrite G'. replace ((si + k) * mmx + l)%Z with (si * mmx + (k * mmx + l))%Z by lia. reflexivity.
    + exists py'. split; [exact E|]. split; auto. split.
      * intros r l Hr Hl. replace ((si + r) * mmx + l)%Z with (si * mmx + (r * mmx + l))%Z by lia. auto.
      * intros x Hx. apply O'. intros r l Hr Hl. replace (si * mmx + (r * mmx + l))%Z with ((si + r) * mmx + l)%Z by lia. auto.
Qed.

(** One child's share. *)
Lemma mm_bwd_child (y1 : list (dmat K)) c (td : mem K) idx (w : Z -> Z -> K) : zlen y1 = h_nnode h -> Forall mok y1 ->
  (forall i, 0 <= i < h_nnode h -> filledm y1 i) -> 0 <= c < h_nnode h -> h_minlevel h <= level h c -> 0 <= idx ->
  (forall d l, 0 <= d < rank h c -> 0 <= l < nv -> ld td (idx * nv + d * nv + l) = Some (w d l)) ->
  exists y1', (Uc <- getz (h_U h) c;
       let len := dm_ncol Uc in
       mc <- getz y1 c;
       mc <- (if dm_ld mc =? 0 then
                let mc := dm_resize mc len nv in
                d <- copy_matrix len nv td (idx * nv) nv (dm_data mc) 0 (dm_ld mc);
                Some (dm_set_data mc d)
              else
                d <- zfor 0 len (fun k0 d => zfor 0 nv (fun l d =>
                       v <- ld td (idx * nv + k0 * nv + l)%Z; madd d (k0 * dm_ld mc + l)%Z v) d) (dm_data mc);
                Some (dm_set_data mc d));
       y1 <- setz y1 c mc;
       Some ((idx + len)%Z, y1)) = Some ((idx + rank h c)%Z, y1') /\
    zlen y1' = h_nnode h /\ Forall mok y1' /\ (forall i, 0 <= i < h_nnode h -> filledm y1' i) /\
    (forall j, j <> c -> getz y1' j = getz y1 j) /\ forall d l, 0 <= d < rank h c -> 0 <= l < nv -> y1val y1' c (d * nv + l) = y1val y1 c (d * nv + l) + w d l.
Proof.
  intros Z1 F1 N1 Hc Hl Hidx Hw. destruct (U_at h R c Hc) as (U & EU & Er & _ & HU). specialize (HU Hl). destruct HU as (Hr & _).
  rewrite EU. cbn [bind]. rewrite Er. destruct (N1 c Hc) as (mc & Em & Hn). rewrite Em. cbn [bind].
  pose proof (Forall_getz _ _ _ _ F1 Em) as [Ok Kk].
  cbv zeta. match goal with |- exists _, (mc <- ?E0; _) = _ /\ _ => cut (exists mc', E0 = Some mc' /\ mok mc' /\ dm_ld mc' = nv /\ rank h c * nv <= zlen (dm_data mc') /\
       forall d l, 0 <= d < rank h c -> 0 <= l < nv -> ld (dm_data mc') (d * nv + l) = Some (y1val y1 c (d * nv + l) + w d l)) end.
  { intros (mc' & E & O' & L' & S' & V'). cbv zeta. cbv zeta in E. rewrite E. cbn [bind].
    destruct (setz_Some y1 c mc') as [y1' Es]; [lia|]. rewrite Es. cbn [bind]. exists y1'. split; auto.
    split; [rewrite (setz_zlen _ _ _ _ Es); auto|]. split; [eapply (Forall_setz _ _ _ _ _ F1); [|exact Es]; auto|]. split; [|split].
    - intros i Hi. unfold Proof_MmMid.filledm. rewrite (getz_setz _ _ _ _ _ Es). destruct (Z.eqb_spec c i); [|apply N1; auto].
      subst i. exists mc'. split; auto. right. repeat (split; auto). intros d l Hd Hl'. rewrite V'; eauto.
    - intros j Hj. rewrite (getz_setz _ _ _ _ _ Es). destruct (Z.eqb_spec c j); [congruence|auto].
    - intros d l Hd Hl'. unfold y1val at 1. rewrite (getz_setz _ _ _ _ _ Es), Z.eqb_refl. destruct (Z.eqb_spec (dm_ld mc') 0); [lia|].
      now rewrite V' by auto. }
  cbv zeta. destruct (Z.eqb_spec (dm_ld mc) 0) as [H0|H0].
  - destruct (dm_resize_ok mc (rank h c) nv) as (O1 & O2 & O3 & O4 & O5); [auto|nia|]. set (mr := dm_resize mc (rank h c) nv) in *. rewrite O4.
    destruct (copy_matrix_spec (rank h c) nv td (idx * nv) nv (dm_data mr) 0 nv) as (d & Ed & Zd & Gd & _).
    { unfold fits. repeat split; try lia; try nia. intros _ _. specialize (Hw (rank h c - 1)%Z (nv - 1)%Z ltac:(lia) ltac:(lia)). apply ld_range in Hw. lia. }
    { apply fits_ld; lia. }
    rewrite Ed. cbn [bind]. eexists. split; [reflexivity|]. split.
    { split; [apply dm_set_data_ok; auto|]. cbn [dm_set_data dm_nrow dm_ncol dm_data]. rewrite O2, O3. nia. }
    cbn [dm_set_data dm_ld dm_data]. split; auto. split; [lia|]. intros k l Hk Hl'. rewrite ld_getz. specialize (Gd k l Hk Hl'). rewrite Z.add_0_l in Gd. rewrite Gd.
    rewrite <- ld_getz, Hw by auto. f_equal. unfold y1val. rewrite Em, H0, Z.eqb_refl. ring.
  - destruct Hn as [?|(L1 & S1 & V1)]; [contradiction|]. rewrite L1.
    assert (Hg : forall k l, 0 <= k < rank h c -> 0 <= l < nv -> ld (dm_data mc) (k * nv + l) = Some (y1val y1 c (k * nv + l))).
    { intros k l Hk Hl'. unfold y1val. rewrite Em. destruct (Z.eqb_spec (dm_ld mc) 0); [contradiction|]. destruct (V1 k l Hk Hl') as [v Hv]. now rewrite Hv. }
    destruct (region_loop (rank h c) nv 0 nv (fun k l d => v <- ld td (idx * nv + k * nv + l)%Z; madd d (k * nv + l)%Z v) (fun k l => y1val y1 c (k * nv + l) + w k l) (dm_data mc))
      as (d & Ed & Zd & Vd & _).
    + apply fits_ld; lia.
    + intros k l D Hk Hl' ZD GD. rewrite Hw by auto. cbn [bind]. rewrite Z.add_0_l in GD.
      destruct (madd_getz D (k * nv + l) (w k l) (y1val y1 c (k * nv + l))) as (D' & E' & Z' & G').
      { rewrite ld_getz, GD, <- ld_getz. auto. }
      exists D'. split; auto.
    + rewrite Ed. cbn [bind]. eexists. split; [reflexivity|]. split.
      { split; [apply dm_set_data_ok; auto|]. cbn [dm_set_data dm_nrow dm_ncol dm_data]. lia. }
      cbn [dm_set_data dm_ld dm_data]. split; auto. split; [lia|]. intros k l Hk Hl'. apply Vd; auto.
Qed.

Lemma mm_bwd_node_spec s y1 m0 py f tid node (pend : Z -> bool) : bwdm_ok y1 m0 py f -> 0 <= tid < nth -> 0 <= node < h_nnode h ->
  h_minlevel h <= level h node -> pend node = false -> (forall k, 0 <= k < nchild h node -> pend (child h node k) = true) ->
  exists y1' m0' py' f', mm_bwd_node h nv ldp col tid node (bwd_st s y1 m0 py) = Some (bwd_st s y1' m0' py') /\ bwdm_ok y1' m0' py' f' /\
    forall p l, 0 <= p < h_kms h -> 0 <= l < nv -> f' p l + psumc pend y1' p l =
      f p l + psumc pend y1 p l + rsum 0 (rank h node) (fun c => basis h node p c * y1val y1 node (c * nv + l)).
Proof.
  intros (Z1 & F1 & N1 & (Zm & Fm) & Zp & Hpy) Ht Hi Hl Hpn Hpc. unfold mm_bwd_node. rewrite (ld_nchild h R) by auto. cbn [bind bwd_st s_y1].
  destruct (N1 node Hi) as (m & Em & Hm). rewrite Em. cbn [bind].
  destruct (Z.eqb_spec (dm_ld m) 0) as [H0|H0].
  { exists y1, m0, py, f. split; auto. split; [repeat (split; auto)|]. intros p l Hp Hl'. rewrite (rsum_zero 0 (rank h node)); [ring|].
    intros c Hc. unfold y1val. rewrite Em, H0, Z.eqb_refl. ring. }
  destruct Hm as [?|(L1 & S1 & V1)]; [contradiction|].
  destruct (U_at h R node Hi) as (U & EU & Er & _ & HU). specialize (HU Hl). destruct HU as (Hr1 & Hnr & HUv).
  rewrite EU. cbn [bind bwd_st s_m0]. destruct (getz_in m0 tid ltac:(lia)) as [t0 Et]. rewrite Et. cbn [bind]. rewrite Er.
  assert (Hnr0 : 0 <= dm_nrow U).
  { rewrite Hnr. destruct (Z.eqb_spec (nchild h node) 0) as [Hn|Hn].
    - destruct (cluster_range h R node Hi) as (C1 & C2 & C3). lia.
    - pose proof (nchild_range h R node Hi). destruct (choff_le h R node (nchild h node - 1) Hi ltac:(lia)) as (B1 & B2).
      destruct (child_at h R node (nchild h node - 1) Hi ltac:(lia)) as (_ & Rc & _). pose proof (rank_nonneg h R _ Rc). lia. }
  destruct (dm_resize_ok t0 (dm_nrow U) nv) as (O1 & O2 & O3 & O4 & O5); [eapply Forall_getz; eauto|nia|].
  cbv zeta. set (tr := dm_resize t0 (dm_nrow U) nv) in *. rewrite L1, O4.
  destruct (gemm_spec false false (dm_nrow U) nv (rank h node) (dm_data U) 0 (dm_ld U) (dm_data m) 0 nv false (dm_data tr) 0 nv
    (Uval h node) (fun c l => y1val y1 node (c * nv + l)) (fun _ _ => c0)) as (td & Etd & Ztd & Gtd & _); auto; try lia.
  { apply fits_ld; lia. }
  { intros c l Hc Hl'. rewrite Z.add_0_l. unfold y1val. rewrite Em. destruct (Z.eqb_spec (dm_ld m) 0); [contradiction|]. destruct (V1 c l Hc Hl') as [v Hv]. now rewrite Hv. }
  rewrite Etd. cbn [bind]. destruct (setz_Some m0 tid (dm_set_data tr td)) as [m0' Es]; [lia|]. rewrite Es. cbn [bind].
  assert (Om0 : m0_ok h m0').
  { split; [rewrite (setz_zlen _ _ _ _ Es); auto|]. eapply (Forall_setz _ _ _ _ _ Fm); [|exact Es]. now apply dm_set_data_ok. }
  pose (tv := fun r l => rsum 0 (rank h node) (fun c => Uval h node r c * y1val y1 node (c * nv + l))).
  assert (Htd : forall r l, 0 <= r < dm_nrow U -> 0 <= l < nv -> ld td (r * nv + l) = Some (tv r l)).
  { intros r l Hr Hl'. specialize (Gtd r l Hr Hl'). rewrite Z.add_0_l in Gtd. rewrite Gtd. f_equal. unfold tv. ring. }
  destruct (Z.eqb_spec (nchild h node) 0) as [Hn|Hn].
  - replace (2 * node)%Z with (node * 2)%Z by lia. rewrite (ld_mfirst h R), (ld_mlast h R) by auto. cbn [bind bwd_st set_m0 s_py].
    destruct (cluster_range h R node Hi) as (C1 & C2 & C3). fold (msize h node).
    destruct (mm_bwd_leaf td py (mfirst h node) (msize h node) tv f) as (py' & Ep & Zp' & Vp); auto; try lia.
    { intros r l Hr Hl'. apply Htd; auto. lia. }
    rewrite Ep. cbn [bind]. eexists y1, m0', py', _. split; [reflexivity|]. split; [split; auto; split; auto; split; auto; split; auto; split; [lia|exact Vp]|].
    intros p l Hp Hl'. cbv beta.
    rewrite (rsum_ext 0 (rank h node) (fun c => basis h node p c * y1val y1 node (c * nv + l))
      (fun c => (if inside h node p then Uval h node (p - mfirst h node) c * y1val y1 node (c * nv + l) else c0))).
    2:{ intros c Hc. rewrite (basis_leaf h R) by auto. destruct (inside h node p); ring. }
    replace ((mfirst h node <=? p) && (p <? mfirst h node + msize h node)) with (inside h node p).
    2:{ unfold inside, msize. destruct (Z.leb_spec (mfirst h node) p); destruct (Z.leb_spec p (mlast h node)); destruct (Z.ltb_spec p (mfirst h node + (mlast h node - mfirst h node + 1))); auto; lia. }
    destruct (inside h node p); [unfold tv; ring|]. rewrite rsum_zero by auto. ring.
  - pose proof (nchild_range h R node Hi) as Hn0.
    pose (P := fun (k : Z) (x : Z * list (dmat K)) => let '(idx, ya) := x in idx = choff h node k /\
      zlen ya = h_nnode h /\ Forall mok ya /\ (forall i, 0 <= i < h_nnode h -> filledm ya i) /\
      forall p l, 0 <= l < nv -> psumc pend ya p l = psumc pend y1 p l + rsum 0 k (fun k => rsum 0 (rank h (child h node k)) (fun d =>
        basis h (child h node k) p d * tv (choff h node k + d)%Z l))).
    match goal with |- context [zfor 0 (nchild h node) ?b ?z] => destruct (zfor_inv P 0 (nchild h node) b z) as [[idx ya] [E (P1 & P2 & P3 & P4 & P5)]] end.
    + lia.
    + split; [now rewrite choff_0|]. do 3 (split; auto). intros p l _. rewrite rsum_empty by lia. ring.
    + intros k [idx ya] Hk (P1 & P2 & P3 & P4 & P5). destruct (child_at h R node k Hi Hk) as (Ec & Rc & _ & Lc).
      rewrite Ec. cbn [bind]. destruct (choff_le h R node k Hi Hk) as (B1 & B2). pose proof (rank_nonneg h R _ Rc) as Rk.
      destruct (mm_bwd_child ya (child h node k) td idx (fun d l => tv (choff h node k + d)%Z l)) as (yb & Eb & Zb & Fb & Nb & Ob & Vb); auto; try lia.
      { intros d l Hd Hl'. rewrite P1. replace (choff h node k * nv + d * nv + l)%Z with ((choff h node k + d) * nv + l)%Z by lia.
        apply Htd; auto. rewrite Hnr. destruct (Z.eqb_spec (nchild h node) 0); [contradiction|]. lia. }
      cbv zeta in Eb. rewrite Eb. eexists. split; [reflexivity|]. unfold P. split; [rewrite choff_step by lia; lia|].
      split; auto. split; auto. split; auto. intros p l Hl'.
      rewrite (psumc_add pend ya yb (child h node k) (fun d l => tv (choff h node k + d)%Z l)) by auto.
      rewrite P5, rsum_snoc by (auto; lia). ring.
    + cbn [bwd_st s_y1 set_m0]. rewrite E. cbn [bind]. exists ya, m0', py, f. split; auto. split; [split; auto; split; auto; split; auto|].
      intros p l Hp Hl'. rewrite P5 by auto. cut (rsum 0 (nchild h node) (fun k => rsum 0 (rank h (child h node k)) (fun d =>
        basis h (child h node k) p d * tv (choff h node k + d)%Z l)) = rsum 0 (rank h node) (fun c => basis h node p c * y1val y1 node (c * nv + l))).
      { intros ->. ring. }
      rewrite (rsum_ext 0 (rank h node) _ (fun c => rsum 0 (nchild h node) (fun k => rsum 0 (rank h (child h node k)) (fun d =>
        basis h (child h node k) p d * (Uval h node (choff h node k + d) c * y1val y1 node (c * nv + l)))))).
      2:{ intros c Hc. rewrite (basis_node h R) by auto. rewrite <- rsum_mul_r. apply rsum_ext. intros k Hk. rewrite <- rsum_mul_r.
          apply rsum_ext. intros d Hd. ring. }
      rewrite rsum_swap. apply rsum_ext. intros k Hk. rewrite rsum_swap. apply rsum_ext. intros d Hd. unfold tv. now rewrite rsum_mul_l.
Qed.

Lemma mm_bwd_spec sched s y1 m0 py f :
  (forall i n, h_minlevel h <= i <= h_maxlevel h -> ld (a_level_n t) i = Some n ->
     omp_for (Z.min n nth) n (sched i)) ->
  bwdm_ok y1 m0 py f ->
  exists y1' m0' py' f', mm_bwd h nv ldp col sched (bwd_st s y1 m0 py) = Some (bwd_st s y1' m0' py') /\ bwdm_ok y1' m0' py' f' /\
    forall p l, 0 <= p < h_kms h -> 0 <= l < nv -> f' p l = f p l + rsum 0 (h_nnode h) (fun i => rsum 0 (rank h i) (fun c => basis h i p c * y1val y1 i (c * nv + l))).
Proof.
  intros Hsc H0. unfold mm_bwd. destruct (ro_dims _ R) as (_ & _ & _ & _ & _ & Hlv).
  pose (P := fun (L : Z) (s' : mvst K) => exists y1' m0' py' f', s' = bwd_st s y1' m0' py' /\ bwdm_ok y1' m0' py' f' /\
    forall p l, 0 <= p < h_kms h -> 0 <= l < nv -> f' p l + psumc (pendf h L []) y1' p l = f p l + rsum 0 (h_nnode h) (fun i => rsum 0 (rank h i) (fun c => basis h i p c * y1val y1 i (c * nv + l)))).
  match goal with |- context [zfor ?l ?n ?b ?z] => destruct (zfor_inv P l n b z) as [s1 [E1 (y1' & m0' & py' & f' & -> & O1 & V1)]] end; [lia| | |].
  - exists y1, m0, py, f. split; auto. split; auto. intros p l Hp Hl'. f_equal. unfold psumc. apply rsum_ext. intros i Hi. unfold pendf. cbn [existsb negb].
    rewrite andb_true_r. destruct (Z.leb_spec (h_minlevel h) (level h i)); auto. destruct (U_at h R i Hi) as (U & _ & _ & HU & _).
    rewrite (HU H). now rewrite rsum_empty by lia.
  - intros L s' HL (ya & ma & pa & fa & -> & Oa & Va).
    destruct (level_list h R L ltac:(lia)) as (ns & C & Ls & Nd & In_).
    destruct (level_sweep_inv h (fun done s' => exists y1' m0' py' f', s' = bwd_st s y1' m0' py' /\ bwdm_ok y1' m0' py' f' /\
      (forall i, In i done -> level h i = L) /\
      forall p l, 0 <= p < h_kms h -> 0 <= l < nv -> f' p l + psumc (pendf h L done) y1' p l = f p l + rsum 0 (h_nnode h) (fun i => rsum 0 (rank h i) (fun c => basis h i p c * y1val y1 i (c * nv + l))))
      (mm_bwd_node h nv ldp col) (sched L) L ns (Z.min (zlen ns) nth) (bwd_st s ya ma pa))
      as (s' & done & E & (yb & mb & pb & fb & -> & Ob & _ & Vb) & Hd); auto.
    + apply Hsc; auto. lia.
    + exists ya, ma, pa, fa. split; auto. split; auto. split; auto. intros i [].
    + intros done tid node s' Hnode Hnd Ht (yb & mb & pb & fb & -> & Ob & Lb & Vb). apply In_ in Hnode as [Hi Hl].
      destruct (mm_bwd_node_spec s yb mb pb fb tid node (pendf h L (node :: done)) Ob) as (yc & mc & pc & fc & Ec & Oc & Vc); auto; try lia.
      { unfold pendf. cbn [existsb]. rewrite Z.eqb_refl. cbn. apply andb_false_r. }
      { intros k Hk. destruct (child_at h R node k Hi Hk) as (_ & Rc & _ & Lc). unfold pendf.
        rewrite (proj2 (Z.leb_le _ _)) by lia. cbn [andb]. apply negb_true_iff. apply not_true_iff_false. rewrite existsb_In.
        intros [Hx|Hx].
        - rewrite <- Hx in Lc. lia.
        - specialize (Lb _ Hx). lia. }
      exists (bwd_st s yc mc pc). split; auto. exists yc, mc, pc, fc. split; auto. split; auto. split; [intros i [<-|Hx]; auto|]. intros p l Hp Hl'. rewrite Vc, <- Vb by auto.
      rewrite <- (Radd_assoc (cth K)). f_equal. unfold psumc.
      rewrite (rsum_upd 0 (h_nnode h) (fun i => if pendf h L (node :: done) i then rsum 0 (rank h i) (fun c => basis h i p c * y1val yb i (c * nv + l)) else c0) (fun i => if pendf h L done i then rsum 0 (rank h i) (fun c => basis h i p c * y1val yb i (c * nv + l)) else c0) node
        (rsum 0 (rank h node) (fun c => basis h node p c * y1val yb node (c * nv + l)))); auto.
      * unfold pendf. cbn [existsb]. rewrite Z.eqb_refl. cbn [orb negb]. rewrite andb_false_r.
        rewrite (proj2 (Z.leb_le _ _)) by lia. destruct (existsb (Z.eqb node) done) eqn:Ex; [apply existsb_In in Ex; contradiction|]. cbn [negb andb]. ring.
      * intros i Hi' Hne. unfold pendf. cbn [existsb]. destruct (Z.eqb_spec i node); [contradiction|]. reflexivity.
    + exists (bwd_st s yb mb pb). split; auto. exists yb, mb, pb, fb. split; auto. split; auto. intros p l Hp Hl'. rewrite <- Vb by auto. f_equal.
      unfold psumc. apply rsum_ext. intros i Hi. cut (pendf h (L + 1) [] i = pendf h L done i); [intros ->; reflexivity|]. unfold pendf. cbn [existsb negb]. rewrite andb_true_r.
      destruct (existsb (Z.eqb i) done) eqn:Ex.
      * apply existsb_In, Hd, In_ in Ex as [_ El]. rewrite El, andb_false_r. apply Z.leb_gt. lia.
      * rewrite andb_true_r. assert (level h i <> L). { intros El. apply not_true_iff_false in Ex. apply Ex, existsb_In, Hd, In_. auto. }
        destruct (Z.leb_spec L (level h i)); destruct (Z.leb_spec (L + 1) (level h i)); auto; lia.
  - exists y1', m0', py', f'. split; auto. split; auto. intros p l Hp Hl'. rewrite <- V1 by auto. unfold psumc.
    rewrite (rsum_zero 0 (h_nnode h) (fun i => if pendf h _ _ i then _ else _)); [ring|]. intros i Hi. unfold pendf. pose proof (level_range h R i Hi).
    rewrite (proj2 (Z.leb_gt _ _)) by lia. reflexivity.
Qed.
End Bwd.
