(** The handle that was read represents the same matrix. *)
From Coq Require Import ZArith QArith List Lia Bool Permutation Sorted.
From Verif Require Import Base Mem Num CRing Conc Model_Utils Spec_Utils Proof_Utils Model_Dense Spec_Dense Proof_Dense Proof_Dense3 Proof_Bucket Model_Partition Spec_Tree Spec_Partition
  Model_Pairs Spec_Pairs Model_Matvec Spec_Matvec Proof_MvTree Proof_MvTop Model_Build Spec_Build Proof_Build Proof_BuildTop Model_Matmul Model_UJ Model_FileIO Proof_FileIO Proof_FileRead Proof_FileRead2 Proof_FileRead3.
Import ListNotations.
Open Scope Z_scope.

Section Use.
Context {F : num} {K : cring}.
Add Ring Kring : (cth K).
Variables (h : h2rep F K) (f : sfields F) (js : Z -> list Z) (uc : Z -> Z -> F) (pi : Z -> Z).
Hypothesis R : rep_ok h.
Hypothesis HU : forall i U, getz (h_U h) i = Some U -> 0 <= dm_nrow U /\ (h_minlevel h <= level h i -> dm_ld U = dm_ncol U).
Variables (nth : Z) (r : rfile F K) (tol : F).
Hypothesis Hnt : 1 <= nth.
Hypothesis C : contents h f js uc pi nth r tol.
Notation hr := (rf_h r).
Notation N := (h_nnode h).
Notation nB := (zlen (h_adm h)).
Notation nI := (zlen (h_inadm h)).
Notation nL := (h_nleaf h).

(** The read handle with the arrays that reading leaves unset (and that H2P_matvec
    does not use) taken from the stored one. *)
Definition tfix : tarrays F :=
  TArr (a_parent (h_t h)) (a_children (h_t hr)) (a_cluster (h_t hr)) (a_nchild (h_t hr)) (a_level (h_t hr)) (a_height (h_t h))
    (a_level_n (h_t hr)) (a_level_nodes (h_t hr)) (a_height_n (h_t h)) (a_height_nodes (h_t h)) (a_box (h_t h)).
Definition fixed : h2rep F K :=
  {| h_ptdim := h_ptdim hr; h_npoint := h_npoint hr; h_kdim := h_kdim hr; h_nthread := h_nthread hr; h_nnode := h_nnode hr; h_maxchild := h_maxchild hr;
     h_nleaf := h_nleaf hr; h_maxlevel := h_maxlevel hr; h_minlevel := h_minlevel hr; h_kms := h_kms hr;
     h_t := tfix; h_mcl := h_mcl hr; h_U := h_U hr; h_adm := h_adm hr; h_inadm := h_inadm hr; h_nr := h_nr hr;
     h_Bnrow := h_Bnrow hr; h_Bncol := h_Bncol hr; h_Bptr := h_Bptr hr; h_Bdata := h_Bdata hr;
     h_Dnrow := h_Dnrow hr; h_Dncol := h_Dncol hr; h_Dptr := h_Dptr hr; h_Ddata := h_Ddata hr;
     h_Bblk := h_Bblk hr; h_D0blk := h_D0blk hr; h_D1blk := h_D1blk hr; h_fwd := h_fwd hr; h_bwd := h_bwd hr |}.

(** ** The tree *)
Lemma cells i : 0 <= i < N -> ld (a_cluster tfix) (i * 2) = ld (a_cluster (h_t h)) (i * 2) /\ ld (a_cluster tfix) (i * 2 + 1) = ld (a_cluster (h_t h)) (i * 2 + 1) /\
  ld (a_level tfix) i = ld (a_level (h_t h)) i /\ ld (a_nchild tfix) i = ld (a_nchild (h_t h)) i.
Proof.
  intros Hi. destruct (tr_node _ _ _ (c_tree _ _ _ _ _ _ _ _ C) i Hi) as (E1 & E2 & E3 & _ & _ & E4). cbn in *.
  rewrite E1, E2, E3, E4, (ld_level h R i Hi), (ld_nchild h R i Hi). destruct (node_at h R i Hi) as (s & e & hh & (D1 & D2 & _) & _). rewrite Z.add_0_r in D1. unfold clf, cll. rewrite D1, D2. auto.
Qed.
Lemma nd_iff i s e lv hh nc : 0 <= i < N -> (node_data tfix i s e lv hh nc <-> node_data (h_t h) i s e lv hh nc).
Proof.
  intros Hi. destruct (cells i Hi) as (E1 & E2 & E3 & E4). unfold node_data. rewrite !Z.add_0_r, E1, E2, E3, E4. reflexivity.
Qed.
Lemma row_cells i k : 0 <= i < N -> 0 <= k < h_maxchild h -> ld (a_children tfix) (i * h_maxchild h + k) = ld (a_children (h_t h)) (i * h_maxchild h + k).
Proof.
  intros Hi Hk. pose proof (tr_child _ _ _ (c_tree _ _ _ _ _ _ _ _ C) i k Hi Hk) as E. cbn in *. rewrite E. symmetry. now apply child_cells.
Qed.
Lemma tiles_fix p lv cs : 0 <= p < N -> forall s e, tiles (h_t h) p lv s e cs -> tiles tfix p lv s e cs.
Proof.
  intros Hp. induction cs as [|c cs IH]; intros s e H; auto. cbn [tiles] in *. destruct H as (ce & hc & nc & D & Ep & H1 & H2 & H3).
  exists ce, hc, nc. split; [apply nd_iff; auto; lia|]. auto.
Qed.

Lemma dims : h_ptdim hr = h_ptdim h /\ h_npoint hr = h_npoint h /\ h_kdim hr = h_kdim h /\ h_nthread hr = nth /\ h_nnode hr = N /\
    h_maxchild hr = h_maxchild h /\ h_nleaf hr = nL /\ h_maxlevel hr = h_maxlevel h /\ h_minlevel hr = h_minlevel h /\ h_kms hr = h_kms h.
Proof. exact (c_dims _ _ _ _ _ _ _ _ C). Qed.

Lemma tree_fixed : cluster_tree (h_ptdim h) (h_npoint h) N (h_maxlevel h) nL tfix.
Proof.
  pose proof (ro_tree _ R) as T. destruct (ro_dims _ R) as (_ & _ & _ & D4 & _). constructor.
  - destruct (ct_root _ _ _ _ _ _ T) as (H1 & H2 & nc & H3). split; auto. split; auto. exists nc. apply nd_iff; auto. lia.
  - intros i Hi. destruct (ct_node _ _ _ _ _ _ T i Hi) as (s & e & lv & hh & nc & D & H). exists s, e, lv, hh, nc. split; auto. now apply nd_iff.
  - intros i s e lv hh nc Hi D Hn. apply nd_iff in D; auto. destruct (ct_children _ _ _ _ _ _ T i s e lv hh nc Hi D Hn) as (cs & Z1 & G & Ti & O1 & O2).
    exists cs. split; auto. split; [|split; [now apply tiles_fix|split; auto]]. intros k Hk. rewrite <- G by auto. rewrite <- D4. apply row_cells; auto.
    destruct (ct_node _ _ _ _ _ _ T i Hi) as (s' & e' & lv' & hh' & nc' & D' & _ & _ & _ & _ & Hc & _). destruct D as (_ & _ & _ & _ & D5). destruct D' as (_ & _ & _ & _ & D5'). rewrite D5 in D5'. injection D5' as <-. lia.
  - intros i k nc Hi En Hk. destruct (cells i Hi) as (_ & _ & _ & E4). rewrite E4 in En.
    assert (0 <= nc). { destruct (ct_node _ _ _ _ _ _ T i Hi) as (s' & e' & lv' & hh' & nc' & (_ & _ & _ & _ & D5') & _ & _ & _ & _ & Hc & _). rewrite En in D5'. injection D5' as <-. lia. }
    rewrite <- D4 in *. rewrite row_cells by (auto; lia). rewrite D4. eapply (ct_unused _ _ _ _ _ _ T); eauto. lia.
  - intros i Hi. destruct (ct_parent _ _ _ _ _ _ T i Hi) as (p & nc & k & E1 & Hp & E2 & Hk & E3). exists p, nc, k. split; auto. split; auto. destruct (cells p ltac:(lia)) as (_ & _ & _ & ->). split; auto. split; auto.
    rewrite <- D4 in *. rewrite row_cells; auto; [lia|]. split; [lia|].
    destruct (ct_node _ _ _ _ _ _ T p ltac:(lia)) as (s' & e' & lv' & hh' & nc' & (_ & _ & _ & _ & D5') & _ & _ & _ & _ & Hc & _). rewrite E2 in D5'. injection D5' as <-. lia.
  - intros i j si ei li hi ni sj ej lj hj nj Hij Hj Di Dj. apply nd_iff in Di; [|lia]. apply nd_iff in Dj; [|lia]. eapply (ct_postorder _ _ _ _ _ _ T i j); eauto.
  - intros q Hq. destruct (ct_leaf_of_point _ _ _ _ _ _ T q Hq) as (i & (Hi & s & e & lv & D & Hs) & U). exists i. split.
    + split; auto. exists s, e, lv. split; auto. now apply nd_iff.
    + intros i' (Hi' & s' & e' & lv' & D' & Hs'). apply U. split; auto. exists s', e', lv'. split; auto. now apply nd_iff in D'.
  - exact (c_levels _ _ _ _ _ _ _ _ C).
  - exact (ct_heights _ _ _ _ _ _ T).
  - exact (ct_nleaf _ _ _ _ _ _ T).
Qed.

(** ** Values *)
Lemma f_level i : 0 <= i < N -> level fixed i = level h i.
Proof. intros Hi. unfold level. destruct (cells i Hi) as (_ & _ & E & _). change (h_t fixed) with tfix. now rewrite E. Qed.
Lemma f_nchild i : 0 <= i < N -> nchild fixed i = nchild h i.
Proof. intros Hi. unfold nchild. destruct (cells i Hi) as (_ & _ & _ & E). change (h_t fixed) with tfix. now rewrite E. Qed.
Lemma f_child i k : 0 <= i < N -> 0 <= k < nchild h i -> child fixed i k = child h i k.
Proof.
  intros Hi Hk. unfold child. destruct dims as (_ & _ & _ & _ & _ & Em & _). change (h_maxchild fixed) with (h_maxchild hr). rewrite Em. change (h_t fixed) with tfix.
  pose proof (nchild_le h R i Hi). rewrite row_cells by (auto; lia). reflexivity.
Qed.
Lemma f_mcl i : 0 <= i < N -> ld (h_mcl fixed) (i * 2) = Some (mfirst h i) /\ ld (h_mcl fixed) (i * 2 + 1) = Some (mlast h i).
Proof.
  intros Hi. destruct (tr_node _ _ _ (c_tree _ _ _ _ _ _ _ _ C) i Hi) as (_ & _ & _ & E1 & E2 & _). cbn in *. rewrite E1, E2.
  destruct (node_at h R i Hi) as (s & e & hh & (D1 & D2 & _) & _). destruct (ro_mcl _ R i s e Hi D1 D2) as (M1 & M2). unfold mfirst, mlast, clf, cll. rewrite Z.add_0_r in D1. rewrite D1, D2, M1, M2. auto.
Qed.
Lemma f_first i : 0 <= i < N -> mfirst fixed i = mfirst h i /\ mlast fixed i = mlast h i.
Proof. intros Hi. destruct (f_mcl i Hi) as (E1 & E2). unfold mfirst at 1, mlast at 1. rewrite E1, E2. auto. Qed.
Lemma f_msize i : 0 <= i < N -> msize fixed i = msize h i.
Proof. intros Hi. unfold msize. destruct (f_first i Hi) as (-> & ->). reflexivity. Qed.
Lemma f_inside i p : 0 <= i < N -> inside fixed i p = inside h i p.
Proof. intros Hi. unfold inside. destruct (f_first i Hi) as (-> & ->). reflexivity. Qed.
Lemma f_U i : 0 <= i < N -> exists m, getz (h_U fixed) i = Some m /\ holds_full m (Unr h i) (rank h i) (Uval h i).
Proof. intros Hi. destruct (c_U _ _ _ _ _ _ _ _ C) as (_ & G). now apply G. Qed.
Lemma f_rank i : 0 <= i < N -> rank fixed i = rank h i.
Proof. intros Hi. destruct (f_U i Hi) as (m & E & (_ & Q & _)). unfold rank at 1. now rewrite E. Qed.
Lemma f_Uval i p c : 0 <= i < N -> 0 <= p < Unr h i -> 0 <= c < rank h i -> Uval fixed i p c = Uval h i p c.
Proof. intros Hi Hp Hc. destruct (f_U i Hi) as (m & E & (_ & _ & Q & _ & _ & G)). unfold Uval at 1. rewrite E, Q, G by auto. reflexivity. Qed.
Lemma f_leaf k : leaf fixed k = leaf h k.
Proof. reflexivity. Qed.
Lemma f_choff i k : 0 <= i < N -> 0 <= k <= nchild h i -> choff fixed i k = choff h i k.
Proof.
  intros Hi Hk. unfold choff, zsumf. f_equal. apply map_ext_zrange. intros j Hj. rewrite f_child by (auto; lia). apply f_rank. destruct (child_at h R i j Hi ltac:(lia)) as (_ & B & _). auto.
Qed.

Lemma Unr_val i : 0 <= i < N -> h_minlevel h <= level h i -> Unr h i = if nchild h i =? 0 then msize h i else choff h i (nchild h i).
Proof.
  intros Hi Hl. destruct (ro_U _ R) as (ZU & GU). destruct (getz_in (h_U h) i ltac:(lia)) as [U EU]. unfold Unr. rewrite EU. destruct (GU i U EU) as (_ & G2). destruct (G2 Hl) as (_ & Q & _). auto.
Qed.
Lemma rank_nonneg i : 0 <= i < N -> 0 <= rank h i.
Proof. intros Hi. destruct (U_facts h R HU i Hi) as (_ & _ & _ & _ & _ & Q & _). auto. Qed.
Lemma choff_mono i k : 0 <= i < N -> 0 <= k < nchild h i -> 0 <= choff h i k /\ choff h i k + rank h (child h i k) <= choff h i (nchild h i).
Proof.
  intros Hi Hk. unfold choff.
  assert (P : forall j, 0 <= j < nchild h i -> 0 <= rank h (child h i j)) by (intros j Hj; apply rank_nonneg; destruct (child_at h R i j Hi Hj) as (_ & B & _); auto).
  split; [apply zsumf_nonneg; intros j Hj; apply P; lia|]. rewrite (zsumf_split _ 0 k (nchild h i)) by lia. rewrite (zsumf_split _ k (k + 1) (nchild h i)) by lia.
  assert (zsumf (fun k' => rank h (child h i k')) k (k + 1) = rank h (child h i k)) by (rewrite zsumf_snoc, zsumf_empty by lia; lia).
  assert (0 <= zsumf (fun k' => rank h (child h i k')) (k + 1) (nchild h i)) by (apply zsumf_nonneg; intros j Hj; apply P; lia). lia.
Qed.

Lemma f_basis n : forall i p c, 0 <= i < N -> h_minlevel h <= level h i -> 0 <= c < rank h i -> basis_n fixed n i p c = basis_n h n i p c.
Proof.
  induction n as [|n IH]; intros i p c Hi Hl Hc; [reflexivity|]. cbn [basis_n]. rewrite f_nchild, f_inside by auto. pose proof (Unr_val i Hi Hl) as EU.
  destruct (Z.eqb_spec (nchild h i) 0) as [Ez|Ne].
  - destruct (inside h i p) eqn:Ei; [|reflexivity]. destruct (f_first i Hi) as (E1 & _). rewrite E1. apply f_Uval; auto. rewrite EU. unfold inside in Ei. apply andb_true_iff in Ei as (E3 & E4).
    apply Z.leb_le in E3, E4. unfold msize. lia.
  - apply rsum_ext. intros k Hk. rewrite f_child by auto. destruct (child_at h R i k Hi Hk) as (_ & B & _ & Lv).
    assert (Bc : 0 <= child h i k < N) by lia. rewrite f_rank by auto. apply rsum_ext. intros d Hd. rewrite f_choff by (auto; lia). rewrite IH; auto; [|lia].
    rewrite f_Uval; auto. rewrite EU. destruct (choff_mono i k Hi Hk) as (Q1 & Q2). lia.
Qed.

Lemma f_Bsize k : 0 <= k < nB -> Bnrow fixed k = Bnrow h k /\ Bncol fixed k = Bncol h k.
Proof.
  intros Hk. destruct (c_bm _ _ _ _ _ _ _ _ C) as (M & E1 & E2 & _). unfold Bnrow at 1, Bncol at 1. change (h_Bnrow fixed) with (h_Bnrow hr). change (h_Bncol fixed) with (h_Bncol hr). rewrite E1, E2.
  rewrite (mo_nrow _ _ _ _ _ _ M k Hk), (mo_ncol _ _ _ _ _ _ M k Hk). auto.
Qed.
Lemma f_Bptr k : 0 <= k <= nB -> ld (h_Bptr fixed) k = Some (zsumf (fun k => Bnrow h k * Bncol h k) 0 k).
Proof. intros Hk. destruct (c_bm _ _ _ _ _ _ _ _ C) as (M & _ & _ & E3). change (h_Bptr fixed) with (h_Bptr hr). rewrite E3. apply (mo_ptr _ _ _ _ _ _ M k Hk). Qed.
Lemma f_Bval k i j : 0 <= k < nB -> 0 <= i < Bnrow h k -> 0 <= j < Bncol h k -> Bval fixed k i j = Bval h k i j.
Proof.
  intros Hk Hi Hj. unfold Bval at 1. rewrite f_Bptr by lia. destruct (f_Bsize k Hk) as (_ & E). unfold Bncol at 1 in E. rewrite E. cbn [val].
  destruct (c_B _ _ _ _ _ _ _ _ C) as (_ & G). rewrite <- Z.add_assoc. change (h_Bdata fixed) with (h_Bdata hr). rewrite G by auto. reflexivity.
Qed.
Notation dsz := (fun k => msize h (dr h k) * msize h (dc h k)).
Lemma f_Dsize k : 0 <= k < nL + nI -> ld (h_Dnrow fixed) k = Some (msize h (dr h k)) /\ ld (h_Dncol fixed) k = Some (msize h (dc h k)).
Proof.
  intros Hk. destruct (c_dm _ _ _ _ _ _ _ _ C) as (M & E1 & E2 & _). change (h_Dnrow fixed) with (h_Dnrow hr). change (h_Dncol fixed) with (h_Dncol hr). rewrite E1, E2.
  rewrite (mo_nrow _ _ _ _ _ _ M k Hk), (mo_ncol _ _ _ _ _ _ M k Hk). auto.
Qed.
Lemma f_Dptr k : 0 <= k <= nL + nI -> ld (h_Dptr fixed) k = Some (zsumf dsz 0 k).
Proof. intros Hk. destruct (c_dm _ _ _ _ _ _ _ _ C) as (M & _ & _ & E3). change (h_Dptr fixed) with (h_Dptr hr). rewrite E3. apply (mo_ptr _ _ _ _ _ _ M k Hk). Qed.
Lemma f_Dval k i j : 0 <= k < nL + nI -> 0 <= i < msize h (dr h k) -> 0 <= j < msize h (dc h k) -> Dval fixed k i j = Dval h k i j.
Proof.
  intros Hk Hi Hj. unfold Dval at 1. rewrite f_Dptr by lia. destruct (f_Dsize k Hk) as (_ & E). rewrite E. cbn [val].
  destruct (c_D _ _ _ _ _ _ _ _ C) as (_ & G). rewrite <- Z.add_assoc. change (h_Ddata fixed) with (h_Ddata hr). rewrite G by auto. reflexivity.
Qed.
Lemma sz_nonneg k : 0 <= k < nB -> 0 <= Bnrow h k * Bncol h k.
Proof. intros Hk. destruct (adm_facts h R HU k Hk) as (_ & _ & _ & _ & _ & _ & _ & Q1 & Q2 & _). nia. Qed.
Lemma dsz_nonneg k : 0 <= k < nL + nI -> 0 <= dsz k.
Proof. intros Hk. destruct (d_facts h R k Hk) as (_ & _ & Q1 & Q2 & _). nia. Qed.

Lemma rep_fixed : rep_ok fixed.
Proof.
  destruct dims as (E1 & E2 & E3 & E4 & E5 & E6 & E7 & E8 & E9 & E10). destruct (ro_dims _ R) as (D1 & D2 & D3 & D4 & D5 & D6). destruct (c_pairs _ _ _ _ _ _ _ _ C) as (Ea & Ei).
  pose proof (nLn h R) as HL. pose proof (zlen_nonneg (h_inadm h)) as HI.
  assert (Lf : forall k, 0 <= k < nL -> 0 <= leaf h k < N) by (intros k Hk; now apply leaf_at).
  constructor; unfold fixed; cbn [h_ptdim h_npoint h_kdim h_nthread h_nnode h_maxchild h_nleaf h_maxlevel h_minlevel h_kms h_t h_mcl h_U h_adm h_inadm h_nr h_Bnrow h_Bncol h_Bptr h_Bdata h_Dnrow h_Dncol h_Dptr h_Ddata h_Bblk h_D0blk h_D1blk h_fwd h_bwd]; fold fixed;
    rewrite ?E1, ?E2, ?E3, ?E4, ?E5, ?E6, ?E7, ?E8, ?E9, ?E10, ?Ea, ?Ei.
  - do 5 (split; auto).
  - exact tree_fixed.
  - intros i s e Hi Hs He. destruct (cells i Hi) as (Q1 & Q2 & _). rewrite Z.add_0_r in Hs. rewrite Q1 in Hs. rewrite Q2 in He. destruct (f_mcl i Hi) as (M1 & M2). change (h_mcl hr) with (h_mcl fixed). rewrite M1, M2.
    destruct (ro_mcl _ R i s e Hi ltac:(now rewrite Z.add_0_r) He) as (M3 & M4). unfold mfirst, mlast. rewrite M3, M4. auto.
  - destruct (c_U _ _ _ _ _ _ _ _ C) as (ZU & _). split; auto. intros i U EU. pose proof (getz_range _ _ _ EU) as Hi. rewrite ZU in Hi. destruct (f_U i Hi) as (m & Em & (V1 & V2 & V3 & V4 & V5 & V6)).
    change (h_U fixed) with (h_U hr) in Em. rewrite EU in Em. injection Em as <-. rewrite f_level by auto. rewrite V1, V2, V3, V5. destruct (ro_U _ R) as (ZU' & GU). destruct (getz_in (h_U h) i ltac:(lia)) as [U0 EU0]. destruct (GU i U0 EU0) as (G1 & G2).
    split; [intros Hl; unfold rank; rewrite EU0; auto|]. intros Hl. destruct (G2 Hl) as (Q1 & Q2 & Q3 & Q4).
    assert (Er : rank h i = dm_ncol U0) by (unfold rank; now rewrite EU0). assert (Eu : Unr h i = dm_nrow U0) by (unfold Unr; now rewrite EU0).
    destruct (HU i U0 EU0) as (HU1 & _). rewrite Er, Eu.
    split; auto. split.
    { rewrite Q2. rewrite f_nchild by auto. destruct (Z.eqb_spec (nchild h i) 0); [now rewrite f_msize|]. rewrite f_choff; auto. pose proof (nchild_le h R i Hi). lia. }
    split; [unfold fits; destruct Q3 as (Q31 & Q32 & _); repeat split; try lia; nia|]. intros p c Hp Hc. exists (Uval h i p c). rewrite <- Er. apply V6; lia.
  - intros k n0 n1 E. destruct (ro_adm _ R k n0 n1 E) as (Q1 & Q2 & Q3 & Q4). rewrite !f_level by auto. auto.
  - destruct (c_nr _ _ _ _ _ _ _ _ C) as (Zr & Gr). split; auto. intros i Hi. exists (occurs (h_adm h) i). split; [now apply Gr|]. intros (k & n0 & n1 & E & Hn). unfold occurs.
    assert (P1 : 0 <= zcount (fun '(a, _) => a =? i) (h_adm h)) by (unfold zcount; apply zlen_nonneg). assert (P2 : 0 <= zcount (fun '(_, b) => b =? i) (h_adm h)) by (unfold zcount; apply zlen_nonneg).
    apply getz_In in E. assert (Pos : forall g : Z * Z -> bool, g (n0, n1) = true -> 1 <= zcount g (h_adm h)).
    { intros g Hg. unfold zcount. assert (In (n0, n1) (filter g (h_adm h))) by (apply filter_In; auto). destruct (filter g (h_adm h)); [contradiction|zlia]. }
    destruct Hn as [-> | ->]; [specialize (Pos (fun '(a, _) => a =? n0) (Z.eqb_refl n0))|specialize (Pos (fun '(_, b) => b =? n1) (Z.eqb_refl n1))]; lia.
  - intros k n0 n1 E. pose proof (getz_range _ _ _ E) as Hk. destruct (ro_B _ R k n0 n1 E) as (p & nrow & ncol & _ & B1 & B2 & B3 & B4 & _). destruct (ro_adm _ R k n0 n1 E) as (Q1 & Q2 & _).
    exists (zsumf (fun k => Bnrow h k * Bncol h k) 0 k), nrow, ncol. change (h_Bptr hr) with (h_Bptr fixed). rewrite f_Bptr by lia. split; auto.
    assert (F1 : Bnrow h k = nrow) by (unfold Bnrow; now rewrite B1). assert (F2 : Bncol h k = ncol) by (unfold Bncol; now rewrite B2).
    destruct (c_bm _ _ _ _ _ _ _ _ C) as (M & M1 & M2 & _). rewrite M1, M2, (mo_nrow _ _ _ _ _ _ M k Hk), (mo_ncol _ _ _ _ _ _ M k Hk), F1, F2. do 2 (split; auto).
    rewrite !f_level, !f_rank, !f_msize by auto. do 2 (split; auto). split; [apply zsumf_nonneg; intros q Hq; apply sz_nonneg; lia|]. intros q Hq.
    destruct (adm_facts h R HU k Hk) as (_ & _ & _ & _ & _ & _ & _ & Q3 & Q4 & _). rewrite F1, F2 in *.
    destruct (rowcol q nrow ncol Q3 Q4 Hq) as (W1 & W2 & W3). destruct (c_B _ _ _ _ _ _ _ _ C) as (_ & G). exists (Bval h k (q / ncol) (q mod ncol)). specialize (G k (q / ncol) (q mod ncol) Hk). rewrite F1, F2, <- W3 in G. apply G; auto.
  - destruct (c_blk _ _ _ _ _ _ _ _ C) as ((W & _) & _). destruct W as (b & W1 & W2 & W3 & W4 & W5 & W6). exists b. do 5 (split; auto). intros k Hk. assert (Hk' : 0 <= k < nB). 
    { split; [|lia]. assert (0 <= nthz b (zlen b - 1)); [|lia]. clear - W2 W3 W4. assert (X : forall n, 0 <= n -> n < zlen b -> 0 <= nthz b n).
      { intros n Hn. pattern n. apply natlike_ind; auto; [intros _; rewrite (nthz_eq _ _ _ W3); lia|]. intros m Hm IH Hz. specialize (W4 m Hm). unfold Z.succ in *. specialize (IH ltac:(lia)). specialize (W4 ltac:(lia)). lia. }
      apply X; lia. }
    destruct (f_Bsize k Hk') as (-> & ->). auto.
  - exact (ro_inadm _ R).
  - intros k n0 n1 E. pose proof (getz_range _ _ _ E) as Hk. destruct (ro_inadm _ R k n0 n1 E) as (Q1 & Q2). destruct (inadm_d h k n0 n1 E) as (W1 & W2). destruct (f_Dsize (nL + k) ltac:(lia)) as (V1 & V2). rewrite W1 in V1. rewrite W2 in V2.
    exists (zsumf dsz 0 (nL + k)). change (h_Dptr hr) with (h_Dptr fixed). rewrite f_Dptr by lia. split; auto. rewrite !f_msize by auto. do 2 (split; auto).
    split; [apply zsumf_nonneg; intros q Hq; apply dsz_nonneg; lia|]. intros q Hq. destruct (d_facts h R (nL + k) ltac:(lia)) as (_ & _ & P1 & P2 & _). rewrite W1 in P1. rewrite W2 in P2.
    destruct (rowcol q (msize h n0) (msize h n1) ltac:(lia) ltac:(lia) Hq) as (X1 & X2 & X3). destruct (c_D _ _ _ _ _ _ _ _ C) as (_ & G). exists (Dval h (nL + k) (q / msize h n1) (q mod msize h n1)). specialize (G (nL + k) (q / msize h n1) (q mod msize h n1) ltac:(lia)). rewrite W1, W2, <- X3 in G. apply G; auto.
  - intros k Hk. destruct (leaf_d h k Hk) as (W1 & W2). destruct (f_Dsize k ltac:(lia)) as (V1 & V2). rewrite W1 in V1. rewrite W2 in V2. rewrite f_leaf.
    exists (zsumf dsz 0 k). change (h_Dptr hr) with (h_Dptr fixed). rewrite f_Dptr by lia. split; auto. rewrite !f_msize by auto. do 2 (split; auto).
    split; [apply zsumf_nonneg; intros q Hq; apply dsz_nonneg; lia|]. intros q Hq. destruct (d_facts h R k ltac:(lia)) as (_ & _ & P1 & P2 & _). rewrite W1 in P1. rewrite W2 in P2.
    destruct (rowcol q (msize h (leaf h k)) (msize h (leaf h k)) ltac:(lia) ltac:(lia) Hq) as (X1 & X2 & X3). destruct (c_D _ _ _ _ _ _ _ _ C) as (_ & G). exists (Dval h k (q / msize h (leaf h k)) (q mod msize h (leaf h k))). specialize (G k (q / msize h (leaf h k)) (q mod msize h (leaf h k)) ltac:(lia)). rewrite W1, W2, <- X3 in G. apply G; auto.
  - destruct (c_blk _ _ _ _ _ _ _ _ C) as (_ & (W & _) & _). destruct W as (b & W1 & W2 & W3 & W4 & W5 & W6). exists b. do 5 (split; auto). intros k Hk. rewrite <- (W6 k Hk). assert (Hk' : 0 <= k < nL).
    { split; [|lia]. assert (0 <= nthz b (zlen b - 1)); [|lia]. clear - W2 W3 W4. assert (X : forall n, 0 <= n -> n < zlen b -> 0 <= nthz b n).
      { intros n Hn. pattern n. apply natlike_ind; auto; [intros _; rewrite (nthz_eq _ _ _ W3); lia|]. intros m Hm IH Hz. specialize (W4 m Hm). unfold Z.succ in *. specialize (IH ltac:(lia)). specialize (W4 ltac:(lia)). lia. }
      apply X; lia. }
    unfold Dnrow, Dncol. destruct (f_Dsize k ltac:(lia)) as (-> & ->). reflexivity.
  - destruct (c_blk _ _ _ _ _ _ _ _ C) as (_ & _ & (W & _)). destruct W as (b & W1 & W2 & W3 & W4 & W5 & W6). exists b. do 5 (split; auto). intros k Hk. rewrite <- (W6 k Hk). assert (Hk' : 0 <= k < nI).
    { split; [|lia]. assert (0 <= nthz b (zlen b - 1)); [|lia]. clear - W2 W3 W4. assert (X : forall n, 0 <= n -> n < zlen b -> 0 <= nthz b n).
      { intros n Hn. pattern n. apply natlike_ind; auto; [intros _; rewrite (nthz_eq _ _ _ W3); lia|]. intros m Hm IH Hz. specialize (W4 m Hm). unfold Z.succ in *. specialize (IH ltac:(lia)). specialize (W4 ltac:(lia)). lia. }
      apply X; lia. }
    unfold Dnrow, Dncol. destruct (f_Dsize (nL + k) ltac:(lia)) as (-> & ->). reflexivity.
  - destruct (c_pmt _ _ _ _ _ _ _ _ C) as (P1 & P2). rewrite P1, P2. exact (ro_pmt _ R).
Qed.
(** ** The matrix *)
Local Open Scope ring_K.
Lemma f_basis' i p c : 0 <= i < N -> h_minlevel h <= level h i -> 0 <= c < rank h i -> basis fixed i p c = basis h i p c.
Proof.
  intros Hi Hl Hc. unfold basis. rewrite f_level by auto. destruct dims as (_ & _ & _ & _ & _ & _ & _ & E & _). change (h_maxlevel fixed) with (h_maxlevel hr). rewrite E. now apply f_basis.
Qed.
Lemma f_side n m k p : 0 <= n < N -> 0 <= m < N -> h_minlevel h <= Z.max (level h n) (level h m) -> 0 <= k < (if level h m <=? level h n then rank h n else msize h n) -> side fixed n m k p = side h n m k p.
Proof.
  intros Hn Hm Hl Hk. unfold side. rewrite !f_level by auto. destruct (f_first n Hn) as (E & _). rewrite E. destruct (Z.leb_spec (level h m) (level h n)); [|reflexivity]. apply f_basis'; auto. lia.
Qed.
Lemma f_adm k p q : 0 <= k < nB -> adm_block fixed k p q = adm_block h k p q.
Proof.
  intros Hk. unfold adm_block. destruct (c_pairs _ _ _ _ _ _ _ _ C) as (Ea & _). change (h_adm fixed) with (h_adm hr). rewrite Ea.
  destruct (getz_in (h_adm h) k Hk) as [[n0 n1] E]. rewrite E. destruct (ro_adm _ R k n0 n1 E) as (Q1 & Q2 & _ & Q4). destruct (ro_B _ R k n0 n1 E) as (pp & nrow & ncol & _ & B1 & B2 & B3 & B4 & _).
  destruct (f_Bsize k Hk) as (-> & ->). assert (F1 : Bnrow h k = nrow) by (unfold Bnrow; now rewrite B1). assert (F2 : Bncol h k = ncol) by (unfold Bncol; now rewrite B2).
  apply rsum_ext. intros i Hi. apply rsum_ext. intros j Hj. rewrite f_Bval by auto. rewrite !f_side; auto; try lia; rewrite ?F1, ?F2 in *; rewrite <- ?B3, <- ?B4; auto.
Qed.
Lemma f_inadm k p q : 0 <= k < nI -> inadm_block fixed k p q = inadm_block h k p q.
Proof.
  intros Hk. unfold inadm_block. destruct (c_pairs _ _ _ _ _ _ _ _ C) as (_ & Ei). change (h_inadm fixed) with (h_inadm hr). rewrite Ei.
  destruct (getz_in (h_inadm h) k Hk) as [[n0 n1] E]. rewrite E. destruct (ro_inadm _ R k n0 n1 E) as (Q1 & Q2). rewrite !f_inside by auto. destruct (inside h n0 p && inside h n1 q)%bool eqn:I; [|reflexivity].
  destruct (f_first n0 Q1) as (-> & _). destruct (f_first n1 Q2) as (-> & _). destruct dims as (_ & _ & _ & _ & _ & _ & EL & _). change (h_nleaf fixed) with (h_nleaf hr). rewrite EL.
  destruct (inadm_d h k n0 n1 E) as (W1 & W2). apply andb_true_iff in I as (I1 & I2). unfold inside in I1, I2. apply andb_true_iff in I1 as (I1 & I3). apply andb_true_iff in I2 as (I2 & I4). apply Z.leb_le in I1, I2, I3, I4.
  pose proof (nLn h R). apply f_Dval; [lia| |]; rewrite ?W1, ?W2; unfold msize; lia.
Qed.
Lemma f_diag k p q : 0 <= k < nL -> diag_block fixed k p q = diag_block h k p q.
Proof.
  intros Hk. unfold diag_block. rewrite f_leaf. destruct (leaf_at h R k Hk) as (_ & Hl). rewrite !f_inside by auto. destruct (inside h (leaf h k) p && inside h (leaf h k) q)%bool eqn:I; [|reflexivity].
  destruct (f_first _ Hl) as (-> & _). destruct (leaf_d h k Hk) as (W1 & W2). apply andb_true_iff in I as (I1 & I2). unfold inside in I1, I2. apply andb_true_iff in I1 as (I1 & I3). apply andb_true_iff in I2 as (I2 & I4). apply Z.leb_le in I1, I2, I3, I4.
  pose proof (zlen_nonneg (h_inadm h)). apply f_Dval; [lia| |]; rewrite ?W1, ?W2; unfold msize; lia.
Qed.
Lemma Hmat_fixed p q : Hmat fixed p q = Hmat h p q.
Proof.
  unfold Hmat. destruct (c_pairs _ _ _ _ _ _ _ _ C) as (Ea & Ei). change (h_inadm fixed) with (h_inadm hr). change (h_adm fixed) with (h_adm hr). rewrite Ea, Ei.
  destruct dims as (_ & _ & _ & _ & _ & _ & EL & _). change (h_nleaf fixed) with (h_nleaf hr). rewrite EL. apply f_equal2; [apply f_equal2|]; apply rsum_ext; intros k Hk.
  - now apply f_diag.
  - now rewrite !f_inadm.
  - now rewrite !f_adm.
Qed.

(** ** H2P_matvec on the read handle *)
Lemma dense_diag_fixed tid i s : 0 <= i < nL -> dense_diag hr tid i s = dense_diag fixed tid i s.
Proof.
  intros Hi. unfold dense_diag. rewrite (c_leaves _ _ _ _ _ _ _ _ C i Hi). change (a_height_nodes (h_t fixed)) with (a_height_nodes (h_t h)). destruct (leaf_at h R i Hi) as (-> & _). reflexivity.
Qed.
Lemma run_ext_In {S T} (g1 g2 : T -> S -> option S) l : (forall x s, In x l -> g1 x s = g2 x s) -> forall s, run (map g1 l) s = run (map g2 l) s.
Proof.
  induction l as [|a l IH]; intros H s; auto. cbn [map run]. rewrite (H a s ltac:(now left)). destruct (g2 a s); cbn [bind]; auto. apply IH. intros; apply H; now right.
Qed.
Lemma bind_ext {A B} (m : option A) (g1 g2 : A -> option B) : (forall a, g1 a = g2 a) -> bind m g1 = bind m g2.
Proof. intros H. destruct m; cbn [bind]; auto. Qed.
Lemma schedule_fixed sc : schedule_ok hr sc -> schedule_ok fixed sc.
Proof. intros [H1 H2 H3 H4 H5 H6 H7]. constructor; assumption. Qed.
Lemma state_fixed s : state_ok hr s <-> state_ok fixed s.
Proof. split; intros [H1 H2 H3 H4 H5 H6 H7]; constructor; assumption. Qed.
Lemma matvec_fixed sc s x y : schedule_ok hr sc -> matvec hr sc s x y = matvec fixed sc s x y.
Proof.
  intros Hs. unfold matvec.
  change (gather_vector_elements (h_kms fixed) (h_fwd fixed) x 0 (s_px s) 0) with (gather_vector_elements (h_kms hr) (h_fwd hr) x 0 (s_px s) 0).
  apply bind_ext. intros px.
  change (reset_y fixed) with (reset_y hr). apply bind_ext. intros s1.
  change (fwd_transform fixed) with (fwd_transform hr). apply bind_ext. intros s2.
  change (intmd_mult fixed) with (intmd_mult hr). apply bind_ext. intros s3.
  change (bwd_transform fixed) with (bwd_transform hr). apply bind_ext. intros s4.
  assert (E : dense_mult hr (sc_den sc) s4 = dense_mult fixed (sc_den sc) s4); [|rewrite E; apply bind_ext; intros s5; reflexivity].
  unfold dense_mult. apply run_ext_In. intros [tid [b i]] s0 Hin. destruct b; [reflexivity|]. apply dense_diag_fixed.
  destruct (den_schedule_perm fixed rep_fixed _ (so_den _ _ (schedule_fixed _ Hs))) as (_ & m0 & m1 & B0 & B1 & P & _). apply (in_map snd) in Hin. cbn [snd] in Hin. rewrite P in Hin.
  destruct dims as (_ & _ & _ & _ & _ & _ & EL & _). change (h_nleaf fixed) with (h_nleaf hr) in B0. rewrite EL in B0.
  apply in_app_or in Hin as [Hin|Hin]; apply in_map_iff in Hin as (x0 & E0 & Hin); [injection E0 as ->; apply In_zrange in Hin; lia|discriminate].
Qed.

(** H2P_matvec on the handle that was read computes the stored matrix' products. *)
Theorem matvec_read sc s x y (xf : Z -> K) : schedule_ok hr sc -> state_ok hr s ->
  (forall j, 0 <= j < h_kms h -> ld x j = Some (xf j)) -> h_kms h <= zlen y ->
  exists s' y', matvec hr sc s x y = Some (s', y') /\ state_ok hr s' /\ zlen y' = zlen y /\
    (forall i, 0 <= i < h_kms h -> ld y' i = Some (rsum 0 (h_kms h) (fun j => Hmat h (nthz (h_bwd h) i) (nthz (h_bwd h) j) * xf j))) /\
    (forall i, h_kms h <= i -> getz y' i = getz y i).
Proof.
  intros Hs Hst Hx Hy. destruct dims as (_ & _ & _ & _ & _ & _ & _ & _ & _ & Ek). destruct (c_pmt _ _ _ _ _ _ _ _ C) as (_ & Pb).
  destruct (matvec_spec fixed rep_fixed sc s x y xf (schedule_fixed _ Hs) (proj1 (state_fixed s) Hst)) as (s' & y' & E & S & Zy & G & O).
  { intros j Hj. change (h_kms fixed) with (h_kms hr) in Hj. rewrite Ek in Hj. auto. }
  { change (h_kms fixed) with (h_kms hr). lia. }
  exists s', y'. rewrite matvec_fixed by auto. split; auto. split; [now apply state_fixed|]. split; auto. change (h_kms fixed) with (h_kms hr) in *. change (h_bwd fixed) with (h_bwd hr) in *. rewrite Ek, Pb in *.
  split; auto. intros i Hi. rewrite G by auto. f_equal. apply rsum_ext. intros j Hj. now rewrite Hmat_fixed.
Qed.
End Use.
