(** From the points to the product: the phases put together. *)
From Coq Require Import ZArith QArith List Lia Bool Permutation Reals Lra.
From Verif Require Import Base Mem Num CRing FNum Conc Model_Utils Spec_Utils Proof_Utils Model_Dense Spec_Dense Proof_Dense Model_CSR Spec_CSR Model_Partition Spec_Tree Spec_Partition Proof_Partition Proof_BuildTree
  Model_Pairs Spec_Pairs Proof_Pairs Proof_PairsTop Props_Partition Props_Pairs Model_Matvec Spec_Matvec Proof_MvTree Proof_MvCor Proof_MvMid Proof_MvTop Model_Build Spec_Build Proof_Build Proof_BuildFill Proof_BuildTop Proof_BuildUse
  Model_ID Spec_ID Proof_IDMath Proof_IDResid Proof_IDQRk Model_UJ Spec_UJ Proof_UJ Proof_UJNode Proof_UJSweep Proof_UJReal Props_UJ Spec_Approx Proof_Approx.
Import ListNotations.
Open Scope Z_scope.

Lemma build_fields {F : num} {K : cring} (kern : list F -> list F -> Z -> Z -> K) pt_dim xpt_dim kdim n_point n_thread t ps U J Jc blkB blkD0 blkD1 sc h bm dm :
  h2_build kern pt_dim xpt_dim kdim n_point n_thread t ps U J Jc blkB blkD0 blkD1 sc = Some (h, bm, dm) ->
  h_ptdim h = pt_dim /\ h_maxchild h = 2 ^ pt_dim /\ h_maxlevel h = r_max_level t.
Proof.
  unfold h2_build. intros H.
  repeat match type of H with
  | bind ?e _ = Some _ => let x := fresh "x" in destruct e as [x|]; cbn [bind] in H; [|discriminate H]
  | match ?x with (_, _) => _ end = Some _ => destruct x
  end.
  injection H as <- _ _. auto.
Qed.

Lemma build_fields_tree {F : num} {K : cring} (kern : list F -> list F -> Z -> Z -> K) pt_dim xpt_dim kdim n_point n_thread t ps U J Jc blkB blkD0 blkD1 sc h bm dm :
  h2_build kern pt_dim xpt_dim kdim n_point n_thread t ps U J Jc blkB blkD0 blkD1 sc = Some (h, bm, dm) ->
  h_nnode h = r_n_node t /\ h_minlevel h = ps_min_level ps /\ h_t h = r_arrays t.
Proof.
  unfold h2_build. intros H.
  repeat match type of H with
  | bind ?e _ = Some _ => let x := fresh "x" in destruct e as [x|]; cbn [bind] in H; [|discriminate H]
  | match ?x with (_, _) => _ end = Some _ => destruct x
  end.
  injection H as <- _ _. auto.
Qed.

Section Inputs.
Context {F : num} {E : fnum}.
Variables (fuel : nat) (rnd : Z -> F) (pt_dim xpt_dim kdim n_point : Z) (coord0 : mem F) (mlp : Z) (mls : F) (rbox : option (mem F)) (alpha : F) (depth : nat) (t : tree_result F) (ps : pairs)
  (pp : list (dmat F)) (dbl : bool) (stp : @stop E).
Hypothesis Hkd : 1 <= kdim.
Hypothesis Hok : points_ok pt_dim xpt_dim n_point coord0 rbox.
Hypothesis Ht : build_tree fuel rnd pt_dim xpt_dim n_point coord0 mlp mls rbox = Some (Some t).
Hypothesis Hdep : 2 * r_n_node t <= Z.of_nat depth.
Hypothesis Hp : calc_reduced_adm_pairs depth pt_dim alpha 0 (r_n_node t) (r_max_level t) (r_arrays t) = Some ps.
Hypothesis Hs : ps_adm ps <> [].
Hypothesis Hpp : forall l, ps_min_level ps <= l <= r_max_level t -> exists m, getz pp l = Some m /\ 0 <= dm_ncol m /\
    forall d j, 0 <= d < xpt_dim -> 0 <= j < dm_ncol m -> exists v, ld (dm_data m) (d * dm_ncol m + j) = Some v.

(** The partition delivers what the construction of the bases needs. *)
Lemma pipe_input : uj_input (UCtx pt_dim xpt_dim kdim n_point (r_coord t) (r_arrays t) pp dbl stp) (r_n_node t) (r_max_level t) (r_n_leaf t) (ps_min_level ps).
Proof.
  pose proof Hok as ([P1 P2] & P3 & _). destruct (boxes_of_tree _ _ _ _ _ _ _ _ _ _ Hok Ht) as (CT & BX).
  destruct (C18_pairs_classified _ _ _ _ _ _ _ _ _ _ _ _ _ _ Hok Ht Hdep Hp) as (Q1 & _).
  assert (Hn : 2 <= r_n_node t).
  { destruct (ps_adm ps) as [|[n0 n1] l] eqn:El; [congruence|]. destruct (Q1 n0 n1 (or_introl eq_refl)) as (X & Y & _ & _ & O & _).
    destruct (Z.eq_dec n0 n1) as [<-|]; [|lia]. exfalso. destruct (ct_node _ _ _ _ _ _ CT n0 X) as (s & e & lv & hh & nc & N & H1 & _).
    specialize (O s). rewrite (owns_data _ _ _ _ _ _ _ _ N) in O. destruct (Z.leb_spec s s), (Z.leb_spec s e); try lia; discriminate O. }
  destruct (C06_graph_of_partition _ _ _ _ _ _ _ _ _ _ _ _ _ _ Hok Ht Hdep Hn Hp) as (Hm & _).
  constructor; cbn [c_ptdim c_dim c_kdim c_npoint c_t c_coord c_pp]; auto.
  - split; [auto|]. split; [auto|lia].
  - destruct (build_tree_spec fuel rnd pt_dim xpt_dim n_point coord0 mlp mls rbox Hok (fun _ _ => True)) as (r & E' & Hr); auto.
    destruct (Hr t ltac:(congruence)) as (_ & _ & _ & K).
    destruct (ct_node _ _ _ _ _ _ CT 0 ltac:(lia)) as (s & e & lv & hh & nc & N & H1 & _).
    destruct (K 0 s e lv hh nc ltac:(lia) N) as (bx & _ & _ & Q). destruct (Q s ltac:(lia)) as (_ & Ci). exact Ci.
Qed.
End Inputs.

Lemma nthz_app1 (l m : list Z) k : 0 <= k < zlen l -> nthz (l ++ m) k = nthz l k.
Proof. intros H. destruct (getz_in l k H) as [x G]. rewrite (nthz_eq _ _ _ G). apply nthz_eq. now rewrite getz_app1 by lia. Qed.
Lemma nthz_app2 (l m : list Z) k : 0 <= k < zlen m -> nthz (l ++ m) (zlen l + k) = nthz m k.
Proof. intros H. destruct (getz_in m k H) as [x G]. rewrite (nthz_eq _ _ _ G). apply nthz_eq. pose proof (zlen_nonneg l). rewrite getz_app2 by lia. now replace (zlen l + k - zlen l) with k by lia. Qed.
Lemma nthz_flat_map (f : Z -> list Z) n k j : 0 <= k < n -> 0 <= j < zlen (f k) -> nthz (flat_map f (zrange 0 n)) (zsumf (fun k => zlen (f k)) 0 k + j) = nthz (f k) j.
Proof.
  intros Hk Hj. rewrite (zrange_app 0 k n) by lia. rewrite flat_map_app. rewrite <- zlen_flat_map by lia. rewrite (zrange_cons k) by lia. cbn [flat_map].
  rewrite nthz_app2; [|rewrite zlen_app; pose proof (zlen_nonneg (flat_map f (zrange (k + 1) n))); lia]. apply nthz_app1; auto.
Qed.
Lemma nthz_map_nthz (l sk : list Z) k : 0 <= k < zlen sk -> nthz (map (nthz l) sk) k = nthz l (nthz sk k).
Proof. intros H. apply nthz_eq. rewrite getz_map, (getz_nthz _ _ H). reflexivity. Qed.
Lemma max_norm_point {F : num} (kern : list F -> list F -> Z -> Z -> R) (c : uctx F Rnum) ps i m mu : 1 <= c_kdim c -> 1 <= zlen ps -> max_norm (c_kdim c) (zlen ps) m (@proxy_block F Rnum kern c ps i) mu ->
  exists p, In p ps /\ mu = grp_norm (c_kdim c) m (@proxy_block F Rnum kern c [p] i) 0.
Proof.
  intros Hk Hz (M1 & M2). assert (X : exists j, 0 <= j < zlen ps /\ mu = grp_norm (c_kdim c) m (@proxy_block F Rnum kern c ps i) j).
  { destruct M2 as [->|M2]; auto. exists 0. split; [lia|]. specialize (M1 0 ltac:(lia)). apply Rle_antisym; auto. apply sqrt_pos. }
  destruct X as (j & Hj & ->). exists (nthz ps j). split; [apply (getz_In ps j), getz_nthz; auto|]. apply block_point; auto. lia.
Qed.

Section Interp.
Context {F : num}.
Variable kern : list F -> list F -> Z -> Z -> R.
Variable c : uctx F Rnum.
Variable h : h2rep F Rring.
Hypothesis R_ok : rep_ok h.
Variables (max_level n_leaf : Z) (js : Z -> list Z) (J : list int_vec) (Jc : list (dmat F)).
Notation a := (c_t c).
Notation kdim := (c_kdim c).
Notation minl := (h_minlevel h).
Hypothesis Ea : h_t h = a.
Hypothesis Ek : h_kdim h = kdim.
Hypothesis Ed : h_ptdim h = c_ptdim c.
Hypothesis UI : uj_input c (h_nnode h) max_level n_leaf minl.
Hypothesis SK : skeletons_ok (c_ptdim c) (c_dim c) kdim (c_npoint c) (h_nnode h) minl (c_coord c) a (h_U h) J Jc js.
Hypothesis BO : forall i V, getz (h_U h) i = Some V -> minl <= lev a i -> basis_of c js i V (accurate kern c).
Variables (KM : Z -> Z -> R) (T W : R).
Hypothesis HT : tolerance_below kern c (h_nnode h) minl T.
Hypothesis HW : proxies_reproduce_far_field h kern c KM W.
Notation kmp := (@KMp F Rring h KM).

Lemma lev_level i : level h i = lev a i. Proof. unfold level, lev. now rewrite Ea. Qed.
Lemma nch_nchild i : nchild h i = nch a i. Proof. unfold nchild, nch. now rewrite Ea. Qed.
Lemma chd_child i k : child h i k = chd a (c_ptdim c) i k.
Proof. unfold child, chd. destruct (ro_dims _ R_ok) as (_ & _ & _ & -> & _). now rewrite Ea, Ed. Qed.
Lemma rank_js i : 0 <= i < h_nnode h -> minl <= lev a i -> rank h i = kdim * zlen (js i).
Proof.
  intros Hi Hl. unfold rank. destruct (sk_len _ _ _ _ _ _ _ _ _ _ _ _ SK) as (ZU & _). destruct (getz_in (h_U h) i ltac:(lia)) as [V EV]. rewrite EV.
  destruct (sk_U _ _ _ _ _ _ _ _ _ _ _ _ SK i V EV) as (_ & HU). now destruct (HU Hl) as (_ & Hcol & _).
Qed.

(** One row of node i: position j in the list of its points, component t. *)
Lemma row_err i q j t : 0 <= i < h_nnode h -> minl <= lev a i -> far h i q -> 0 <= j < zlen (node_pts a (c_ptdim c) js i) -> 0 <= t < kdim ->
  (Rabs (kmp (kdim * nthz (node_pts a (c_ptdim c) js i) j + t)%Z q - Rsum 0 (rank h i) (fun k => @Uval F Rring h i (j * kdim + t)%Z k * kmp (skel_row h js i k) q)) <= T * W)%R.
Proof.
  intros Hi Hl Hf Hj Htt. assert (Hk : 1 <= kdim) by apply UI.
  destruct (sk_len _ _ _ _ _ _ _ _ _ _ _ _ SK) as (ZU & _). destruct (getz_in (h_U h) i ltac:(lia)) as [V EV].
  destruct (BO i V EV Hl) as (sk & u & Ej & HV & HSk & Hacc). set (ps := node_pts a (c_ptdim c) js i) in *.
  destruct (HW i q Hi ltac:(rewrite lev_level; auto) Hf) as (w & Hw & Hfield). rewrite lev_level in Hw, Hfield. set (m := n_proxy (c_pp c) (lev a i) * kdim) in *.
  assert (Hm0 : 0 <= m).
  { destruct (node_facts c _ _ _ _ UI i Hi) as (_ & _ & _ & _ & _ & _ & _ & L & _). destruct (ui_pp _ _ _ _ _ UI (lev a i) ltac:(lia)) as (d & Gd & Nd & _). unfold m, n_proxy. rewrite Gd. apply Z.mul_nonneg_nonneg; lia. }
  assert (Own : forall p, In p ps -> owns a i p = true).
  { apply (pts_own c (h_nnode h) max_level n_leaf minl UI js i Hi). intros k p Hkk Hin. apply (sk_own _ _ _ _ _ _ _ _ _ _ _ _ SK); auto.
    - destruct (child_facts c _ _ _ _ UI i Hi ltac:(lia) k Hkk) as (_ & B & _). lia.
    - destruct (child_facts c _ _ _ _ UI i Hi ltac:(lia) k Hkk) as (_ & _ & B & _). lia. }
  pose proof (initk_max kdim (zlen ps) m (@proxy_block F Rnum kern c ps i) Hm0 ltac:(lia)) as Hmu. match type of Hmu with max_norm _ _ _ _ ?x => set (mu := x) in * end.
  assert (Hlast : zlen sk = zlen (js i)) by (rewrite Ej; now rewrite zlen_map).
  destruct HT as [T1 T2].
  pose proof (C36_far_field_error F kern c i ps sk u w (fun p t => kmp (kdim * p + t)%Z q) mu Hk HSk Hacc Hmu) as Q. cbv zeta in Q. fold m in Q.
  specialize (Q ltac:(destruct (c_stop c); tauto)). specialize (Q ltac:(intros p t' Hin Ht'; apply Hfield; auto) j Hj).
  destruct (max_norm_point kern c ps i m mu Hk ltac:(lia) Hmu) as (p0 & Hp0 & Emu). specialize (T2 i p0 Hi Hl (Own _ Hp0)). cbv zeta in T2. fold m in T2. rewrite <- Emu in T2.
  set (err := fun t0 : Z => (kmp (kdim * nthz ps j + t0)%Z q - Rsum 0 (zlen sk * kdim) (fun k => u (j * kdim + t0)%Z k * kmp (kdim * nthz ps (nthz sk (k / kdim)) + k mod kdim)%Z q))%R) in *.
  assert (Ee : (kmp (kdim * nthz ps j + t)%Z q - Rsum 0 (rank h i) (fun k => @Uval F Rring h i (j * kdim + t)%Z k * kmp (skel_row h js i k) q) = err t)%R).
  { unfold err. f_equal. rewrite rank_js, <- Hlast, (Z.mul_comm kdim (zlen sk)) by auto. rewrite !Rsum_sumR. f_equal. apply sumR_ext. intros k Hk'.
    assert (B : 0 <= k / kdim < zlen sk) by (split; [apply Z.div_pos; lia|apply Z.div_lt_upper_bound; lia]).
    f_equal.
    - unfold Uval. rewrite EV. destruct HV as (_ & R1 & C1 & _ & G). rewrite G; [reflexivity| |lia].
      assert (j * kdim + kdim <= zlen ps * kdim) by nia. nia.
    - unfold skel_row. rewrite Ek, Ej, nthz_map_nthz by auto. reflexivity. }
  rewrite Ee. eapply Rle_trans; [|eapply Rle_trans; [exact Q|]].
  - rewrite <- sqrt_Rsqr_abs. unfold Rsqr. apply sqrt_le_1_alt. rewrite Rsum_sumR. apply (sumR_ge_term 0 kdim (fun t => err t * err t)%R t Htt). intros. nra.
  - apply Rmult_le_compat; auto; [|apply sqrt_pos]. unfold tolerance. pose proof (proj1 (Hmu) 0 ltac:(lia)) as M. assert (0 <= mu)%R by (eapply Rle_trans; [apply sqrt_pos|exact M]).
    assert (0 <= sqrt (IZR m) * Q2R (if c_dbl c then 1 # 10 ^ 15 else 1 # 10 ^ 6))%R.
    { apply Rmult_le_pos; [apply sqrt_pos|]. destruct (c_dbl c); (apply Rmult_le_pos; [apply IZR_le; discriminate|apply Rlt_le, Rinv_0_lt_compat; apply IZR_lt; reflexivity]). }
    destruct (c_stop c) as [r|tol|tol]; [contradiction| |].
    + apply Rmult_le_pos; auto. eapply Rle_trans; [|apply Rmax_l]. auto.
    + eapply Rle_trans; [|apply Rmax_l]. auto.
Qed.

Lemma pipe_interp : interpolates_up_to h js KM (T * W).
Proof.
  intros i q Hi Hl Hf. rewrite lev_level in Hl. assert (Hk : 1 <= kdim) by apply UI.
  destruct (node_facts c _ _ _ _ UI i Hi) as (s & hh & nc & (N1 & N2 & _) & _ & Np & _ & _ & Enc & Hnc & _). rewrite Z.add_0_r in N1.
  split.
  - intros Hn r Hr. rewrite nch_nchild in Hn.
    destruct (ro_mcl _ R_ok i s (s + npts a i - 1) Hi) as [M1 M2]; [rewrite Ea, Z.add_0_r; auto|rewrite Ea; auto|].
    assert (Em : mfirst h i = kdim * s) by (unfold mfirst; rewrite M1; cbn; now rewrite Ek).
    assert (Es : msize h i = kdim * npts a i) by (unfold msize, mlast, mfirst; rewrite M1, M2; cbn [val]; rewrite Ek; lia).
    assert (Ep : node_pts a (c_ptdim c) js i = zrange s (s + npts a i)) by (unfold node_pts; rewrite Hn, N1; reflexivity).
    assert (B : 0 <= r / kdim < npts a i) by (split; [apply Z.div_pos; lia|apply Z.div_lt_upper_bound; lia]).
    pose proof (row_err i q (r / kdim) (r mod kdim) Hi Hl Hf ltac:(rewrite Ep, zlen_zrange; lia) ltac:(apply Z.mod_pos_bound; lia)) as Q.
    rewrite Ep, (nthz_eq (zrange s (s + npts a i)) (r / kdim) (s + r / kdim)) in Q by (rewrite getz_zrange by lia; f_equal; lia).
    pose proof (Z.div_mod r kdim ltac:(lia)). replace (kdim * (s + r / kdim) + r mod kdim) with (mfirst h i + r) in Q by lia. replace (r / kdim * kdim + r mod kdim) with r in Q by lia. exact Q.
  - intros k d Hk' Hd. rewrite nch_nchild in Hk'. rewrite chd_child in *.
    destruct (child_facts c _ _ _ _ UI i Hi ltac:(lia) k Hk') as (_ & B1 & B2 & _). set (ch := chd a (c_ptdim c) i k) in *.
    rewrite rank_js in Hd by lia.
    assert (B : 0 <= d / kdim < zlen (js ch)) by (split; [apply Z.div_pos; lia|apply Z.div_lt_upper_bound; lia]).
    set (f := fun k => js (chd a (c_ptdim c) i k)). assert (Eo : choff h i k = kdim * zsumf (fun k => zlen (f k)) 0 k).
    { unfold choff. rewrite (zsumf_ext _ (fun k => kdim * zlen (f k))).
      - assert (G : forall n, 0 <= n -> zsumf (fun k => kdim * zlen (f k)) 0 n = kdim * zsumf (fun k => zlen (f k)) 0 n).
        { intros n Hn. pattern n. apply natlike_ind; auto; [rewrite !zsumf_empty; lia|]. intros x Hx IH. unfold Z.succ. rewrite !zsumf_snoc by lia. lia. }
        apply G. lia.
      - intros k' Hk2. rewrite chd_child. destruct (child_facts c _ _ _ _ UI i Hi ltac:(lia) k' ltac:(lia)) as (_ & C1 & C2 & _). rewrite rank_js by lia. reflexivity. }
    assert (Ep : node_pts a (c_ptdim c) js i = flat_map f (zrange 0 (nch a i))) by (unfold node_pts; destruct (Z.eqb_spec (nch a i) 0); [lia|auto]).
    assert (Hj : 0 <= zsumf (fun k => zlen (f k)) 0 k + d / kdim < zlen (node_pts a (c_ptdim c) js i)).
    { rewrite Ep, zlen_flat_map by lia. rewrite (zsumf_split _ 0 (k + 1) (nch a i)) by lia. rewrite zsumf_snoc by lia.
      pose proof (zsumf_nonneg (fun k => zlen (f k)) (k + 1) (nch a i) ltac:(intros; apply zlen_nonneg)). pose proof (zsumf_nonneg (fun k => zlen (f k)) 0 k ltac:(intros; apply zlen_nonneg)).
      change (zlen (f k)) with (zlen (js ch)). lia. }
    pose proof (row_err i q _ (d mod kdim) Hi Hl Hf Hj ltac:(apply Z.mod_pos_bound; lia)) as Q. rewrite Ep in Q. rewrite nthz_flat_map in Q by auto.
    pose proof (Z.div_mod d kdim ltac:(lia)). replace ((zsumf (fun k0 : Z => zlen (f k0)) 0 k + d / kdim) * kdim + d mod kdim) with (choff h i k + d) in Q by lia.
    replace (kdim * nthz (f k) (d / kdim) + d mod kdim) with (skel_row h js ch d) in Q by (unfold skel_row; now rewrite Ek). exact Q.
Qed.
End Interp.

(** Some bound on the row sums always exists. *)
Lemma row_sums_exist {F : num} (h : h2rep F Rring) : rep_ok h -> exists lam, (1 <= lam)%R /\ row_sums_below h lam.
Proof.
  intros R_ok.
  set (f := fun i p => Rsum 0 (rank h i) (fun c => Rabs (@basis F Rring h i p c))).
  assert (P : forall i p, (0 <= f i p)%R) by (intros; unfold f; rewrite Rsum_sumR; apply sumR_nonneg; intros; apply Rabs_pos).
  exists (1 + sumR 0 (h_nnode h) (fun i => sumR 0 (h_kms h) (f i)))%R.
  assert (P2 : forall i, (0 <= sumR 0 (h_kms h) (f i))%R) by (intros; apply sumR_nonneg; auto).
  split; [assert (0 <= sumR 0 (h_nnode h) (fun i => sumR 0 (h_kms h) (f i)))%R by (apply sumR_nonneg; auto); lra|].
  intros i p Hi _ Hp. destruct (cluster_range h R_ok i Hi) as (C0 & C1 & C2). apply (inside_iff h) in Hp.
  assert (f i p <= sumR 0 (h_kms h) (f i))%R by (apply sumR_ge_term; auto; lia).
  assert (sumR 0 (h_kms h) (f i) <= sumR 0 (h_nnode h) (fun i => sumR 0 (h_kms h) (f i)))%R by (apply (sumR_ge_term 0 (h_nnode h) (fun i => sumR 0 (h_kms h) (f i)) i); auto).
  fold (f i p). lra.
Qed.
