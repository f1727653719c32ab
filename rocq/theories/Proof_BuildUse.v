(** Consequences of H2P_build's specification: exact interpolation gives exact
    blocks; block tables; block retrieval. *)
From Coq Require Import ZArith QArith List Lia Bool Permutation.
From Verif Require Import Base Mem Num CRing Conc Model_Utils Spec_Utils Proof_Utils Model_Dense Spec_Dense Proof_Dense Model_CSR Spec_CSR Model_Partition Spec_Tree Spec_Partition
  Model_Pairs Spec_Pairs Proof_Pairs Proof_PairsTop Props_Partition Props_Pairs Model_Matvec Spec_Matvec Proof_MvTree Proof_MvCor Proof_MvMid Proof_MvTop Model_Build Spec_Build Proof_Build Proof_BuildFill Proof_BuildTop.
Import ListNotations.
Open Scope Z_scope.

Lemma getz_cons_if {A} (x : A) l i y : getz (x :: l) i = Some y -> (i = 0 /\ y = x) \/ (1 <= i /\ getz l (i - 1) = Some y).
Proof.
  intros G. pose proof (getz_range _ _ _ G). destruct (Z.eq_dec i 0) as [->|]; [rewrite getz_0 in G; left; split; congruence|]. rewrite getz_cons in G by lia. right. split; [lia|auto].
Qed.
Lemma tiles_find {F : num} (a : tarrays F) i lv cl : forall s e x, tiles a i lv s e cl -> s <= x <= e ->
  exists k c, getz cl k = Some c /\ owns a c x = true /\ forall k' c', getz cl k' = Some c' -> owns a c' x = true -> k' = k.
Proof.
  induction cl as [|c cl IH]; intros s e x T Hx; cbn [tiles] in T; [lia|].
  destruct T as (ce & hc & nc & D & _ & Hc & Hs & T).
  assert (Tl : forall s' e' cl', tiles a i lv s' e' cl' -> forall k c', getz cl' k = Some c' -> owns a c' x = true -> s' <= x).
  { clear. intros s' e' cl'. revert s'. induction cl' as [|c cl' IH]; intros s' T k c' G O; [apply getz_range in G; zlia|].
    cbn [tiles] in T. destruct T as (ce & hc & nc & D & _ & Hc & Hs & T). apply getz_cons_if in G as [[-> ->]|[_ G]].
    - rewrite (owns_data _ _ _ _ _ _ _ _ D) in O. apply andb_true_iff in O. lia.
    - specialize (IH _ T _ _ G O). lia. }
  destruct (Z.le_gt_cases x ce) as [H|H].
  - exists 0, c. split; [reflexivity|]. split; [rewrite (owns_data _ _ _ _ _ _ _ _ D); apply andb_true_iff; lia|].
    intros k' c' G O. apply getz_cons_if in G as [[-> ->]|[_ G]]; auto. specialize (Tl _ _ _ T _ _ G O). lia.
  - destruct (IH (ce + 1) e x T ltac:(lia)) as (k & c' & G & O & Uq). pose proof (getz_range _ _ _ G). exists (k + 1), c'. split; [|split; auto].
    + rewrite getz_cons by lia. now replace (k + 1 - 1) with k by lia.
    + intros k' c'' G' O'. apply getz_cons_if in G' as [[-> ->]|[_ G']].
      * rewrite (owns_data _ _ _ _ _ _ _ _ D) in O'. apply andb_true_iff in O'. lia.
      * specialize (Uq _ _ G' O'). lia.
Qed.

(** ** Exact interpolation *)
Section Interp.
Context {F : num} {K : cring}.
Variable h : h2rep F K.
Hypothesis R : rep_ok h.
Add Ring Kring : (cth K).
Local Open Scope ring_K.
Variables (js : Z -> list Z) (KM : Z -> Z -> K).
Hypothesis Sym : forall i j, KM i j = KM j i.
Hypothesis HI : interpolates h js KM.
Hypothesis HB : blocks_are_kernel h js KM.
(** The skeleton rows of a compressed node are among its own rows. *)
Hypothesis Hown : forall i c, 0 <= i < h_nnode h -> h_minlevel h <= level h i -> 0 <= c < rank h i -> inside h i (skel_row h js i c) = true.

Lemma child_of_row i p : 0 <= i < h_nnode h -> nchild h i <> 0 -> inside h i p = true ->
  exists k, 0 <= k < nchild h i /\ inside h (child h i k) p = true /\ forall k', 0 <= k' < nchild h i -> k' <> k -> inside h (child h i k') p = false.
Proof.
  intros Hi Hn Hp. destruct (node_at h R i Hi) as (s & e & hh & D & _).
  destruct (ct_children _ _ _ _ _ _ (ro_tree _ R) i _ _ _ _ _ Hi D Hn) as (cl & Zc & Lc & Tc & _).
  rewrite (inside_owns h R) in Hp by auto. rewrite (owns_data _ _ _ _ _ _ _ _ D) in Hp. apply andb_true_iff in Hp.
  destruct (tiles_find _ _ _ _ _ _ (p / h_kdim h)%Z Tc ltac:(lia)) as (k & c & G & O & Uq). pose proof (getz_range _ _ _ G) as Hk. rewrite Zc in Hk.
  assert (Hch : forall k', 0 <= k' < nchild h i -> getz cl k' = Some (child h i k')).
  { intros k' Hk'. destruct (child_at h R i k' Hi Hk') as (E & _). destruct (ro_dims _ R) as (_ & _ & _ & Dm & _). rewrite Dm, Lc in E by lia. auto. }
  exists k. split; auto. split.
  - rewrite (inside_owns h R) by (apply child_at; auto). rewrite Hch in G by auto. injection G as ->. auto.
  - intros k' Hk' Hne. apply not_true_iff_false. intros H. rewrite (inside_owns h R) in H by (apply child_at; auto). apply Hne. eapply Uq; eauto.
Qed.

(** The expanded basis reproduces the rows of the node. *)
Lemma expand i p q : 0 <= i < h_nnode h -> h_minlevel h <= level h i -> far h i q -> inside h i p = true ->
  rsum 0 (rank h i) (fun c => basis h i p c * KMp h KM (skel_row h js i c) q) = KMp h KM p q.
Proof.
  intros Hi. replace i with (Z.of_nat (Z.to_nat i)) in * by lia. generalize dependent (Z.to_nat i). clear i.
  induction n as [n IH] using lt_wf_ind. intros Hi Hl Hf Hp. set (i := Z.of_nat n) in *. destruct (HI i q Hi Hl Hf) as (I1 & I2).
  destruct (Z.eq_dec (nchild h i) 0) as [Hn|Hn].
  - pose proof (proj1 (inside_iff h _ _) Hp) as Hr. specialize (I1 Hn (p - mfirst h i)%Z ltac:(lia)). replace (mfirst h i + (p - mfirst h i))%Z with p in I1 by lia. rewrite I1.
    apply rsum_ext. intros c Hc. rewrite (basis_leaf h R) by auto. now rewrite Hp.
  - rewrite (rsum_ext 0 (rank h i) _ (fun c => rsum 0 (nchild h i) (fun k => rsum 0 (rank h (child h i k)) (fun d =>
      basis h (child h i k) p d * (Uval h i (choff h i k + d) c * KMp h KM (skel_row h js i c) q))))).
    2:{ intros c Hc. rewrite (basis_node h R) by auto. rewrite <- rsum_mul_r. apply rsum_ext. intros k Hk. rewrite <- rsum_mul_r. apply rsum_ext. intros d Hd. ring. }
    rewrite rsum_swap. destruct (child_of_row i p Hi Hn Hp) as (k & Hk & Hin & Hout).
    rewrite (rsum_only 0 (nchild h i) _ k Hk).
    2:{ intros k' Hk' Hne. apply rsum_zero. intros c Hc. apply rsum_zero. intros d Hd. rewrite (basis_support h R) by (auto; apply child_at; auto). ring. }
    rewrite rsum_swap. destruct (child_at h R i k Hi Hk) as (_ & Rc & Lt & Lv).
    assert (Hf' : far h (child h i k) q).
    { destruct Hf as (n' & m & A & B & C & D1 & D2 & D3). exists n', m. split; auto. split; auto. split; auto. split; [lia|].
      destruct (cluster_range h R _ Rc) as (_ & M1 & _).
      assert (X1 : inside h i (mfirst h (child h i k)) = true) by (apply (child_inside h R i k); auto; apply (inside_iff h); lia).
      assert (X2 : inside h i (mlast h (child h i k)) = true) by (apply (child_inside h R i k); auto; apply (inside_iff h); unfold msize; unfold msize in M1; lia).
      unfold inside in X1, X2. apply andb_true_iff in X1, X2. lia. }
    pose proof (IH (Z.to_nat (child h i k))) as IH'. rewrite Z2Nat.id in IH' by lia.
    rewrite <- IH'; auto; try (unfold i in *; lia).
    apply rsum_ext. intros d Hd. rewrite rsum_mul_l. f_equal. symmetry. apply I2; auto.
Qed.

Lemma KMp_sym p q : KMp h KM p q = KMp h KM q p.
Proof. apply Sym. Qed.

(** One side of a pair: expanding a block's rows against a column of the other
    node. *)
Lemma side_sum n m p q sz : 0 <= n < h_nnode h -> 0 <= m < h_nnode h -> h_minlevel h <= Z.max (level h n) (level h m) ->
  (In (n, m) (h_adm h) \/ In (m, n) (h_adm h)) -> sz = (if level h m <=? level h n then rank h n else msize h n) ->
  inside h n p = true -> inside h m q = true ->
  rsum 0 sz (fun r => side h n m r p * KMp h KM (block_row h js n m r) q) = KMp h KM p q.
Proof.
  intros Hn Hm Hl Hin Hs Hp Hq. unfold side, block_row. destruct (Z.leb_spec (level h m) (level h n)).
  - subst sz. assert (Hf : far h n q) by (exists n, m; split; [auto|]; split; [auto|]; split; [auto|]; lia).
    rewrite <- (expand n p q Hn ltac:(lia) Hf Hp). reflexivity.
  - pose proof (proj1 (inside_iff h _ _) Hp). rewrite (rsum_only 0 sz _ (p - mfirst h n)%Z); [|lia|intros r Hr Hne; destruct (Z.eqb_spec p (mfirst h n + r)%Z); [exfalso; lia|ring]].
    replace (mfirst h n + (p - mfirst h n))%Z with p by lia. rewrite Z.eqb_refl. ring.
Qed.

Lemma block_row_inside n m r : 0 <= n < h_nnode h -> h_minlevel h <= Z.max (level h n) (level h m) ->
  0 <= r < (if level h m <=? level h n then rank h n else msize h n) -> inside h n (block_row h js n m r) = true.
Proof.
  intros Hn Hl Hr. unfold block_row. destruct (Z.leb_spec (level h m) (level h n)).
  - apply Hown; auto. lia.
  - apply (inside_iff h). lia.
Qed.

Theorem interpolation_exact : blocks_exact h KM.
Proof.
  destruct HB as (B1 & B2 & B3). split; [|split].
  - intros k p q Hk Hp Hq. apply (inside_iff h) in Hp, Hq. rewrite B1 by lia. f_equal; lia.
  - intros k n0 n1 p q En Hp Hq. apply (inside_iff h) in Hp, Hq. rewrite (B2 k n0 n1) by (auto; lia). f_equal; lia.
  - intros k n0 n1 p q En Hp Hq. destruct (ro_adm _ R _ _ _ En) as (N0 & N1 & _ & Hl). destruct (ro_B _ R _ _ _ En) as (ptr & nrow & ncol & P1 & P2 & P3 & P4 & P5 & _).
    assert (Er : Bnrow h k = nrow) by (unfold Bnrow; now rewrite P2). assert (Ec : Bncol h k = ncol) by (unfold Bncol; now rewrite P3).
    pose proof (getz_In _ _ _ En) as Hin. unfold adm_block. rewrite En.
    rewrite (rsum_ext 0 (Bnrow h k) _ (fun r => side h n0 n1 r p * KMp h KM (block_row h js n0 n1 r) q)).
    { apply (side_sum n0 n1); auto. congruence. }
    intros r Hr. rewrite <- (rsum_ext 0 (Bncol h k) (fun c => side h n0 n1 r p * (side h n1 n0 c q * KMp h KM (block_row h js n1 n0 c) (block_row h js n0 n1 r)))).
    2:{ intros c Hc. rewrite (B3 k n0 n1 r c En Hr Hc). rewrite (KMp_sym (block_row h js n0 n1 r)). ring. }
    rewrite rsum_mul_l. f_equal. rewrite (KMp_sym _ q). apply (side_sum n1 n0); auto; [lia|congruence|].
    apply block_row_inside; auto. rewrite <- P4. lia.
Qed.
End Interp.

(** ** Slots *)
Lemma slots_of {K : cring} n_node n (nrow ncol : Z -> Z) ps m (data : mem K) : 0 <= n -> meta_ok n_node n nrow ncol ps m ->
  (forall k, 0 <= k < n -> 0 <= nrow k /\ 0 <= ncol k) -> zlen data = bm_total m ->
  (forall k c, 0 <= k < n -> 0 <= c < nrow k * ncol k -> exists v, ld data (zsumf (fun k => nrow k * ncol k) 0 k + c) = Some v) -> slots_ok m n data.
Proof.
  intros Hn M Hnn Zd Hc. split; [rewrite (mo_ptr _ _ _ _ _ _ M 0 ltac:(lia)); now rewrite zsumf_empty by lia|]. split; [|split].
  - intros k Hk. exists (nrow k), (ncol k). eexists. rewrite (mo_nrow _ _ _ _ _ _ M k Hk), (mo_ncol _ _ _ _ _ _ M k Hk).
    destruct (Hnn k Hk). split; [auto|]. split; [auto|]. split; [auto|]. split; [auto|]. split; [apply (mo_ptr _ _ _ _ _ _ M k); lia|].
    rewrite (mo_ptr _ _ _ _ _ _ M (k + 1) ltac:(lia)). now rewrite zsumf_snoc by lia.
  - rewrite (mo_ptr _ _ _ _ _ _ M n ltac:(lia)), Zd, (mo_total _ _ _ _ _ _ M). reflexivity.
  - rewrite Zd, (mo_total _ _ _ _ _ _ M). set (f := fun k => nrow k * ncol k) in *. intros c Hr.
    assert (X : forall j, Z.of_nat j <= n -> 0 <= c < zsumf f 0 (Z.of_nat j) -> exists k, 0 <= k < n /\ 0 <= c - zsumf f 0 k < f k).
    { induction j as [|j IH]; intros Hj Hc'; [rewrite zsumf_empty in Hc' by lia; lia|].
      replace (Z.of_nat (S j)) with (Z.of_nat j + 1) in Hc' by lia. rewrite zsumf_snoc in Hc' by lia.
      destruct (Z.lt_ge_cases c (zsumf f 0 (Z.of_nat j))); [apply IH; lia|]. exists (Z.of_nat j). lia. }
    destruct (X (Z.to_nat n)) as (k & Hk & Hk'); [lia|rewrite Z2Nat.id by lia; auto|].
    destruct (Hc k _ Hk Hk') as (v & Ev). exists v. rewrite <- Ev. f_equal. lia.
Qed.

(** ** Retrieval *)
Lemma resize_fits {A} (m : dmat A) nrow ncol : dm_ok m -> 0 <= nrow -> 0 <= ncol ->
  dm_nrow (dm_resize m nrow ncol) = nrow /\ dm_ncol (dm_resize m nrow ncol) = ncol /\ dm_ld (dm_resize m nrow ncol) = ncol /\ nrow * ncol <= zlen (dm_data (dm_resize m nrow ncol)).
Proof.
  intros Ho H1 H2. unfold dm_resize. unfold dm_ok in Ho. destruct (Z.ltb_spec (dm_size m) (nrow * ncol)); cbn.
  - rewrite zlen_alloc by nia. repeat split; lia.
  - repeat split; lia.
Qed.

Section Get.
Context {K : cring}.
Variables (eval : Z -> Z -> mem K -> Z -> option (mem K)) (n_node n : Z) (nrow ncol : Z -> Z) (ents : list (Z * Z * Z)) (m : bmeta) (data : mem K) (cell : Z -> Z -> K).
Hypothesis M : meta_ok n_node n nrow ncol ents m.
Hypothesis Hnn : forall k, 0 <= k < n -> 0 <= nrow k /\ 0 <= ncol k.
Hypothesis Hdata : forall k c, 0 <= k < n -> 0 <= c < nrow k * ncol k -> ld data (zsumf (fun k => nrow k * ncol k) 0 k + c) = Some (cell k c).
Hypothesis Hzlen : zlen data = bm_total m.

Lemma get_spec k n0 n1 v (regen : bool) out : 0 <= k < n -> In (n0, n1, v) ents -> v = k + 1 \/ v = - (k + 1) -> dm_ok out ->
  (forall mat, nrow k * ncol k <= zlen mat -> exists m', eval (if v <? 0 then n1 else n0) (if v <? 0 then n0 else n1) mat 0 = Some m' /\
     forall c, 0 <= c < nrow k * ncol k -> ld m' c = Some (cell k c)) ->
  exists o, get_block eval m data regen n0 n1 out = Some (Some o) /\ block_view o (v <? 0) (nrow k) (ncol k) (fun r c => cell k (r * ncol k + c)).
Proof.
  intros Hk Hin Hv Ho He. unfold get_block. destruct (mo_look _ _ _ _ _ _ M) as (L1 & _). rewrite (L1 _ _ _ Hin). cbn [bind].
  destruct (Z.eqb_spec v 0); [lia|]. destruct (Hnn k Hk) as (Hr & Hc).
  set (tr := v <? 0) in *. assert (E : (if tr then (true, - v, n1, n0) else (false, v, n0, n1)) = (tr, k + 1, if tr then n1 else n0, if tr then n0 else n1)).
  { unfold tr. destruct (Z.ltb_spec v 0); f_equal; f_equal; f_equal; lia. }
  rewrite E. replace (k + 1 - 1) with k by lia. rewrite (mo_nrow _ _ _ _ _ _ M k Hk), (mo_ncol _ _ _ _ _ _ M k Hk). cbn [bind].
  destruct (resize_fits out (nrow k) (ncol k) Ho Hr Hc) as (R1 & R2 & R3 & R4). set (o := dm_resize out (nrow k) (ncol k)) in *.
  assert (X : exists d, (if regen then eval (if tr then n1 else n0) (if tr then n0 else n1) (dm_data o) 0
        else p <- ld (bm_ptr m) k; copy_matrix (nrow k) (ncol k) data p (ncol k) (dm_data o) 0 (ncol k)) = Some d /\ forall c, 0 <= c < nrow k * ncol k -> ld d c = Some (cell k c)).
  { destruct regen; [apply He; auto|]. rewrite (mo_ptr _ _ _ _ _ _ M k ltac:(lia)). cbn [bind]. set (p := zsumf (fun k => nrow k * ncol k) 0 k).
    assert (Hp : 0 <= p) by (apply zsumf_nonneg; intros i Hi; destruct (Hnn i ltac:(lia)); nia).
    assert (Hpe : p + nrow k * ncol k <= zlen data).
    { rewrite Hzlen, (mo_total _ _ _ _ _ _ M). rewrite (zsumf_split _ 0 (k + 1) n) by lia. rewrite zsumf_snoc by lia. fold p.
      assert (0 <= zsumf (fun k0 => nrow k0 * ncol k0) (k + 1) n) by (apply zsumf_nonneg; intros i Hi; destruct (Hnn i ltac:(lia)); nia). lia. }
    destruct (copy_matrix_spec (nrow k) (ncol k) data p (ncol k) (dm_data o) 0 (ncol k)) as (d & Ed & _ & Gd & _).
    - unfold fits. nia.
    - unfold fits. nia.
    - exists d. split; auto. intros c Hc'. assert (Hn0 : 0 < ncol k) by nia.
      pose proof (Z.div_mod c (ncol k) ltac:(lia)) as Dm. pose proof (Z.mod_pos_bound c (ncol k) Hn0).
      assert (Hd : 0 <= c / ncol k < nrow k) by (split; [apply Z.div_pos; lia|apply Z.div_lt_upper_bound; nia]).
      specialize (Gd (c / ncol k) (c mod ncol k) Hd ltac:(lia)). replace (0 + c / ncol k * ncol k + c mod ncol k) with c in Gd by lia.
      replace (p + c / ncol k * ncol k + c mod ncol k) with (p + c) in Gd by lia. unfold ld. rewrite Gd. apply Hdata; auto. }
  destruct X as (d & Ed & Gd). rewrite Ed. cbn [bind]. eexists. split; [reflexivity|].
  unfold block_view. destruct tr; cbn; rewrite ?R1, ?R2, ?R3; (split; [auto|]; split; [auto|]; split; [auto|]); intros r c Hr' Hc'; apply Gd; nia.
Qed.
Lemma get_none n0 n1 regen out : 0 <= n0 < n_node -> (forall v, ~ In (n0, n1, v) ents) -> get_block eval m data regen n0 n1 out = Some None.
Proof. intros H0 Hno. unfold get_block. destruct (mo_look _ _ _ _ _ _ M) as (_ & L2 & _). rewrite (L2 n0 n1 H0 Hno). reflexivity. Qed.
End Get.

(** ** From the inputs of H2P_build to its specification *)
Section Inputs.
Context {F : num} {K : cring}.
Variables (kern : list F -> list F -> Z -> Z -> K) (fuel : nat) (rnd : Z -> F) (pt_dim xpt_dim kdim n_point n_thread : Z) (coord0 : mem F) (mlp : Z) (mls : F) (rbox : option (mem F))
  (alpha : F) (depth : nat) (t : tree_result F) (ps : pairs) (U : list (dmat K)) (J : list int_vec) (Jc : list (dmat F)) (js : Z -> list Z) (blkB blkD0 blkD1 : int_vec) (sc : build_sched).
Hypothesis BI : build_inputs fuel rnd pt_dim xpt_dim kdim n_point n_thread coord0 mlp mls rbox alpha depth t ps U J Jc js blkB blkD0 blkD1 sc.
Notation a := (r_arrays t).
Notation KMat := (kernel_matrix kern kdim (coords_of xpt_dim n_point coord0)).

Lemma bi_facts : (1 <= pt_dim /\ 1 <= kdim /\ 1 <= n_thread /\ 1 <= n_point) /\
  cluster_tree pt_dim n_point (r_n_node t) (r_max_level t) (r_n_leaf t) a /\
  reordered xpt_dim n_point coord0 (r_coord t) (r_idx t) /\
  (forall d q, 0 <= d < xpt_dim -> 0 <= q < n_point -> exists v, ld coord0 (d * n_point + q) = Some v) /\
  0 <= ps_min_level ps <= r_max_level t /\
  (forall n0 n1, In (n0, n1) (ps_adm ps) -> 0 <= n0 < r_n_node t /\ 0 <= n1 < r_n_node t /\ ps_min_level ps <= Z.max (lev a n0) (lev a n1)) /\
  (forall n0 n1, In (n0, n1) (ps_inadm ps) -> 0 <= n0 < r_n_node t /\ 0 <= n1 < r_n_node t) /\
  (simple_pairs (ps_adm ps) /\ simple_pairs (ps_inadm ps)) /\ 1 <= zlen (ps_adm ps) /\
  (forall n0 n1, In (n0, n1) (ps_inadm ps) -> n0 <> n1).
Proof.
  destruct BI as [Hd Hok Ht Hdep Hp Hs Hsk Hbk Hsc]. pose proof Hok as ([P1 P2] & P3 & (P4 & P5) & P6).
  destruct (boxes_of_tree _ _ _ _ _ _ _ _ _ _ Hok Ht) as (CT & BX).
  destruct (pairs_spec pt_dim n_point _ _ _ _ CT P1 BX alpha depth Hdep) as (evs & ps' & Ep' & _ & _ & _ & _ & _ & _ & L1 & L2 & L3). assert (ps' = ps) by congruence. subst ps'.
  destruct (C18_pairs_classified _ _ _ _ _ _ _ _ _ _ _ _ _ _ Hok Ht Hdep Hp) as (Q1 & Q2 & _).
  pose proof (C18_no_pair_twice _ _ _ _ _ _ _ _ _ _ _ _ _ _ Hok Ht Hdep Hp) as Q3.
  assert (RE : reordered xpt_dim n_point coord0 (r_coord t) (r_idx t)).
  { destruct (C13_partition_permutes_points _ fuel rnd _ _ _ _ mlp mls _ Hok) as (r & E & Hr). apply (Hr t). congruence. }
  assert (NE : forall n0 n1, In (n0, n1) (ps_adm ps) -> n0 <> n1).
  { intros n0 n1 Hin ->. destruct (Q1 _ _ Hin) as (H0 & _ & _ & _ & Hdis & _). destruct (ct_node _ _ _ _ _ _ CT n1 H0) as (s & e & lv & hh & nc & D & S0 & _).
    specialize (Hdis s). rewrite (owns_data _ _ _ _ _ _ _ _ D) in Hdis. destruct (Z.leb_spec s s); [|lia]. destruct (Z.leb_spec s e); [discriminate|lia]. }
  split; [lia|]. split; [exact CT|]. split; [exact RE|]. split; [|split; [|split; [|split; [|split; [|split]]]]].
  - intros d q H1 H2. apply P5. nia.
  - destruct (Z.le_gt_cases 0 (ps_min_level ps)); [lia|]. exfalso. destruct L3 as [L3|(n0 & n1 & l0 & l1 & Hin & E0 & E1 & Em)].
    + destruct (ct_leaf_of_point _ _ _ _ _ _ CT 0 ltac:(lia)) as (i & (Hi & _) & _). destruct (ct_node _ _ _ _ _ _ CT i Hi) as (s & e & lv & hh & nc & D & _ & _ & Hlv & _). lia.
    + destruct (Q1 _ _ Hin) as (H0 & _). destruct (ct_node _ _ _ _ _ _ CT n0 H0) as (s & e & lv & hh & nc & (_ & _ & Dl & _) & _ & _ & Hlv & _). rewrite E0 in Dl. injection Dl as <-. lia.
  - intros n0 n1 Hin. destruct (Q1 _ _ Hin) as (H0 & H1 & _ & _ & _ & l0 & l1 & E0 & E1 & Hm). unfold lev. rewrite E0, E1. auto.
  - intros n0 n1 Hin. destruct (Q2 _ _ Hin) as (H0 & H1 & _). auto.
  - assert (S : forall l, (forall i x, getz l i = Some x -> exists j, getz (ps_adm ps ++ ps_inadm ps) j = Some x /\ forall i', getz l i' = Some x -> i' = i -> True) -> True) by auto. clear S.
    assert (SA : forall off l, (forall i x, getz l i = Some x -> getz (ps_adm ps ++ ps_inadm ps) (off + i) = Some x) -> (forall n0 n1, In (n0, n1) l -> n0 <> n1) -> simple_pairs l).
    { intros off l Hl Hne. split.
      - apply NoDup_nth_error. intros i j Hi E. destruct (nth_error l i) as [[n0 n1]|] eqn:Ei; [|apply nth_error_None in Ei; lia].
        assert (Gi : getz l (Z.of_nat i) = Some (n0, n1)) by (unfold getz; destruct (Z.leb_spec 0 (Z.of_nat i)); [now rewrite Nat2Z.id|lia]).
        assert (Gj : getz l (Z.of_nat j) = Some (n0, n1)) by (unfold getz; destruct (Z.leb_spec 0 (Z.of_nat j)); [now rewrite Nat2Z.id|lia]).
        specialize (Q3 _ _ _ _ _ _ (Hl _ _ Gi) (Hl _ _ Gj) (or_introl eq_refl)). lia.
      - intros x y Hin. split; [auto|]. intros Hin2. apply In_getz in Hin as (i & Gi). apply In_getz in Hin2 as (j & Gj).
        specialize (Q3 _ _ _ _ _ _ (Hl _ _ Gi) (Hl _ _ Gj) (or_intror eq_refl)). assert (i = j) by lia. subst j. rewrite Gi in Gj. injection Gj as E1 E2. subst.
        apply (Hne y y); auto. eapply getz_In; eauto. }
    split.
    + apply (SA 0); auto. intros i x G. rewrite Z.add_0_l. rewrite getz_app1; auto. apply getz_range in G. lia.
    + apply (SA (zlen (ps_adm ps))). { intros i x G. pose proof (getz_range _ _ _ G). rewrite getz_app2 by lia. now replace (zlen (ps_adm ps) + i - zlen (ps_adm ps)) with i by lia. }
      intros n0 n1 Hin. destruct (Q2 _ _ Hin) as (_ & _ & H & _). auto.
  - destruct (ps_adm ps); [congruence|]. zlia.
  - intros n0 n1 Hin. destruct (Q2 _ _ Hin) as (_ & _ & H & _). auto.
Qed.

Lemma build_covered h bm dm : h2_build kern pt_dim xpt_dim kdim n_point n_thread t ps U J Jc blkB blkD0 blkD1 sc = Some (h, bm, dm) ->
  h_t h = a -> h_nnode h = r_n_node t -> h_npoint h = n_point -> h_adm h = ps_adm ps -> h_inadm h = ps_inadm ps -> covered_once h.
Proof.
  intros _ E1 E2 E3 E4 E5. destruct BI as [Hd Hok Ht Hdep Hp Hs Hsk Hbk Hsc].
  destruct (C17_every_entry_covered_once _ _ _ _ _ _ _ _ _ _ _ alpha depth Hok Ht Hdep) as (ps' & Ep' & C). assert (ps' = ps) by congruence. subst ps'.
  unfold covered_once. rewrite E1, E2, E3, E4, E5. exact C.
Qed.

(** Everything about the result. *)
Lemma build_all : exists h bm dm, h2_build kern pt_dim xpt_dim kdim n_point n_thread t ps U J Jc blkB blkD0 blkD1 sc = Some (h, bm, dm) /\
  rep_ok h /\ covered_once h /\ blocks_are_kernel h js KMat /\
  (h_t h = a /\ h_nnode h = r_n_node t /\ h_npoint h = n_point /\ h_kdim h = kdim /\ h_kms h = kdim * n_point /\ h_nleaf h = r_n_leaf t /\ h_minlevel h = ps_min_level ps /\ h_U h = U /\
   h_adm h = ps_adm ps /\ h_inadm h = ps_inadm ps) /\
  (forall p o, 0 <= p < n_point * kdim -> ld (r_idx t) (p / kdim) = Some o -> nthz (h_fwd h) p = o * kdim + p mod kdim) /\
  slots_ok bm (zlen (h_adm h)) (h_Bdata h) /\ slots_ok dm (h_nleaf h + zlen (h_inadm h)) (h_Ddata h) /\
  (forall i c, 0 <= i < h_nnode h -> h_minlevel h <= level h i -> 0 <= c < rank h i -> inside h i (skel_row h js i c) = true) /\
  (forall k n0 n1 regen out, getz (h_adm h) k = Some (n0, n1) -> dm_ok out ->
    (exists o, get_Bij kern (ctx_of pt_dim xpt_dim kdim n_point t Jc) bm (h_Bdata h) regen n0 n1 out = Some (Some o) /\ block_view o false (Bnrow h k) (Bncol h k) (Bval h k)) /\
    (exists o, get_Bij kern (ctx_of pt_dim xpt_dim kdim n_point t Jc) bm (h_Bdata h) regen n1 n0 out = Some (Some o) /\ block_view o true (Bnrow h k) (Bncol h k) (Bval h k))) /\
  (forall n0 n1 regen out, 0 <= n0 < h_nnode h -> ~ In (n0, n1) (h_adm h) -> ~ In (n1, n0) (h_adm h) ->
    get_Bij kern (ctx_of pt_dim xpt_dim kdim n_point t Jc) bm (h_Bdata h) regen n0 n1 out = Some None) /\
  (forall k n0 n1 regen out, getz (h_inadm h) k = Some (n0, n1) -> dm_ok out ->
    (exists o, get_Dij kern (ctx_of pt_dim xpt_dim kdim n_point t Jc) dm (h_Ddata h) regen n0 n1 out = Some (Some o) /\ block_view o false (msize h n0) (msize h n1) (Dval h (h_nleaf h + k))) /\
    (exists o, get_Dij kern (ctx_of pt_dim xpt_dim kdim n_point t Jc) dm (h_Ddata h) regen n1 n0 out = Some (Some o) /\ block_view o true (msize h n0) (msize h n1) (Dval h (h_nleaf h + k)))) /\
  (forall k regen out, 0 <= k < h_nleaf h -> dm_ok out ->
    exists o, get_Dij kern (ctx_of pt_dim xpt_dim kdim n_point t Jc) dm (h_Ddata h) regen (leaf h k) (leaf h k) out = Some (Some o) /\ block_view o false (msize h (leaf h k)) (msize h (leaf h k)) (Dval h k)) /\
  (forall n0 n1 regen out, 0 <= n0 < h_nnode h -> ~ In (n0, n1) (h_inadm h) -> ~ In (n1, n0) (h_inadm h) -> ~ (n0 = n1 /\ exists k, 0 <= k < h_nleaf h /\ n0 = leaf h k) ->
    get_Dij kern (ctx_of pt_dim xpt_dim kdim n_point t Jc) dm (h_Ddata h) regen n0 n1 out = Some None).
Proof.
  destruct bi_facts as (D & CT & RE & HC & Hmin & Hadm & Hinadm & Hsim & Hsome & Hine). pose proof BI as [_ _ _ _ _ _ SK ((bl & B0) & (bl0 & B1) & (bl1 & B2)) Hsc].
  destruct (h2_build_spec kern pt_dim xpt_dim kdim n_point n_thread coord0 t ps U J Jc js blkB blkD0 blkD1 bl bl0 bl1 sc D CT RE HC Hmin Hadm Hinadm Hsim Hsome SK (conj B0 (conj B1 B2)) Hsc)
    as (h & bm & dm & perm & E & R & Hperm & Hidx & NF & BK & MB & MD & (E1 & E2 & E3 & E4 & E5 & E6 & E7 & E8 & E9 & E10 & E11 & E12 & E13 & E14 & E15 & E16 & E17 & E18 & E19 & E20) & Mcl & ZB & ZD & GB & GD).
  exists h, bm, dm. split; [exact E|]. split; [exact R|]. split; [eapply build_covered; eauto|]. split; [exact BK|]. split; [repeat (split; [auto|]); auto|].
  split; [intros p o Hp Ho; rewrite NF by auto; f_equal; f_equal; apply nthz_eq; rewrite <- Hidx; auto; apply cell_range; lia|].
  destruct D as (D1 & D2 & D3 & D4). destruct (leaves pt_dim kdim n_point n_thread t ps (conj D1 (conj D2 (conj D3 D4))) CT Hmin) as (L1 & L2 & L3).
  pose proof (cluster_at pt_dim n_point t CT) as CL.
  assert (SN : forall n m, 0 <= n < r_n_node t -> 0 <= side_n t js n m) by (intros n m Hn; eapply side_n_nonneg; eauto).
  assert (NP : forall n, 0 <= n < r_n_node t -> 0 <= npts a n) by (intros n Hn; rewrite npts_cs; destruct (CL n Hn) as (_ & _ & C & _); lia).
  set (np0 := fun k => side_n t js (fst (pair_at (ps_adm ps) k)) (snd (pair_at (ps_adm ps) k)) * kdim) in *.
  set (np1 := fun k => side_n t js (snd (pair_at (ps_adm ps) k)) (fst (pair_at (ps_adm ps) k)) * kdim) in *.
  set (dr := d_row (r_n_leaf t) (ps_inadm ps) (lf t)) in *. set (dc := d_col (r_n_leaf t) (ps_inadm ps) (lf t)) in *.
  set (n0' := fun k => npts a (dr k) * kdim) in *. set (n1' := fun k => npts a (dc k) * kdim) in *.
  assert (Bs : forall k, Bsize kdim t ps js k = np0 k * np1 k) by (intros k; unfold Bsize, np0, np1; destruct (pair_at (ps_adm ps) k); reflexivity).
  assert (Bz : forall k, zsumf (Bsize kdim t ps js) 0 k = zsumf (fun k => np0 k * np1 k) 0 k) by (intros; apply zsumf_ext; intros; apply Bs).
  assert (Bnn : forall k, 0 <= k < zlen (ps_adm ps) -> 0 <= np0 k /\ 0 <= np1 k).
  { intros k Hk. destruct (getz_in _ k Hk) as [[x y] G]. destruct (Hadm _ _ (getz_In _ _ _ G)) as (X & Y & _). unfold np0, np1, pair_at. rewrite G. cbn [val fst snd].
    split; apply Z.mul_nonneg_nonneg; try lia; now apply SN. }
  set (bcell := fun k c => let '(x, y) := pair_at (ps_adm ps) k in cellval kern xpt_dim kdim n_point t (side_pos t js x y) (side_pos t js y x) (side_n t js y x) c).
  assert (Bdat : forall k c, 0 <= k < zlen (ps_adm ps) -> 0 <= c < np0 k * np1 k -> ld (h_Bdata h) (zsumf (fun k => np0 k * np1 k) 0 k + c) = Some (bcell k c)).
  { intros k c Hk Hc. destruct (getz_in _ k Hk) as [[x y] G]. rewrite <- Bz, (GB k x y c G) by (rewrite Bs; auto). unfold bcell, pair_at. now rewrite G. }
  assert (Zi := zlen_nonneg (ps_inadm ps)).
  assert (Dn : forall k, 0 <= k < nD t ps -> 0 <= dr k < r_n_node t /\ 0 <= dc k < r_n_node t) by (intros k Hk; apply (dnodes pt_dim kdim n_point n_thread t ps (conj D1 (conj D2 (conj D3 D4))) CT Hmin Hinadm k Hk)).
  assert (Dnn : forall k, 0 <= k < nD t ps -> 0 <= n0' k /\ 0 <= n1' k).
  { intros k Hk. destruct (Dn k Hk). split; apply Z.mul_nonneg_nonneg; try lia; now apply NP. }
  set (dcell := fun k c => cellval kern xpt_dim kdim n_point t (fun j => cs t (dr k) + j) (fun j => cs t (dc k) + j) (npts a (dc k)) c).
  assert (Ddat : forall k c, 0 <= k < nD t ps -> 0 <= c < n0' k * n1' k -> ld (h_Ddata h) (zsumf (fun k => n0' k * n1' k) 0 k + c) = Some (dcell k c)).
  { intros k c Hk Hc. apply GD; auto. }
  assert (HndE : h_nleaf h + zlen (h_inadm h) = nD t ps) by (rewrite E8, E14; reflexivity).
  split; [rewrite E13; apply (slots_of _ _ _ _ _ _ _ (zlen_nonneg _) MB Bnn ZB); intros k c Hk Hc; eexists; apply Bdat; auto|].
  split; [rewrite HndE; apply (slots_of (r_n_node t) (nD t ps) _ _ _ _ _ ltac:(unfold nD; lia) MD Dnn ZD); intros k c Hk Hc; eexists; apply Ddat; auto|].
  assert (HMs : forall i, 0 <= i < r_n_node t -> msize h i = npts a i * kdim).
  { intros i Hi. unfold msize. destruct (Mcl i Hi) as [-> ->]. rewrite npts_cs. lia. }
  split.
  { intros i c Hi Hl Hc. rewrite E2 || rewrite E4 in Hi. unfold level in Hl. rewrite E1, E9 in Hl. change (val 0 (ld (a_level a) i)) with (lev a i) in Hl.
    unfold rank in Hc. rewrite E12 in Hc. destruct (sk_len _ _ _ _ _ _ _ _ _ _ _ _ SK) as (ZU & _). destruct (getz_in U i ltac:(lia)) as [V EV]. rewrite EV in Hc.
    destruct (sk_U _ _ _ _ _ _ _ _ _ _ _ _ SK i V EV) as (_ & HU). destruct (HU Hl) as (_ & Hcol & _). rewrite Hcol, (Z.mul_comm kdim) in Hc.
    destruct (cell_divmod kdim c D2) as [_ C2]. apply (cell_range kdim _ c D2) in Hc.
    pose proof (js_range pt_dim xpt_dim kdim n_point t ps U J Jc js CT SK i (nthz (js i) (c / kdim)) Hi Hl (getz_In _ _ _ (getz_nthz _ _ Hc))) as Hj.
    apply (inside_iff h). unfold skel_row. rewrite E6, HMs by auto. destruct (Mcl i Hi) as [-> _]. rewrite npts_cs. nia. }
  assert (Bv : forall k x y, getz (h_adm h) k = Some (x, y) -> 0 <= k < zlen (ps_adm ps) /\ Bnrow h k = np0 k /\ Bncol h k = np1 k /\ np0 k = side_n t js x y * kdim /\ np1 k = side_n t js y x * kdim /\ getz (ps_adm ps) k = Some (x, y) /\
     forall r c, 0 <= r < np0 k -> 0 <= c < np1 k -> Bval h k r c = bcell k (r * np1 k + c)).
  { intros k x y G. rewrite E13 in G. pose proof (getz_range _ _ _ G) as Hk. split; [auto|]. unfold Bnrow, Bncol, Bval. rewrite E15, E16, E17.
    rewrite (mo_nrow _ _ _ _ _ _ MB k Hk), (mo_ncol _ _ _ _ _ _ MB k Hk), (mo_ptr _ _ _ _ _ _ MB k ltac:(lia)). cbn [val]. split; [auto|]. split; [auto|].
    split; [unfold np0, pair_at; now rewrite G|]. split; [unfold np1, pair_at; now rewrite G|]. split; [auto|].
    intros r c Hr Hc. rewrite <- Z.add_assoc, Bdat; auto. nia. }
  assert (EvB : forall k x y mat, getz (ps_adm ps) k = Some (x, y) -> np0 k * np1 k <= zlen mat -> exists m', eval_B kern (ctx_of pt_dim xpt_dim kdim n_point t Jc) x y mat 0 = Some m' /\
     forall c, 0 <= c < np0 k * np1 k -> ld m' c = Some (bcell k c)).
  { intros k x y mat G Hz. assert (Es : np0 k * np1 k = side_n t js x y * kdim * (side_n t js y x * kdim)) by (unfold np0, np1, pair_at; now rewrite G).
    destruct (eval_B_spec kern pt_dim xpt_dim kdim n_point n_thread coord0 t ps U J Jc js (conj D1 (conj D2 (conj D3 D4))) CT RE HC Hadm SK x y mat 0 (getz_In _ _ _ G) ltac:(lia) ltac:(lia)) as (m' & Em & _ & Gm).
    exists m'. split; [exact Em|]. intros c Hc. destruct (Gm c) as [[_ Q]|[Q _]]; [|exfalso; apply Q; unfold in_reg; lia]. rewrite Q. unfold bcell, pair_at. rewrite G. cbn [val]. now rewrite Z.sub_0_r. }
  split.
  { intros k x y regen out G Ho. destruct (Bv _ _ _ G) as (Hk & B1' & B2' & B3' & B4' & G' & BV). rewrite B1', B2'.
    destruct (In_pair_entries 0 (ps_adm ps) (zlen (ps_adm ps)) k x y ltac:(lia) Hk G') as (I1 & I2). rewrite Z.add_0_l in I1, I2.
    split.
    - destruct (get_spec (eval_B kern (ctx_of pt_dim xpt_dim kdim n_point t Jc)) _ _ np0 np1 _ bm (h_Bdata h) bcell MB Bnn Bdat ZB k x y (k + 1) regen out Hk I1 ltac:(auto) Ho) as (o & Eo & V1 & V2 & V3 & V4).
      + destruct (Z.ltb_spec (k + 1) 0); [lia|]. intros mat Hm. apply EvB; auto.
      + exists o. split; [exact Eo|]. destruct (Z.ltb_spec (k + 1) 0); [lia|]. split; [auto|]. split; [auto|]. split; [auto|]. intros r c Hr Hc. rewrite V4, BV; auto.
    - destruct (get_spec (eval_B kern (ctx_of pt_dim xpt_dim kdim n_point t Jc)) _ _ np0 np1 _ bm (h_Bdata h) bcell MB Bnn Bdat ZB k y x (- (k + 1)) regen out Hk I2 ltac:(auto) Ho) as (o & Eo & V1 & V2 & V3 & V4).
      + destruct (Z.ltb_spec (- (k + 1)) 0); [|lia]. intros mat Hm. apply EvB; auto.
      + exists o. split; [exact Eo|]. destruct (Z.ltb_spec (- (k + 1)) 0); [|lia]. split; [auto|]. split; [auto|]. split; [auto|]. intros r c Hr Hc. rewrite V4, BV; auto. }
  split.
  { intros x y regen out Hx N1 N2. rewrite E4 in Hx. rewrite E13 in N1, N2. apply (get_none _ _ _ _ _ _ _ _ MB); auto. intros v Hin. apply pair_entries_In in Hin as (k & Hk & [[G _]|[G _]]); [apply N1|apply N2|lia]; eapply getz_In; eauto. }
  assert (Dv : forall k, 0 <= k < nD t ps -> msize h (dr k) = n0' k /\ msize h (dc k) = n1' k /\ forall r c, 0 <= r < n0' k -> 0 <= c < n1' k -> Dval h k r c = dcell k (r * n1' k + c)).
  { intros k Hk. destruct (Dn k Hk) as (X & Y). split; [now apply HMs|]. split; [now apply HMs|]. unfold Dval. rewrite E19, E20.
    rewrite (mo_ncol _ _ _ _ _ _ MD k Hk), (mo_ptr _ _ _ _ _ _ MD k ltac:(lia)). cbn [val]. intros r c Hr Hc. rewrite <- Z.add_assoc, Ddat; auto. nia. }
  assert (EvD : forall k mat, 0 <= k < nD t ps -> n0' k * n1' k <= zlen mat -> exists m', eval_D kern (ctx_of pt_dim xpt_dim kdim n_point t Jc) (dr k) (dc k) mat 0 = Some m' /\
     forall c, 0 <= c < n0' k * n1' k -> ld m' c = Some (dcell k c)).
  { intros k mat Hk Hz. destruct (Dn k Hk) as (X & Y).
    destruct (eval_D_spec kern pt_dim xpt_dim kdim n_point n_thread coord0 t Jc (conj D1 (conj D2 (conj D3 D4))) CT RE HC (dr k) (dc k) mat 0 X Y ltac:(lia) ltac:(unfold n0', n1' in Hz; lia)) as (m' & Em & _ & Gm).
    exists m'. split; [exact Em|]. intros c Hc. destruct (Gm c) as [[_ Q]|[Q _]]; [|exfalso; apply Q; unfold in_reg; unfold n0', n1' in Hc; lia]. rewrite Q. unfold dcell. now rewrite Z.sub_0_r. }
  assert (Hd1 : forall k x y, getz (ps_inadm ps) k = Some (x, y) -> 0 <= r_n_leaf t + k < nD t ps /\ dr (r_n_leaf t + k) = x /\ dc (r_n_leaf t + k) = y).
  { intros k x y G. pose proof (getz_range _ _ _ G). split; [unfold nD; lia|]. unfold dr, dc, d_row, d_col. destruct (Z.ltb_spec (r_n_leaf t + k) (r_n_leaf t)); [lia|].
    replace (r_n_leaf t + k - r_n_leaf t) with k by lia. unfold pair_at. rewrite G. auto. }
  assert (Hd0 : forall k, 0 <= k < r_n_leaf t -> 0 <= k < nD t ps /\ dr k = lf t k /\ dc k = lf t k).
  { intros k Hk. split; [unfold nD; lia|]. unfold dr, dc, d_row, d_col. destruct (Z.ltb_spec k (r_n_leaf t)); [auto|lia]. }
  assert (Elf : forall k, leaf h k = lf t k) by (intros k; unfold leaf, lf; now rewrite E1).
  split.
  { intros k x y regen out G Ho. rewrite E14 in G. rewrite E8. destruct (Hd1 _ _ _ G) as (Hk & Ex & Ey). destruct (Dv _ Hk) as (M1 & M2 & DV). rewrite Ex in M1. rewrite Ey in M2. rewrite M1, M2.
    destruct (In_pair_entries (r_n_leaf t) (ps_inadm ps) (zlen (ps_inadm ps)) k x y ltac:(lia) (getz_range _ _ _ G) G) as (I1 & I2).
    split.
    - destruct (get_spec (eval_D kern (ctx_of pt_dim xpt_dim kdim n_point t Jc)) _ _ n0' n1' _ dm (h_Ddata h) dcell MD Dnn Ddat ZD (r_n_leaf t + k) x y (r_n_leaf t + k + 1) regen out Hk) as (o & Eo & V1 & V2 & V3 & V4); auto.
      + apply in_or_app. now right.
      + destruct (Z.ltb_spec (r_n_leaf t + k + 1) 0); [lia|]. intros mat Hm. rewrite <- Ex, <- Ey. apply EvD; auto.
      + exists o. split; [exact Eo|]. destruct (Z.ltb_spec (r_n_leaf t + k + 1) 0); [lia|]. split; [auto|]. split; [auto|]. split; [auto|]. intros r c Hr Hc. rewrite V4, DV; auto.
    - destruct (get_spec (eval_D kern (ctx_of pt_dim xpt_dim kdim n_point t Jc)) _ _ n0' n1' _ dm (h_Ddata h) dcell MD Dnn Ddat ZD (r_n_leaf t + k) y x (- (r_n_leaf t + k + 1)) regen out Hk) as (o & Eo & V1 & V2 & V3 & V4); auto.
      + apply in_or_app. now right.
      + destruct (Z.ltb_spec (- (r_n_leaf t + k + 1)) 0); [|lia]. intros mat Hm. rewrite <- Ex, <- Ey. apply EvD; auto.
      + exists o. split; [exact Eo|]. destruct (Z.ltb_spec (- (r_n_leaf t + k + 1)) 0); [|lia]. split; [auto|]. split; [auto|]. split; [auto|]. intros r c Hr Hc. rewrite V4, DV; auto. }
  split.
  { intros k regen out Hk Ho. rewrite E8 in Hk. rewrite Elf. destruct (Hd0 _ Hk) as (Hk' & Ex & Ey). destruct (Dv _ Hk') as (M1 & M2 & DV). rewrite Ex in M1. rewrite Ey in M2.
    destruct (get_spec (eval_D kern (ctx_of pt_dim xpt_dim kdim n_point t Jc)) _ _ n0' n1' _ dm (h_Ddata h) dcell MD Dnn Ddat ZD k (lf t k) (lf t k) (k + 1) regen out Hk') as (o & Eo & V1 & V2 & V3 & V4); auto.
    + apply in_or_app. left. unfold leaf_entries. apply in_map_iff. exists k. split; [auto|now apply In_zrange].
    + destruct (Z.ltb_spec (k + 1) 0); [lia|]. intros mat Hm. pose proof (EvD k mat Hk' Hm) as EE. rewrite Ex, Ey in EE. exact EE.
    + exists o. split; [exact Eo|]. destruct (Z.ltb_spec (k + 1) 0); [lia|]. rewrite <- M1 in V1, V4. rewrite <- M2 in V2, V3. split; [auto|]. split; [auto|]. split; [auto|].
      intros r c Hr Hc. rewrite M2 at 1. rewrite V4 by (auto; rewrite <- M2; auto). rewrite DV; auto; [rewrite <- M1; auto|rewrite <- M2; auto]. }
  intros x y regen out Hx N1 N2 N3. rewrite E4 in Hx. rewrite E14 in N1, N2. apply (get_none _ _ _ _ _ _ _ _ MD); auto. intros v Hin. apply in_app_or in Hin as [Hin|Hin].
  - apply N3. unfold leaf_entries in Hin. apply in_map_iff in Hin as (k & Q & Hk). apply In_zrange in Hk. injection Q as <- <- _. split; [auto|]. exists k. rewrite E8, Elf. auto.
  - apply pair_entries_In in Hin as (k & Hk & [[G _]|[G _]]); [apply N1|apply N2|lia]; eapply getz_In; eauto.
Qed.
End Inputs.
