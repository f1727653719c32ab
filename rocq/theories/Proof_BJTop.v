(** The block Jacobi preconditioner: construction and application. *)
From Coq Require Import ZArith List Lia Bool Permutation.
From Verif Require Import Base Mem Num CRing Model_Utils Spec_Utils Spec_Matvec Spec_Dense Model_Dense Model_Partition Spec_Partition Spec_Tree Model_Matvec Model_Build Spec_Build Spec_Lapack Blk Model_ULV Model_FSAI Model_BJ Spec_BJ Spec_FSAI Proof_Utils Proof_Dense3 Proof_Gemm Proof_Gemv Proof_Build Proof_BuildFill Proof_BuildTop Proof_ULVMath Proof_ULVMem Proof_FSAIKnn Proof_AFNTop Proof_BJLeaf Proof_BJ.
Import ListNotations.
Open Scope Z_scope.

(** Partial loops in some order. *)
Lemma in_order_partial {S} (P : list Z -> S -> Prop) body : forall ord done s s', NoDup ord -> (forall i, In i ord -> ~ In i done) -> P done s ->
  (forall done i s s', In i ord -> ~ In i done -> P done s -> body i s = Some s' -> P (i :: done) s') -> in_order ord body s = Some s' ->
  exists done', P done' s' /\ forall i, In i done' <-> In i ord \/ In i done.
Proof.
  induction ord as [|i ord IH]; intros done s s' Nd Hd HP H; cbn [in_order].
  - intros [= <-]. exists done. split; auto. intros i. split; [auto|]. intros [[]|]; auto.
  - inversion Nd; subst. destruct (body i s) as [s1|] eqn:E1; cbn [bind]; [|discriminate]. intros E.
    destruct (IH (i :: done) s1 s') as (d2 & P2 & I2); auto.
    + intros k Hk [->|Hc]; [auto|]. apply (Hd k); auto. now right.
    + eapply (H done i s s1); eauto. now left. apply Hd. now left.
    + intros d k a b Hk. apply H. now right.
    + exists d2. split; auto. intros k. rewrite I2. cbn [In]. tauto.
Qed.
Lemma in_order_none {S} (P : S -> Prop) body : forall ord s, P s -> (forall i s s', In i ord -> P s -> body i s = Some s' -> P s') -> in_order ord body s = None ->
  exists i s', In i ord /\ P s' /\ body i s' = None.
Proof.
  induction ord as [|i ord IH]; intros s HP H; cbn [in_order]; [discriminate|]. destruct (body i s) as [s1|] eqn:E1; cbn [bind].
  - intros E. destruct (IH s1) as (k & s2 & A & B & C); auto. { eapply (H i s s1); auto. now left. } { intros k a b Hk. apply H. now right. } exists k, s2. split; [now right|auto].
  - intros _. exists i, s. split; [now left|auto].
Qed.

(** Two sums. *)
Section Sums.
Context {K : cring}.
Add Ring Kring : (cth K).
Local Open Scope ring_K.
Lemma rsum_window n d m (f : Z -> K) : (0 <= d)%Z -> (0 <= m)%Z -> (d + m <= n)%Z -> (forall i, (0 <= i < n)%Z -> ~ (d <= i < d + m)%Z -> f i = c0) ->
  rsum 0 n f = rsum 0 m (fun c => f (d + c)%Z).
Proof.
  intros Hd Hm Hn H. rewrite (rsum_split 0 d n f) by lia. rewrite (rsum_split d (d + m) n f) by lia. rewrite (rsum_zero 0 d f) by (intros; apply H; lia). rewrite (rsum_zero (d + m) n f) by (intros; apply H; lia).
  pose proof (rsum_shift 0 m d f) as E. replace (0 + d)%Z with d in E by lia. replace (m + d)%Z with (d + m)%Z in E by lia. rewrite E.
  rewrite (rsum_ext 0 m (fun i => f (i + d)%Z) (fun c => f (d + c)%Z)) by (intros; f_equal; lia). ring.
Qed.
Lemma rsum_blocks (D : Z -> Z) (f : Z -> K) k : (0 <= k)%Z -> (forall i, (0 <= i < k)%Z -> (0 <= D i)%Z) ->
  rsum 0 (zsumf D 0 k) f = rsum 0 k (fun i => rsum 0 (D i) (fun c => f (zsumf D 0 i + c)%Z)).
Proof.
  intros Hk HD. revert HD. pattern k. apply natlike_ind; [| |exact Hk].
  - intros _. rewrite zsumf_empty by lia. rewrite !rsum_empty by lia. reflexivity.
  - intros x Hx IH HD. unfold Z.succ. rewrite zsumf_snoc by lia. rewrite rsum_snoc by lia. rewrite <- IH by (intros; apply HD; lia).
    pose proof (HD x ltac:(lia)) as Dx. rewrite (rsum_split0 (zsumf D 0 x)).
    + replace (zsumf D 0 x + D x - zsumf D 0 x)%Z with (D x) by lia. reflexivity.
    + split; [apply zsumf_nonneg; intros; apply HD; lia|lia].
Qed.
End Sums.

Section Top.
Context {F : num} {K : cring}.
Add Ring Kring2 : (cth K).
Local Open Scope ring_K.
Variable kern : list F -> list F -> Z -> Z -> K.
Variable la : lapack K.
Variables (pt_dim xpt_dim kdim n_point : Z) (coord0 : mem F) (t : tree_result F) (h : h2rep F K) (shift : K) (perm : list Z).
Notation a := (r_arrays t).
Notation nl := (r_n_leaf t).
Notation n := (kdim * n_point)%Z.
Hypothesis LA : lapack_ok la.
Hypothesis Hdims : (1 <= pt_dim /\ 1 <= kdim /\ 1 <= n_point)%Z.
Hypothesis CT : cluster_tree pt_dim n_point (r_n_node t) (r_max_level t) nl a.
Hypothesis RE : reordered xpt_dim n_point coord0 (r_coord t) (r_idx t).
Hypothesis HC : forall d q, (0 <= d < xpt_dim)%Z -> (0 <= q < n_point)%Z -> exists v, ld coord0 (d * n_point + q) = Some v.
Hypothesis Hperm : Permutation perm (zrange 0 n_point).
Hypothesis Hidx : forall i, (0 <= i < n_point)%Z -> ld (r_idx t) i = getz perm i.
Definition Dk (k : Z) : Z := (npts a (lf t k) * kdim)%Z.
Notation dis k := (zsumf Dk 0 k).
Notation off k := (zsumf (fun q => Dk q * Dk q)%Z 0 k).
Hypothesis Hh : h_t h = a /\ h_kdim h = kdim /\ h_npoint h = n_point /\ h_nleaf h = nl /\ h_kms h = n.
Hypothesis HD : forall k, (0 <= k < nl)%Z -> ld (h_Dnrow h) k = Some (Dk k).
Hypothesis Zf : zlen (h_fwd h) = n.
Hypothesis Zb : zlen (h_bwd h) = n.
Hypothesis Hf : forall p, (0 <= p < n)%Z -> nthz (h_fwd h) p = (nthz perm (p / kdim) * kdim + p mod kdim)%Z.
Hypothesis Hfb : forall p, (0 <= p < n)%Z -> (0 <= nthz (h_fwd h) p < n /\ 0 <= nthz (h_bwd h) p < n /\ nthz (h_bwd h) (nthz (h_fwd h) p) = p /\ nthz (h_fwd h) (nthz (h_bwd h) p) = p)%Z.

Lemma maxlv : (0 <= r_max_level t)%Z.
Proof. destruct (ct_leaf_of_point _ _ _ _ _ _ CT 0%Z ltac:(lia)) as (i & (Hi & _) & _). destruct (ct_node _ _ _ _ _ _ CT i Hi) as (s & e & lv & hh & nc & D & _ & _ & Hlv & _). lia. Qed.
Lemma leafk k : (0 <= k < nl)%Z -> (ld (a_height_nodes a) k = Some (lf t k) /\ 0 <= lf t k < r_n_node t)%Z.
Proof. intros Hk. destruct (leaf_seq pt_dim n_point t ltac:(lia) maxlv CT) as (_ & L & _). split; apply (L k Hk). Qed.
Lemma Dk_pos k : (0 <= k < nl)%Z -> (kdim <= Dk k)%Z /\ Dk k = ((ce t (lf t k) - cs t (lf t k) + 1) * kdim)%Z.
Proof. intros Hk. destruct (leaf_data pt_dim n_point t ltac:(lia) maxlv CT k Hk) as (lv & _ & A & B). unfold Dk. rewrite npts_cs. split; [nia|reflexivity]. Qed.
Lemma dis_eq k : (0 <= k < nl)%Z -> dis k = (cs t (lf t k) * kdim)%Z.
Proof. intros Hk. unfold Dk. rewrite (leaf_displ pt_dim n_point t ltac:(lia) maxlv CT kdim k) by lia. destruct (Z.ltb_spec k nl); [reflexivity|lia]. Qed.
Lemma dis_total : dis nl = n.
Proof. destruct (leaf_seq pt_dim n_point t ltac:(lia) maxlv CT) as (N1 & _). unfold Dk. rewrite (leaf_displ pt_dim n_point t ltac:(lia) maxlv CT kdim nl) by lia. destruct (Z.ltb_spec nl nl); lia. Qed.
Lemma dis_window k : (0 <= k < nl)%Z -> (0 <= dis k /\ dis k + Dk k <= n)%Z.
Proof.
  intros Hk. rewrite dis_eq by auto. destruct (Dk_pos k Hk) as (_ & ->). destruct (leaf_data pt_dim n_point t ltac:(lia) maxlv CT k Hk) as (lv & _ & A & B). nia.
Qed.
Lemma Dsq k : (0 <= k < nl)%Z -> (0 <= Dk k * Dk k)%Z.
Proof. nia. Qed.

(** The cells of block k. *)
Definition cell (k i j : Z) : K := kern (cpt xpt_dim n_point t ((dis k + i) / kdim)) (cpt xpt_dim n_point t ((dis k + j) / kdim)) ((dis k + i) mod kdim) ((dis k + j) mod kdim) + shift * delta i j.

Lemma block_step sizes displs ptr tot : BJ_layout nl (h_Dnrow h) = Some (sizes, displs, ptr, tot) -> forall k inv, (0 <= k < nl)%Z -> zlen inv = off nl ->
  match BJ_block kern la h (r_coord t) xpt_dim shift sizes ptr k inv with
  | Some inv' => exists X, updr inv inv' (off k) (Dk k) (Dk k) (Dk k) X /\ forall i j, (0 <= i < Dk k)%Z -> (0 <= j < Dk k)%Z -> rsum 0 (Dk k) (fun l => cell k i l * X l j) = delta i j
  | None => exists B, (forall i j, (0 <= i < Dk k)%Z -> (0 <= j < Dk k)%Z -> B i j = cell k i j) /\ fst (fst (l_getrf la (Dk k) B)) <> 0%Z
  end.
Proof.
  intros EL k inv Hk Hz. destruct (leaf_seq pt_dim n_point t ltac:(lia) maxlv CT) as (N1 & _).
  destruct (layout_spec nl (h_Dnrow h) Dk ltac:(lia) HD) as (s' & d' & p' & EL' & L1 & L2 & L3). rewrite EL in EL'. injection EL' as <- <- <- ->.
  destruct Hh as (H1 & H2 & H3 & H4 & H5). destruct (leafk k Hk) as (A1 & A2). destruct (Dk_pos k Hk) as (DP & DE). destruct (dis_window k Hk) as (W1 & W2). pose proof (dis_eq k Hk) as De.
  destruct (leaf_data pt_dim n_point t ltac:(lia) maxlv CT k Hk) as (lv & ND & B1 & B2).
  unfold BJ_block. rewrite H1, H2, H3, H4, A1. cbn [bind]. destruct ND as (ND & _). rewrite Z.add_0_r in ND.
  assert (Ec : ld (a_cluster a) (2 * lf t k) = Some (cs t (lf t k))). { rewrite (Z.mul_comm 2). exact ND. }
  rewrite Ec. cbn [bind]. rewrite L1 by auto. cbn [bind]. rewrite L3 by auto. cbn [bind].
  destruct (Z.eqb_spec (Dk k) 0); [lia|].
  assert (G : ((0 <=? cs t (lf t k) * kdim)%Z && (cs t (lf t k) * kdim + Dk k <=? n_point * kdim)%Z)%bool = true). { apply andb_true_iff. split; apply Z.leb_le; lia. }
  rewrite G. cbn [negb].
  pose proof (off_pos nl _ Dsq k ltac:(lia)) as O1. pose proof (off_end nl _ Dsq k Hk) as O2. cbv beta in O2.
  destruct (eval_D_spec kern pt_dim xpt_dim kdim n_point 1 coord0 t [] ltac:(lia) CT RE HC (lf t k) (lf t k) inv (off k) A2 A2 O1) as (m' & Em & Zm & Gm).
  { fold (Dk k). lia. }
  unfold cx, ctx_of in Em. rewrite Em. cbn [bind]. fold (Dk k) in Gm.
  assert (Hm : holds m' (off k) (Dk k) (Dk k) (Dk k) (fun i j => kern (cpt xpt_dim n_point t ((dis k + i) / kdim)) (cpt xpt_dim n_point t ((dis k + j) / kdim)) ((dis k + i) mod kdim) ((dis k + j) mod kdim))).
  { intros i j Hi Hj. destruct (Gm (off k + (i * Dk k + j))%Z) as [(_ & E)|(E & _)]; [|exfalso; apply E; unfold in_reg; nia].
    rewrite E. f_equal. replace (off k + (i * Dk k + j) - off k)%Z with (i * Dk k + j)%Z by lia. unfold Dk at 1. rewrite cellval_rc by (fold (Dk k); lia).
    rewrite De. rewrite !Z.div_add_l by lia. rewrite <- !(Z.add_comm i), <- !(Z.add_comm j), !Z.mod_add by lia. reflexivity. }
  destruct (diag_upd m' (off k) (Dk k) _ shift ltac:(lia) Hm) as (d2 & E2 & U2). rewrite E2. cbn [bind]. destruct U2 as (Z2 & Hd2 & F2).
  pose proof (invert_block la LA (Dk k) d2 (off k) (cell k) ltac:(lia) O1 ltac:(lia) Hd2) as Q.
  match type of Q with match ?e with _ => _ end => destruct e as [inv'|] eqn:EE end.
  - destruct Q as (X & U & HX). exists X. split; [|exact HX]. destruct U as (Z3 & H3' & F3). split; [lia|]. split; [exact H3'|]. intros x Hx. rewrite F3, F2 by auto.
    destruct (Gm x) as [(Hr & _)|(_ & E)]; [|exact E]. exfalso. unfold in_reg in Hr. apply (Hx ((x - off k) / Dk k)%Z ((x - off k) mod Dk k)%Z).
    + split; [apply Z.div_pos; lia|apply Z.div_lt_upper_bound; lia].
    + apply Z.mod_pos_bound; lia.
    + pose proof (Z.div_mod (x - off k) (Dk k)). lia.
  - exact Q.
Qed.

(** The result of the construction. *)
Definition inverses (p : bjp K) (X : Z -> Z -> Z -> K) : Prop :=
  forall k, (0 <= k < nl)%Z -> holds (bj_inv p) (off k) (Dk k) (Dk k) (Dk k) (X k) /\
    forall i j, (0 <= i < Dk k)%Z -> (0 <= j < Dk k)%Z -> rsum 0 (Dk k) (fun l => cell k i l * X k l j) = delta i j.

Lemma layout_total : exists sizes displs ptr, BJ_layout nl (h_Dnrow h) = Some (sizes, displs, ptr, off nl) /\
    (forall k, (0 <= k < nl)%Z -> ld sizes k = Some (Dk k)) /\ (forall k, (0 <= k <= nl)%Z -> ld displs k = Some (dis k)) /\ (forall k, (0 <= k < nl)%Z -> ld ptr k = Some (off k)).
Proof. destruct (leaf_seq pt_dim n_point t ltac:(lia) maxlv CT) as (N1 & _). apply layout_spec; [lia|exact HD]. Qed.

Lemma region_cell k i j : (0 <= k < nl)%Z -> (0 <= i < Dk k)%Z -> (0 <= j < Dk k)%Z -> in_reg (off k) (Dk k * Dk k) (off k + (i * Dk k + j))%Z.
Proof. intros. unfold in_reg. nia. Qed.

Lemma build_result ord p : any_order nl ord -> BJ_build kern la h (r_coord t) xpt_dim shift ord = Some p ->
  (bj_n p = n /\ bj_nblk p = nl /\ bj_fwd p = h_fwd h /\ bj_bwd p = h_bwd h) /\
  (forall k, (0 <= k < nl)%Z -> ld (bj_sizes p) k = Some (Dk k) /\ ld (bj_displs p) k = Some (dis k) /\ ld (bj_ptr p) k = Some (off k)) /\ exists X, inverses p X.
Proof.
  intros Ho E. destruct layout_total as (sizes & displs & ptr & EL & L1 & L2 & L3). unfold BJ_build in E. destruct Hh as (H1 & H2 & H3 & H4 & H5). rewrite H4, EL in E. cbn [bind] in E.
  destruct (in_order ord (BJ_block kern la h (r_coord t) xpt_dim shift sizes ptr) (alloc (off nl))) as [inv|] eqn:EI; cbn [bind] in E; [|discriminate]. injection E as <-.
  split; [cbn; auto|]. cbn [bj_sizes bj_displs bj_ptr]. split. { intros k Hk. repeat split; [apply L1; auto|apply L2; lia|apply L3; auto]. }
  pose (P := fun (done : list Z) (m : mem K) => zlen m = off nl /\ forall k, In k done -> (0 <= k < nl)%Z ->
     let X := fun i j => val c0 (ld m (off k + (i * Dk k + j))%Z) in holds m (off k) (Dk k) (Dk k) (Dk k) X /\
     forall i j, (0 <= i < Dk k)%Z -> (0 <= j < Dk k)%Z -> rsum 0 (Dk k) (fun l => cell k i l * X l j) = delta i j).
  assert (Ot : (0 <= off nl)%Z) by (apply zsumf_nonneg; intros; apply Dsq; auto).
  assert (Step : forall done k m m', In k ord -> ~ In k done -> P done m -> BJ_block kern la h (r_coord t) xpt_dim shift sizes ptr k m = Some m' -> P (k :: done) m').
  { intros done k m m' Hin Hnd (Z1 & Q) Eb. apply (any_order_in nl) in Hin; auto. pose proof (block_step _ _ _ _ EL k m Hin Z1) as B. rewrite Eb in B. destruct B as (X & (Z2 & HX & FX) & HI). split; [lia|].
  intros k2 Hk2 R2. cbv zeta. destruct (Z.eq_dec k2 k) as [->|Ne].
  - split. { intros i j Hi Hj. rewrite HX by auto. reflexivity. } intros i j Hi Hj. rewrite <- (HI i j Hi Hj). apply rsum_ext. intros l Hl. rewrite HX by auto. reflexivity.
  - destruct Hk2 as [->|Hk2]; [congruence|]. destruct (Q k2 Hk2 R2) as (Q1 & Q2). cbv beta zeta in Q1, Q2.
    assert (Same : forall i j, (0 <= i < Dk k2)%Z -> (0 <= j < Dk k2)%Z -> ld m' (off k2 + (i * Dk k2 + j))%Z = ld m (off k2 + (i * Dk k2 + j))%Z).
    { intros i j Hi Hj. unfold ld. rewrite FX; auto. intros i' j' Hi' Hj' E. apply Ne.
      apply (off_disjoint nl (fun q => Dk q * Dk q)%Z Dsq k2 k (off k2 + (i * Dk k2 + j))%Z); auto; [apply region_cell; auto|rewrite E; apply region_cell; auto]. }
    split. { intros i j Hi Hj. rewrite !Same by auto. rewrite (Q1 i j Hi Hj). reflexivity. }
    intros i j Hi Hj. rewrite <- (Q2 i j Hi Hj). apply rsum_ext. intros l Hl. rewrite Same by auto. reflexivity. }
  destruct (in_order_partial P _ _ [] _ _ (any_order_nodup _ _ Ho) ltac:(auto) ltac:(split; [apply zlen_alloc; auto|intros ? []]) Step EI) as (done & (Z1 & Q) & Hd).
  exists (fun k i j => val c0 (ld inv (off k + (i * Dk k + j))%Z)). intros k Hk. apply Q; auto. apply Hd. left. now apply (any_order_in nl).
Qed.

Lemma build_fails ord : any_order nl ord -> BJ_build kern la h (r_coord t) xpt_dim shift ord = None ->
  exists k B, (0 <= k < nl)%Z /\ (forall i j, (0 <= i < Dk k)%Z -> (0 <= j < Dk k)%Z -> B i j = cell k i j) /\ fst (fst (l_getrf la (Dk k) B)) <> 0%Z.
Proof.
  intros Ho E. destruct layout_total as (sizes & displs & ptr & EL & L1 & L2 & L3). unfold BJ_build in E. destruct Hh as (H1 & H2 & H3 & H4 & H5). rewrite H4, EL in E. cbn [bind] in E.
  destruct (in_order ord (BJ_block kern la h (r_coord t) xpt_dim shift sizes ptr) (alloc (off nl))) as [inv|] eqn:EI; cbn [bind] in E; [discriminate|].
  assert (Ot : (0 <= off nl)%Z) by (apply zsumf_nonneg; intros; apply Dsq; auto).
  assert (Step : forall k (m m' : mem K), In k ord -> zlen m = off nl -> BJ_block kern la h (r_coord t) xpt_dim shift sizes ptr k m = Some m' -> zlen m' = off nl).
  { intros k m m' Hin Zm Eb. apply (any_order_in nl) in Hin; auto. pose proof (block_step _ _ _ _ EL k m Hin Zm) as B. rewrite Eb in B. destruct B as (X & (Z2 & _) & _). lia. }
  destruct (in_order_none (fun m : mem K => zlen m = off nl) _ _ _ (zlen_alloc (off nl) Ot) Step EI) as (k & m & Hin & Zm & Eb).
  apply (any_order_in nl) in Hin; auto. pose proof (block_step _ _ _ _ EL k m Hin Zm) as B. rewrite Eb in B. destruct B as (B & HB). exists k, B. auto.
Qed.

(** The leaf of a position. *)
Definition lof (q : Z) : Z := match find (fun k => (cs t (lf t k) <=? q)%Z && (q <=? ce t (lf t k))%Z) (zrange 0 nl) with Some k => k | None => 0%Z end.
Lemma lof_spec q : (0 <= q < n_point)%Z -> (0 <= lof q < nl /\ cs t (lf t (lof q)) <= q <= ce t (lf t (lof q)))%Z.
Proof.
  intros Hq. unfold lof. destruct (find _ (zrange 0 nl)) as [k|] eqn:E.
  - apply find_some in E. destruct E as (E1 & E2). apply In_zrange in E1. apply andb_true_iff in E2. destruct E2 as [E2 E3]. apply Z.leb_le in E2, E3. auto.
  - destruct (leaf_of pt_dim n_point t ltac:(lia) maxlv CT q Hq) as (k & Hk & Q). pose proof (find_none _ _ E k ltac:(now apply In_zrange)) as C. cbv beta in C.
    apply andb_false_iff in C. destruct C as [C|C]; apply Z.leb_gt in C; lia.
Qed.
Lemma lof_uniq q k : (0 <= q < n_point)%Z -> (0 <= k < nl)%Z -> (cs t (lf t k) <= q <= ce t (lf t k))%Z -> lof q = k.
Proof.
  intros Hq Hk Q. destruct (lof_spec q Hq) as (Hl & R). destruct (Z.lt_total (lof q) k) as [L|[L|L]]; auto.
  - pose proof (leaf_before pt_dim n_point t ltac:(lia) maxlv CT (lof q) k ltac:(lia) ltac:(lia)). lia.
  - pose proof (leaf_before pt_dim n_point t ltac:(lia) maxlv CT k (lof q) ltac:(lia) ltac:(lia)). lia.
Qed.
(** Cells of the vector that belong to leaf k. *)
Definition lp (p : Z) : Z := lof (p / kdim).
Lemma lp_spec p : (0 <= p < n)%Z -> (0 <= lp p < nl /\ dis (lp p) <= p < dis (lp p) + Dk (lp p))%Z.
Proof.
  intros Hp. unfold lp. assert (Hq : (0 <= p / kdim < n_point)%Z) by (split; [apply Z.div_pos; lia|apply Z.div_lt_upper_bound; lia]).
  destruct (lof_spec _ Hq) as (Hl & R). split; auto. rewrite dis_eq by auto. destruct (Dk_pos _ Hl) as (_ & ->). pose proof (Z.div_mod p kdim ltac:(lia)). pose proof (Z.mod_pos_bound p kdim ltac:(lia)). nia.
Qed.
Lemma lp_in p k : (0 <= k < nl)%Z -> (dis k <= p < dis k + Dk k)%Z -> lp p = k.
Proof.
  intros Hk Hp. destruct (dis_window k Hk) as (W1 & W2). rewrite dis_eq in Hp by auto. destruct (Dk_pos k Hk) as (_ & DE). rewrite DE in Hp. rewrite dis_eq in W1, W2 by auto.
  rewrite DE in W2. pose proof (Z.div_mod p kdim ltac:(lia)). pose proof (Z.mod_pos_bound p kdim ltac:(lia)). apply lof_uniq; auto; nia.
Qed.
(** Summing over the leaf of p. *)
Lemma sum_leaf p (f : Z -> K) : (0 <= p < n)%Z -> rsum 0 n (fun q => if (lp p =? lp q)%Z then f q else c0) = rsum 0 (Dk (lp p)) (fun c => f (dis (lp p) + c)%Z).
Proof.
  intros Hp. destruct (lp_spec p Hp) as (Hl & R). destruct (dis_window (lp p) Hl) as (W1 & W2). destruct (Dk_pos (lp p) Hl) as (DP & _).
  assert (Out : forall q, (0 <= q < n)%Z -> ~ (dis (lp p) <= q < dis (lp p) + Dk (lp p))%Z -> (if (lp p =? lp q)%Z then f q else c0) = c0).
  { intros q Hq Nq. destruct (Z.eqb_spec (lp p) (lp q)) as [Eq|Ne]; [|reflexivity]. exfalso. apply Nq. rewrite Eq. apply lp_spec; auto. }
  rewrite (rsum_window n (dis (lp p)) (Dk (lp p)) _ ltac:(lia) ltac:(lia) ltac:(lia) Out).
  apply rsum_ext. intros c Hc. rewrite (lp_in (dis (lp p) + c)%Z (lp p)) by lia. rewrite Z.eqb_refl. reflexivity.
Qed.

(** The preconditioner matrix and the matrix it inverts, in the permuted order. *)
Definition BP (p q : Z) : K := if (lp p =? lp q)%Z then kern (cpt xpt_dim n_point t (p / kdim)) (cpt xpt_dim n_point t (q / kdim)) (p mod kdim) (q mod kdim) + shift * delta p q else c0.
Definition MP (X : Z -> Z -> Z -> K) (p q : Z) : K := if (lp p =? lp q)%Z then X (lp p) (p - dis (lp p))%Z (q - dis (lp p))%Z else c0.

Lemma delta_shift d i j : @delta K (d + i)%Z (d + j)%Z = delta i j.
Proof. unfold delta. destruct (Z.eqb_spec (d + i) (d + j)), (Z.eqb_spec i j); auto; lia. Qed.
Lemma BP_cell k i j : (0 <= k < nl)%Z -> (0 <= i < Dk k)%Z -> (0 <= j < Dk k)%Z -> BP (dis k + i) (dis k + j) = cell k i j.
Proof. intros Hk Hi Hj. unfold BP, cell. rewrite !(lp_in _ k) by lia. rewrite Z.eqb_refl, delta_shift. reflexivity. Qed.

Lemma BP_MP p0 X : inverses p0 X -> forall p q, (0 <= p < n)%Z -> (0 <= q < n)%Z -> rsum 0 n (fun l => BP p l * MP X l q) = delta p q.
Proof.
  intros HI p q Hp Hq. destruct (lp_spec p Hp) as (Hl & R). destruct (lp_spec q Hq) as (Hlq & Rq).
  rewrite (rsum_ext 0 n _ (fun l => if (lp p =? lp l)%Z then BP p l * MP X l q else c0)) by (intros l Hll; unfold BP at 1; destruct (lp p =? lp l)%Z eqn:E; unfold BP; rewrite ?E; [reflexivity|ring]).
  rewrite sum_leaf by auto. destruct (Z.eq_dec (lp p) (lp q)) as [E|Ne].
  - destruct (HI (lp p) Hl) as (_ & HX). rewrite <- E in Rq. specialize (HX (p - dis (lp p))%Z (q - dis (lp p))%Z ltac:(lia) ltac:(lia)).
    rewrite <- (delta_shift (dis (lp p))) in HX. replace (dis (lp p) + (p - dis (lp p)))%Z with p in HX by lia. replace (dis (lp p) + (q - dis (lp p)))%Z with q in HX by lia. rewrite <- HX.
    apply rsum_ext. intros c Hc. rewrite <- (BP_cell (lp p) (p - dis (lp p)) c) by (auto; lia). replace (dis (lp p) + (p - dis (lp p)))%Z with p by lia. f_equal.
    unfold MP. rewrite (lp_in (dis (lp p) + c)%Z (lp p)) by lia. rewrite <- E, Z.eqb_refl. f_equal. lia.
  - rewrite rsum_zero. { unfold delta. destruct (Z.eqb_spec p q); [congruence|reflexivity]. }
    intros c Hc. unfold MP. rewrite (lp_in (dis (lp p) + c)%Z (lp p)) by lia. destruct (Z.eqb_spec (lp p) (lp q)); [contradiction|ring].
Qed.

(** The product with the inverted blocks. *)
Lemma apply_blocks p0 X : (forall k, (0 <= k < nl)%Z -> ld (bj_sizes p0) k = Some (Dk k) /\ ld (bj_displs p0) k = Some (dis k) /\ ld (bj_ptr p0) k = Some (off k)) -> inverses p0 X ->
  forall ord (pb px : mem K) f, any_order nl ord -> (forall q, (0 <= q < n)%Z -> ld pb q = Some (f q)) -> (n <= zlen px)%Z ->
  exists px', in_order ord (BJ_apply_block p0 pb) px = Some px' /\ zlen px' = zlen px /\
    (forall p, (0 <= p < n)%Z -> ld px' p = Some (rsum 0 n (fun q => MP X p q * f q))).
Proof.
  intros HL HI ord pb px f Ho Hpb Hz.
  destruct (in_order_inv (fun done (m : mem K) => zlen m = zlen px /\ forall p, (0 <= p < n)%Z -> In (lp p) done -> ld m p = Some (rsum 0 n (fun q => MP X p q * f q)))
    (BJ_apply_block p0 pb) ord [] px (any_order_nodup _ _ Ho) ltac:(auto) ltac:(split; [auto|intros ? ? []])) as (px' & done & E & (Z1 & Q) & Hd).
  - intros done k m Hin Hnd (Z1 & Q). apply (any_order_in nl) in Hin; auto. destruct (HL k Hin) as (L1 & L2 & L3). unfold BJ_apply_block. rewrite L1, L2, L3. cbn [bind].
    destruct (dis_window k Hin) as (W1 & W2). destruct (Dk_pos k Hin) as (DP & _). destruct (HI k Hin) as (HX & _).
    destruct (gemv_n_spec (Dk k) (Dk k) (bj_inv p0) (off k) (Dk k) (fun c => ld pb (dis k + c)%Z) false m (dis k) (X k) (fun c => f (dis k + c)%Z) (fun _ => c0)) as (m' & Em & Zm & Gm & Fm); try lia.
    + intros r c Hr Hc. specialize (HX r c Hr Hc). rewrite Z.add_assoc in HX. exact HX.
    + intros c Hc. apply Hpb. lia.
    + exists m'. split; auto. split; [lia|]. intros p Hp [->|Hin'].
      * destruct (lp_spec p Hp) as (_ & R). specialize (Gm (p - dis (lp p))%Z ltac:(lia)). replace (dis (lp p) + (p - dis (lp p)))%Z with p in Gm by lia. rewrite Gm. f_equal.
        rewrite (rsum_ext 0 n _ (fun q => if (lp p =? lp q)%Z then X (lp p) (p - dis (lp p))%Z (q - dis (lp p))%Z * f q else c0)) by (intros q Hq; unfold MP; destruct (lp p =? lp q)%Z; [reflexivity|ring]).
        rewrite sum_leaf by auto. rewrite (rsum_ext 0 (Dk (lp p)) (fun c => X (lp p) (p - dis (lp p))%Z (dis (lp p) + c - dis (lp p))%Z * f (dis (lp p) + c)%Z) (fun c => X (lp p) (p - dis (lp p))%Z c * f (dis (lp p) + c)%Z)) by (intros c Hc; do 2 f_equal; lia). ring.
      * rewrite Fm; [apply Q; auto|]. intros R. apply (lp_in p k Hin) in R. congruence.
  - exists px'. split; auto. split; auto. intros p Hp. apply Q; auto. apply Hd. left. apply (any_order_in nl); auto. apply lp_spec; auto.
Qed.

(** ** The user's order *)
Notation bl := (nthz (h_bwd h)).
Lemma bl_range i : (0 <= i < n)%Z -> (0 <= bl i < n)%Z. Proof. intros H. apply (Hfb i H). Qed.
Lemma bl_inj i j : (0 <= i < n)%Z -> (0 <= j < n)%Z -> bl i = bl j -> i = j.
Proof. intros Hi Hj E. destruct (Hfb i Hi) as (_ & _ & _ & A). destruct (Hfb j Hj) as (_ & _ & _ & B). congruence. Qed.
Lemma div_range i : (0 <= i < n)%Z -> (0 <= i / kdim < n_point)%Z.
Proof. intros H. split; [apply Z.div_pos; lia|apply Z.div_lt_upper_bound; lia]. Qed.
Lemma bl_cell i : (0 <= i < n)%Z -> nthz perm (bl i / kdim) = (i / kdim)%Z /\ (bl i mod kdim = i mod kdim)%Z.
Proof.
  intros Hi. pose proof (bl_range i Hi) as R. destruct (Hfb i Hi) as (_ & _ & _ & E). rewrite (Hf _ R) in E. pose proof (Z.mod_pos_bound (bl i) kdim ltac:(lia)) as B.
  split; [|rewrite <- E at 2; rewrite Z.add_comm, Z.mod_add by lia; now rewrite Z.mod_mod by lia].
  rewrite <- E at 2. rewrite Z.div_add_l by lia. rewrite (Z.div_small (bl i mod kdim)) by lia. lia.
Qed.
Lemma perm_at q : (0 <= q < n_point)%Z -> ld (r_idx t) q = Some (nthz perm q).
Proof.
  intros Hq. rewrite Hidx by auto. destruct (getz_in perm q) as [o Eo]; [unfold zlen; rewrite (Permutation_length Hperm), zrange_length; lia|]. rewrite Eo. f_equal. symmetry. now apply nthz_eq.
Qed.
Lemma perm_inj q q' : (0 <= q < n_point)%Z -> (0 <= q' < n_point)%Z -> nthz perm q = nthz perm q' -> q = q'.
Proof.
  intros Hq Hq' E. assert (N : NoDup perm) by (eapply Permutation_NoDup; [apply Permutation_sym; exact Hperm|apply NoDup_zrange]).
  assert (Zp : zlen perm = n_point) by (unfold zlen; rewrite (Permutation_length Hperm), zrange_length; lia).
  destruct (getz_in perm q ltac:(lia)) as [o Eo]. destruct (getz_in perm q' ltac:(lia)) as [o' Eo']. rewrite (nthz_eq _ _ _ Eo), (nthz_eq _ _ _ Eo') in E. subst o'.
  unfold getz in *. destruct (Z.leb_spec 0 q); [|lia]. destruct (Z.leb_spec 0 q'); [|lia]. assert (Z.to_nat q = Z.to_nat q'); [|lia].
  eapply (proj1 (NoDup_nth_error perm) N); [apply nth_error_Some; congruence|congruence].
Qed.
Lemma user_point i : (0 <= i < n)%Z -> cpt xpt_dim n_point t (bl i / kdim) = coords_of xpt_dim n_point coord0 (i / kdim).
Proof.
  intros Hi. pose proof (bl_range i Hi) as R. pose proof (div_range _ R) as Q. destruct (bl_cell i Hi) as (E & _). unfold cpt, coords_of. apply map_ext_in. intros d Hd. apply In_zrange in Hd.
  f_equal. destruct RE as (_ & Hc). rewrite (Hc (bl i / kdim)%Z d (i / kdim)%Z); auto. rewrite perm_at by auto. now rewrite E.
Qed.
Lemma in_leaf_lp i k : (0 <= i < n)%Z -> in_leaf t k (i / kdim) <-> lp (bl i) = k.
Proof.
  intros Hi. pose proof (bl_range i Hi) as R. pose proof (div_range _ R) as Q. destruct (bl_cell i Hi) as (E & _). split.
  - intros (Hk & nd & s & e & p & A1 & A2 & A3 & Hp & Ho). destruct (leafk k Hk) as (L1 & L2). rewrite L1 in A1. injection A1 as <-.
    destruct (leaf_data pt_dim n_point t ltac:(lia) maxlv CT k Hk) as (lv & (D1 & D2 & _) & B1 & B2). rewrite (Z.mul_comm 2) in A2, A3. rewrite Z.add_0_r in D1. rewrite D1 in A2. rewrite D2 in A3. injection A2 as <-. injection A3 as <-.
    rewrite perm_at in Ho by lia. injection Ho as Ho. assert (p = bl i / kdim)%Z by (apply perm_inj; auto; [lia|congruence]). subst p. unfold lp. apply lof_uniq; auto.
  - intros <-. destruct (lof_spec _ Q) as (Hk & Hq). split; [exact Hk|]. destruct (leafk _ Hk) as (L1 & L2).
    destruct (leaf_data pt_dim n_point t ltac:(lia) maxlv CT _ Hk) as (lv & (D1 & D2 & _) & B1 & B2). rewrite Z.add_0_r in D1.
    exists (lf t (lp (bl i))), (cs t (lf t (lp (bl i)))), (ce t (lf t (lp (bl i)))), (bl i / kdim)%Z. rewrite (Z.mul_comm 2). repeat (split; [assumption|]). rewrite perm_at by auto. now rewrite E.
Qed.
Lemma in_leaf_ex o : (0 <= o < n_point)%Z -> exists k, in_leaf t k o.
Proof.
  intros Ho. assert (Hi : (0 <= o * kdim < n)%Z) by nia. exists (lp (bl (o * kdim))). pose proof (proj2 (in_leaf_lp (o * kdim) (lp (bl (o * kdim))) Hi) eq_refl) as Q.
  rewrite Z.div_mul in Q by lia. exact Q.
Qed.

Definition BU (i j : Z) : K := BP (bl i) (bl j).
Definition MU X (i j : Z) : K := MP X (bl i) (bl j).

Lemma BU_leaf : leaf_diagonal t n_point kdim (kernel_matrix kern kdim (coords_of xpt_dim n_point coord0)) shift BU.
Proof.
  split.
  - intros i j k Hi Hj Ii Ij. apply in_leaf_lp in Ii; auto. apply in_leaf_lp in Ij; auto. unfold BU, BP. rewrite Ii, Ij, Z.eqb_refl. rewrite !user_point by auto.
    destruct (bl_cell i Hi) as (_ & ->). destruct (bl_cell j Hj) as (_ & ->). unfold kernel_matrix. f_equal. unfold delta.
    destruct (Z.eqb_spec (bl i) (bl j)) as [E|Ne], (Z.eqb_spec i j) as [E2|Ne2]; try ring; [exfalso; apply Ne2; apply bl_inj; auto|congruence].
  - intros i j k l Hi Hj Ii Ij Ne. apply in_leaf_lp in Ii; auto. apply in_leaf_lp in Ij; auto. unfold BU, BP. destruct (Z.eqb_spec (lp (bl i)) (lp (bl j))); [congruence|reflexivity].
Qed.
Lemma sum_bl (f : Z -> K) : rsum 0 n (fun i => f (bl i)) = rsum 0 n f.
Proof. apply (rsum_ps n bl bl_range bl_inj). Qed.
Lemma delta_bl i j : (0 <= i < n)%Z -> (0 <= j < n)%Z -> @delta K (bl i) (bl j) = delta i j.
Proof. intros Hi Hj. unfold delta. destruct (Z.eqb_spec (bl i) (bl j)) as [E|Ne], (Z.eqb_spec i j) as [E2|Ne2]; auto; [exfalso; apply Ne2; apply bl_inj; auto|congruence]. Qed.

Lemma BU_MU p0 X : inverses p0 X -> right_inverse n BU (MU X).
Proof.
  intros HI i j Hi Hj. unfold BU, MU. rewrite (sum_bl (fun l => BP (bl i) l * MP X l (bl j))). rewrite (BP_MP p0) by (auto; apply bl_range; auto). apply delta_bl; auto.
Qed.

Lemma apply_spec p X : (bj_n p = n /\ bj_nblk p = nl /\ bj_fwd p = h_fwd h /\ bj_bwd p = h_bwd h) ->
  (forall k, (0 <= k < nl)%Z -> ld (bj_sizes p) k = Some (Dk k) /\ ld (bj_displs p) k = Some (dis k) /\ ld (bj_ptr p) k = Some (off k)) -> inverses p X ->
  forall ord (b x pb px : mem K) bf, any_order nl ord -> (forall i, (0 <= i < n)%Z -> ld b i = Some (bf i)) -> (n <= zlen x)%Z -> (n <= zlen pb)%Z -> (n <= zlen px)%Z ->
  exists x' pb' px', BJ_apply p ord b x pb px = Some (x', pb', px') /\ zlen x' = zlen x /\ zlen pb' = zlen pb /\ zlen px' = zlen px /\
    (forall i, (0 <= i < n)%Z -> ld x' i = Some (rsum 0 n (fun j => MU X i j * bf j))) /\
    (forall c, (n <= c)%Z -> ld x' c = ld x c).
Proof.
  intros (P1 & P2 & P3 & P4) HL HI ord b x pb px bf Ho Hb Zx Zpb Zpx. unfold BJ_apply. rewrite P1, P3, P4. assert (Nn : (0 <= n)%Z) by nia.
  assert (InR : forall l : list Z, zlen l = n -> (forall p, (0 <= p < n)%Z -> (0 <= nthz l p < n)%Z) -> forall i, In i l -> (0 <= i < n)%Z).
  { intros l Zl Hl i Hin. apply In_getz in Hin as (k & Gk). pose proof (getz_range _ _ _ Gk). rewrite <- (nthz_eq _ _ _ Gk). apply Hl. lia. }
  destruct (gather_vector_spec n (h_fwd h) b pb 0 0 bf n) as (pb' & E1 & Z1 & G1 & _); auto; try lia.
  { intros i Hin. apply (InR (h_fwd h)); auto. intros p0 Hp0. apply (Hfb p0 Hp0). }
  rewrite E1. cbn [bind].
  destruct (apply_blocks p X HL HI ord pb' px (fun q => bf (nthz (h_fwd h) q)) Ho) as (px' & E2 & Z2 & G2); [intros q Hq; exact (G1 q Hq)|exact Zpx|]. rewrite E2. cbn [bind].
  destruct (gather_vector_spec n (h_bwd h) px' x 0 0 (fun p0 => rsum 0 n (fun q => MP X p0 q * bf (nthz (h_fwd h) q))) n) as (x' & E3 & Z3 & G3 & F3); auto; try lia.
  { intros i Hin. apply (InR (h_bwd h)); auto. intros p0 Hp0. apply (Hfb p0 Hp0). }
  rewrite E3. cbn [bind]. exists x', pb', px'. split; [reflexivity|]. split; [exact Z3|]. split; [exact Z1|]. split; [exact Z2|]. split.
  - intros i Hi. specialize (G3 i Hi). rewrite Z.add_0_l in G3. rewrite G3. f_equal. rewrite <- (sum_bl (fun q => MP X (bl i) q * bf (nthz (h_fwd h) q))).
    apply rsum_ext. intros j Hj. unfold MU. destruct (Hfb j Hj) as (_ & _ & _ & ->). reflexivity.
  - intros c Hc. unfold ld. rewrite F3 by lia. reflexivity.
Qed.
End Top.
