(** The periodic product on handles that H2P_build_periodic delivers. *)
From Coq Require Import ZArith QArith List Lia Bool Permutation.
From Verif Require Import Base Mem Num CRing Conc Model_Utils Spec_Utils Proof_Utils Model_Dense Spec_Dense Proof_Dense Model_CSR Spec_CSR Model_Partition Spec_Tree Spec_Partition
  Model_Pairs Spec_Pairs Model_Matvec Spec_Matvec Model_Build Spec_Build Spec_Matmul Model_Matmul Proof_MmTop Proof_MmUse Model_Periodic Spec_Periodic Proof_PerBlock Proof_PerTop Proof_PerRoot Proof_PerExact Model_PerBuild Proof_PerBuild Proof_Pairs Proof_PairsTop Proof_PairsPer Props_Partition Props_Pairs Proof_BuildTop.
Import ListNotations.
Open Scope Z_scope.

Section Mat.
Context {F : num} {K : cring}.
Local Open Scope ring_K.
Variable kern : list F -> list F -> Z -> Z -> K.

Lemma basis_n_strip (h : h2rep F K) n : forall i p k, basis_n (strip h) n i p k = basis_n h n i p k.
Proof.
  induction n as [|n IH]; intros i p k; [reflexivity|]. cbn [basis_n].
  change (nchild (strip h) i) with (nchild h i). destruct (nchild h i =? 0); [reflexivity|].
  apply rsum_ext. intros q _. change (rank (strip h)) with (rank h). change (child (strip h)) with (child h). apply rsum_ext. intros d _. rewrite IH. reflexivity.
Qed.
Lemma basis_strip (h : h2rep F K) i p k : basis (strip h) i p k = basis h i p k.
Proof. exact (basis_n_strip h _ i p k). Qed.
Lemma side_strip (h : h2rep F K) n m k p : side (strip h) n m k p = side h n m k p.
Proof. unfold side. change (level (strip h)) with (level h). rewrite basis_strip. reflexivity. Qed.
Lemma Hper_strip (h : h2rep F K) pt js adm inadm sB sD O p q : Hper kern (strip h) pt js adm inadm sB sD O p q = Hper kern h pt js adm inadm sB sD O p q.
Proof.
  unfold Hper. apply (f_equal2 cadd); [apply (f_equal2 cadd); [reflexivity|]|].
  - apply rsum_ext. intros k _. unfold per_adm. destruct (getz adm k) as [[n0 n1]|]; [|reflexivity].
    change (side_size (strip h)) with (side_size h). apply rsum_ext. intros r _. apply rsum_ext. intros c' _. rewrite !side_strip. reflexivity.
  - unfold per_far. change (root (strip h)) with (root h). change (rank (strip h)) with (rank h). apply rsum_ext. intros r _. apply rsum_ext. intros c' _. rewrite !basis_strip. reflexivity.
Qed.

Theorem matmul_per_rep (h : h2rep F K) pt js adm inadm sB sD O c mmx col sc n_vec z (x : mem K) ldx (y : mem K) ldy (xf : Z -> Z -> K) :
  per_rep_ok h adm -> per_ok h pt js adm inadm sB sD O c ->
  1 <= mmx -> 0 <= n_vec -> (forall b, mm_sched_ok h (sc b)) -> pst_ok h z ->
  (forall j v, 0 <= j < h_kms h -> 0 <= v < n_vec -> ld x (mat_cell col ldx j v) = Some (xf j v)) ->
  mat_fits col (h_kms h) n_vec ldy (zlen y) ->
  exists z' y', matmul_periodic kern h c mmx col sc n_vec z x ldx y ldy = Some (z', y') /\ pst_ok h z' /\ zlen y' = zlen y /\
    (forall i v, 0 <= i < h_kms h -> 0 <= v < n_vec -> ld y' (mat_cell col ldy i v) =
       Some (rsum 0 (h_kms h) (fun j => Hper kern h pt js adm inadm sB sD O (nthz (h_bwd h) i) (nthz (h_bwd h) j) * xf j v))) /\
    (forall k, (forall i v, 0 <= i < h_kms h -> 0 <= v < n_vec -> k <> mat_cell col ldy i v) -> getz y' k = getz y k) /\
    h_kms h <= zlen (s_px (fst z')) /\ h_kms h <= zlen (s_py (fst z')) /\ s_yT (fst z') = s_yT (fst z).
Proof.
  intros R PO Hm Hv Hsc Hz Hx Hy.
  assert (R' : rep_ok (strip h)) by exact (strip_ok h adm R).
  destruct (matmul_periodic_spec kern (strip h) R' (proj1 (proj2 (proj2 (proj2 (proj2 (proj2 (pr_dims _ _ R))))))) pt js adm inadm sB sD O c) with (mmx := mmx) (col := col) (sc := sc) (n_vec := n_vec) (z := z) (x := x) (ldx := ldx) (y := y) (ldy := ldy) (xf := xf)
    as (z' & y' & E & Hz' & Zy & Vy & Fy & (Px & Py) & ET); auto.
  - destruct PO. constructor; assumption.
  - intros k i n1 n G L. destruct (po_adm _ _ _ _ _ _ _ _ _ PO _ _ _ G) as (Hi & _). destruct (proj2 (pr_nr _ _ R) i Hi) as (n' & L' & Hn). change (h_nr (strip h)) with (h_nr h) in L. rewrite L in L'. injection L' as <-. eauto.
  - intros b. destruct (Hsc b). constructor; assumption.
  - destruct Hz. constructor; assumption.
  - unfold fits_mat, fits. unfold mat_fits in Hy. change (h_kms (strip h)) with (h_kms h). assert (0 <= h_kms h) by (destruct (pr_dims _ _ R) as (_ & A & _ & _ & B & _); pose proof (ct_root _ _ _ _ _ _ (pr_tree _ _ R)) as (N & _ & nc & D); destruct (ct_node _ _ _ _ _ _ (pr_tree _ _ R) 0 ltac:(lia)) as (s0 & e0 & lv0 & h0 & nc0 & _ & ? & ? & _); nia).
    destruct col; repeat (split; [lia|]); intros A B; destruct Hy as (_ & Hy); specialize (Hy ltac:(lia) ltac:(lia)); lia.
  - exists z', y'. split; [exact E|]. split; [destruct Hz'; constructor; assumption|]. split; [auto|]. split; [|split; [exact Fy|]].
    + intros i v Hi Hvv. etransitivity; [exact (Vy i v Hi Hvv)|]. f_equal. unfold pprod. apply rsum_ext. intros j Hj. rewrite Hper_strip. reflexivity.
    + unfold Proof_MmTop.perm_ok in *. change (h_kms (strip h)) with (h_kms h) in Px, Py.
      assert (0 <= h_kms h) by (destruct (pr_dims _ _ R) as (_ & A & _ & _ & B & _); pose proof (ct_root _ _ _ _ _ _ (pr_tree _ _ R)) as (N & _ & nc & D); destruct (ct_node _ _ _ _ _ _ (pr_tree _ _ R) 0 ltac:(lia)) as (s0 & e0 & lv0 & h0 & nc0 & _ & ? & ? & _); nia).
      split; [nia|]. split; [nia|exact ET].
Qed.
End Mat.

Lemma same_leaf_or {F : num} (a : tarrays F) n p q : same_leaf a n p q \/ ~ same_leaf a n p q.
Proof.
  assert (D : forall i, {is_leaf a i} + {~ is_leaf a i}) by (intros i; unfold is_leaf; destruct (ld (a_nchild a) i) as [v|]; [destruct (Z.eq_dec v 0); [left; now subst|right; congruence]|right; discriminate]).
  destruct (existsb (fun i => (if D i then true else false) && owns a i p && owns a i q) (zrange 0 n)) eqn:E.
  - left. apply existsb_exists in E as (i & Hi & E). apply In_zrange in Hi. exists i. destruct (D i); cbn [andb] in E; [|discriminate]. apply andb_true_iff in E. tauto.
  - right. intros (i & Hi & L & O1 & O2). rewrite (proj2 (existsb_exists _ _)) in E; [discriminate|]. exists i. split; [now apply In_zrange|]. destruct (D i); [|contradiction]. now rewrite O1, O2.
Qed.

Section All.
Context {F : num} {K : cring}.
Variables kern pkern : list F -> list F -> Z -> Z -> K.
Variables (fuel : nat) (rnd : Z -> F) (pt_dim xpt_dim kdim n_point n_thread : Z) (coord0 : mem F) (mlp : Z) (mls : F) (rbox : option (mem F)) (alpha : F) (depth : nat)
  (t : tree_result F) (nl : Z) (lattices : mem F) (ts : list (bool * (Z * Z * Z))) (adm inadm : mem Z * mem F)
  (U : list (dmat K)) (J : list int_vec) (Jc : list (dmat F)) (js : Z -> list Z) (blkB blkD0 blkD1 : int_vec) (ordB ordD : list Z) (m0 : dmat F) (m1 : dmat K).
Hypothesis PI : per_inputs fuel rnd pt_dim xpt_dim kdim n_point n_thread coord0 mlp mls rbox alpha depth t nl lattices ts adm inadm U J Jc js blkB blkD0 blkD1 ordB ordD m0 m1.
Notation a := (r_arrays t).
Notation sh := (lattice_shift pt_dim lattices t).
Notation ta := (of_kind true ts).
Notation ti := (of_kind false ts).

Lemma shift_is l : 0 <= l < nl -> is_lattice_shift pt_dim lattices (r_n_node t) a l (sh l).
Proof.
  intros Hl j Hj. destruct PI as [_ Hok Ht _ (Z1 & Hf) _ _ _ _ _ _ _ _ _]. destruct (boxes_of_tree _ _ _ _ _ _ _ _ _ _ Hok Ht) as (CT & BX).
  pose proof (proj1 (ct_root _ _ _ _ _ _ CT)). destruct (BX (r_n_node t - 1) (pt_dim + j)) as [w Ew]; [lia|lia|]. destruct (Hf (l * pt_dim + j)) as [v Ev]; [nia|].
  exists w, v. split; auto. split; auto. unfold lattice_shift. rewrite (proj2 (Z.leb_le 0 j)), (proj2 (Z.ltb_lt j pt_dim)) by lia.
  replace ((r_n_node t - 1) * (2 * pt_dim) + pt_dim + j) with ((r_n_node t - 1) * (pt_dim * 2) + (pt_dim + j)) by lia. rewrite Ew, Ev. reflexivity.
Qed.

Lemma triple_range kind n0 n1 l : In (n0, n1, l) (of_kind kind ts) -> 0 <= n0 < r_n_node t /\ 0 <= n1 < r_n_node t /\ 0 <= l < nl.
Proof.
  intros Hin. apply in_map_iff in Hin as ([b x] & Hx & Hin). cbn [snd] in Hx. subst x. apply filter_In in Hin as [Hin _].
  pose proof PI as [(D1 & D2 & D3 & D4 & D5) Hok Ht Hd Hl Et _ _ _ _ _ _ _ _]. destruct (boxes_of_tree _ _ _ _ _ _ _ _ _ _ Hok Ht) as (CT & BX).
  destruct (all_pairs_spec pt_dim n_point _ _ _ _ CT (conj (proj1 (proj1 Hok)) D3) BX nl lattices D5 Hl alpha depth Hd) as (ts' & Et' & T1 & _). assert (ts' = ts) by congruence. subst ts'.
  destruct (T1 _ Hin) as (l' & Hl' & Hk). assert (l = l') by (destruct Hk; auto). subst l'.
  destruct (C33_periodic_coverage _ _ _ _ _ _ _ _ _ _ _ alpha depth nl lattices Hok D3 Ht Hd D5 Hl) as (ts' & Et'' & G). assert (ts' = ts) by congruence. subst ts'.
  destruct (G l (sh l) Hl' (shift_is l Hl')) as (_ & G2). destruct (G2 _ _ _ Hin) as (R0 & R1 & _). auto.
Qed.

Lemma zcount_kind (f : Z * Z * Z -> bool) : forall l, zcount (fun x => f (snd x)) l = zcount f (of_kind true l) + zcount f (of_kind false l).
Proof.
  unfold of_kind. induction l as [|[b x] l IH]; [reflexivity|]. rewrite zcount_cons. cbn [filter fst snd]. destruct b; cbn [Bool.eqb map snd]; rewrite zcount_cons, IH; lia.
Qed.

Lemma per_covered (h : h2rep F K) l0 : h_t h = a -> h_nnode h = r_n_node t -> h_npoint h = n_point -> one_unshifted pt_dim lattices t nl l0 -> covered_per h nl l0 ta ti.
Proof.
  intros E1 E2 E3 (O1 & O2 & O3 & O4) l i j Hl Hi Hj. unfold covers. rewrite E1, E2. rewrite E3 in *.
  pose proof PI as [(D1 & D2 & D3 & D4 & D5) Hok Ht Hd Hlt Et _ _ _ _ _ _ _ _].
  destruct (C33_periodic_coverage _ _ _ _ _ _ _ _ _ _ _ alpha depth nl lattices Hok D3 Ht Hd D5 Hlt) as (ts' & Et' & G). assert (ts' = ts) by congruence. subst ts'.
  destruct (G l (sh l) Hl (shift_is l Hl)) as (G1 & _). destruct (G1 i j Hi Hj) as (C1 & C2 & C3).
  set (f := fun '(n0, n1, k) => (k =? l) && owns a n0 i && owns a n1 j).
  assert (Ec : coverage_per a ts l i j = zcount f ta + zcount f ti).
  { rewrite <- zcount_kind. unfold coverage_per. apply zcount_ext. intros [b [[n0 n1] k]] _. reflexivity. }
  pose proof (zcount_nonneg f ta). pose proof (zcount_nonneg f ti). rewrite Ec in *.
  destruct (Z.eq_dec l l0) as [->|Hne].
  - destruct (same_leaf_or a (r_n_node t) i j) as [S|S]; [left; specialize (C2 O3 S); repeat split; auto; lia|right; split; [tauto|auto]].
  - right. split; [tauto|]. apply C1. auto.
Qed.

Theorem per_all : exists h c, build_periodic kern pkern pt_dim xpt_dim kdim n_point n_thread t nl lattices adm inadm U J Jc blkB blkD0 blkD1 ordB ordD m0 m1 = Some (h, c) /\
  per_rep_ok h (map fst ta) /\
  per_ok h (coords_of xpt_dim n_point (r_coord t)) js (map fst ta) (map fst ti) (fun k => sh (lattice_of ta k)) (fun k => sh (lattice_of ti k))
    (root_block kern pkern kdim nl (fun k => coords_of xpt_dim n_point (r_coord t) (nthz (js (r_n_node t - 1)) k)) sh) c /\
  (h_npoint h = n_point /\ h_kdim h = kdim /\ h_nthread h = n_thread /\ h_nnode h = r_n_node t /\ h_nleaf h = r_n_leaf t /\ h_kms h = kdim * n_point /\ h_t h = a /\ h_U h = U) /\
  (forall i j, 0 <= i < h_kms h -> 0 <= j < h_kms h ->
     pentry h (coords_of xpt_dim n_point (r_coord t)) pkern (nthz (h_bwd h) i) (nthz (h_bwd h) j) = kernel_matrix pkern kdim (coords_of xpt_dim n_point coord0) i j).
Proof.
  pose proof PI as [(D1 & D2 & D3 & D4 & D5) Hok Ht Hd (ZL & HL) Et Ep Hs Hr SK HJ ((bl & B0) & (bl0 & B1) & (bl1 & B2)) Ho Hm].
  pose proof Hok as ([P1 P2] & P3 & (P4 & P5) & P6). destruct (boxes_of_tree _ _ _ _ _ _ _ _ _ _ Hok Ht) as (CT & BX).
  assert (RE : reordered xpt_dim n_point coord0 (r_coord t) (r_idx t)).
  { destruct (C13_partition_permutes_points _ fuel rnd _ _ _ _ mlp mls _ Hok) as (r & E & Hrr). apply (Hrr t). congruence. }
  assert (HC : forall d q, 0 <= d < xpt_dim -> 0 <= q < n_point -> exists v, ld coord0 (d * n_point + q) = Some v) by (intros d q H1 H2; apply P5; nia).
  assert (Nn := proj1 (ct_root _ _ _ _ _ _ CT)).
  destruct (C33_periodic_arrays _ _ _ _ _ _ _ _ _ _ _ alpha depth nl lattices ts Hok D3 Ht Hd D5 (conj ZL HL) Et) as (ad & ia & Ep' & Arr).
  assert (X : (ad, ia) = (adm, inadm)) by congruence. injection X as -> ->.
  set (w := fun d => val (nlit 0%Q) (ld (a_box a) ((r_n_node t - 1) * (2 * pt_dim) + pt_dim + d))).
  set (lat := fun l d => val (nlit 0%Q) (ld lattices (l * pt_dim + d))).
  assert (AO : forall kind x, x = (if kind : bool then adm else inadm) -> @arrays_of F pt_dim w lat (of_kind kind ts) x).
  { intros kind [prs shs] Ex. destruct (Arr kind prs shs Ex) as (A1 & A2 & A3). split; [exact A1|]. intros i n0 n1 l G. destruct (A3 _ _ _ _ G) as (X1 & X2 & shift & X3 & X4).
    split; [exact X1|]. split; [exact X2|]. intros j Hj. cbn [snd]. rewrite X4 by auto. f_equal. destruct (triple_range kind n0 n1 l (getz_In _ _ _ G)) as (_ & _ & Hl).
    destruct (X3 j Hj) as (wj & vj & E1 & E2 & ->). destruct (shift_is l Hl j Hj) as (wj' & vj' & E1' & E2' & E3'). change (Proof_PerRoot.lshift pt_dim w lat l j) with (sh l j). rewrite E3'. congruence. }
  destruct (build_periodic_spec kern pkern pt_dim xpt_dim kdim n_point n_thread coord0 t nl lattices ta ti adm inadm U J Jc js blkB blkD0 blkD1 bl bl0 bl1 ordB ordD m0 m1 w lat) as (h & c & perm & E & R & PO & Hperm & Hidx & NF & Fl); auto.
  - intros j Hj. destruct (BX (r_n_node t - 1) (pt_dim + j)) as [v Ev]; [lia|lia|]. unfold w.
    replace ((r_n_node t - 1) * (2 * pt_dim) + pt_dim + j) with ((r_n_node t - 1) * (pt_dim * 2) + (pt_dim + j)) by lia. rewrite Ev. reflexivity.
  - intros l j Hl Hj. destruct (HL (l * pt_dim + j)) as [v Ev]; [nia|]. unfold lat. rewrite Ev. reflexivity.
  - intros n0 n1 l Hin. destruct (triple_range true n0 n1 l Hin) as (? & ? & _). auto.
  - intros n0 n1 l Hin. destruct (triple_range false n0 n1 l Hin) as (? & ? & _). auto.
  - destruct ta; [congruence|]. zlia.
  - exists h, c. split; [exact E|]. split; [exact R|]. split; [exact PO|]. split; [exact Fl|]. destruct Fl as (F1 & F2 & F3 & F4 & F5 & F6 & F7 & F8).
    intros i j Hi Hj. destruct (pr_pmt _ _ R) as (_ & _ & PM). destruct (PM i Hi) as (_ & I1 & _ & I2). destruct (PM j Hj) as (_ & J1 & _ & J2).
    pose proof (KMp_cells pkern pt_dim xpt_dim kdim n_point n_thread coord0 t (conj P1 (conj D1 (conj D2 P3))) RE h perm F2 Hperm Hidx NF (nthz (h_bwd h) i) (nthz (h_bwd h) j)) as KC.
    rewrite F6 in *. specialize (KC ltac:(lia) ltac:(lia)). unfold KMp, Proof_BuildTop.KM in KC. rewrite I2, J2 in KC. rewrite KC. unfold pentry. rewrite F2. reflexivity.
Qed.
End All.
