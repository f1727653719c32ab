(** H2P_build: everything together. *)
From Coq Require Import ZArith QArith List Lia Bool Permutation.
From Verif Require Import Base Mem Num CRing Conc Model_Utils Spec_Utils Proof_Utils Model_Dense Spec_Dense Model_CSR Spec_CSR Model_Partition Spec_Tree Spec_Partition
  Model_Pairs Spec_Pairs Proof_Pairs Model_Matvec Spec_Matvec Proof_MvMid Proof_MvTop Model_Build Spec_Build Proof_Build Proof_BuildFill.
Import ListNotations.
Open Scope Z_scope.

(** ** Permutation indices *)
Lemma divmod_cell k i j : 1 <= k -> 0 <= j < k -> (i * k + j) / k = i /\ (i * k + j) mod k = j.
Proof.
  intros Hk Hj. replace (i * k + j) with (j + i * k) by lia. rewrite Z.div_add, Z.mod_add by lia. rewrite Z.div_small, Z.mod_small by lia. lia.
Qed.
Lemma cell_divmod k p : 1 <= k -> p = p / k * k + p mod k /\ 0 <= p mod k < k.
Proof. intros Hk. pose proof (Z.div_mod p k ltac:(lia)). pose proof (Z.mod_pos_bound p k ltac:(lia)). lia. Qed.
Lemma cell_range k n p : 1 <= k -> (0 <= p / k < n <-> 0 <= p < n * k).
Proof. intros Hk. destruct (cell_divmod k p Hk). nia. Qed.

Lemma pmt_indices_spec n kdim idx perm : 1 <= kdim -> 0 <= n -> Permutation perm (zrange 0 n) -> (forall i, 0 <= i < n -> ld idx i = getz perm i) ->
  exists fwd bwd fl bl, pmt_indices n kdim idx = Some (fwd, bwd) /\
    read_cells fwd 0 (n * kdim) = Some fl /\ read_cells bwd 0 (n * kdim) = Some bl /\
    zlen fl = n * kdim /\ zlen bl = n * kdim /\
    (forall p, 0 <= p < n * kdim -> nthz fl p = nthz perm (p / kdim) * kdim + p mod kdim) /\
    forall p, 0 <= p < n * kdim -> 0 <= nthz fl p < n * kdim /\ 0 <= nthz bl p < n * kdim /\ nthz bl (nthz fl p) = p /\ nthz fl (nthz bl p) = p.
Proof.
  intros Hk Hn Hp Hi. unfold pmt_indices.
  assert (Zp : zlen perm = n) by (unfold zlen; rewrite (Permutation_length Hp), zrange_length; lia).
  assert (Rp : forall i, 0 <= i < n -> getz perm i = Some (nthz perm i) /\ 0 <= nthz perm i < n).
  { intros i Hi'. destruct (getz_in perm i ltac:(lia)) as [v Ev]. split; [now rewrite (nthz_eq _ _ _ Ev)|]. rewrite (nthz_eq _ _ _ Ev).
    apply In_zrange. eapply Permutation_in; [exact Hp|]. eapply getz_In; eauto. }
  assert (Np : NoDup perm) by (eapply Permutation_NoDup; [apply Permutation_sym; exact Hp|apply NoDup_zrange]).
  assert (Ip : forall i i', 0 <= i < n -> 0 <= i' < n -> nthz perm i = nthz perm i' -> i = i').
  { intros i i' H1 H2 E. destruct (Rp i H1) as [E1 _]. destruct (Rp i' H2) as [E2 _]. rewrite <- E in E2. eapply NoDup_getz; eauto. }
  assert (Sp : forall q, 0 <= q < n -> exists i, 0 <= i < n /\ nthz perm i = q).
  { intros q Hq. assert (In q perm) as Hin by (eapply Permutation_in; [apply Permutation_sym; exact Hp|now apply In_zrange]).
    apply In_getz in Hin as (i & Ei). exists i. split; [pose proof (getz_range _ _ _ Ei); lia|now apply nthz_eq]. }
  set (pi := nthz perm) in *.
  set (I := fun (P : Z -> Z -> Prop) (x : mem Z * mem Z) => zlen (fst x) = n * kdim /\ zlen (snd x) = n * kdim /\
    forall i j, 0 <= i < n -> 0 <= j < kdim -> P i j -> ld (fst x) (i * kdim + j) = Some (pi i * kdim + j) /\ ld (snd x) (pi i * kdim + j) = Some (i * kdim + j)).
  assert (Cell : forall i j i' j', 0 <= j < kdim -> 0 <= j' < kdim -> i * kdim + j = i' * kdim + j' -> i = i' /\ j = j').
  { intros i j i' j' Hj Hj' E. destruct (divmod_cell kdim i j Hk Hj) as [D1 D2]. destruct (divmod_cell kdim i' j' Hk Hj') as [D3 D4]. rewrite E in D1, D2. lia. }
  destruct (zfor_inv (fun i => I (fun i' _ => i' < i)) 0 n (fun i (x : mem Z * mem Z) => zfor 0 kdim (fun j (x : mem Z * mem Z) => let '(fwd, bwd) := x in
      ci <- ld idx i; fwd <- st fwd (i * kdim + j) (ci * kdim + j); bwd <- st bwd (ci * kdim + j) (i * kdim + j); Some (fwd, bwd)) x)
      (alloc (n * kdim), alloc (n * kdim))) as ([fwd bwd] & E & Z1 & Z2 & G).
  - lia.
  - split; [|split]; cbn [fst snd]; try (apply zlen_alloc; nia). intros; lia.
  - intros i x Hi' Hx. rewrite (Hi i Hi'), (proj1 (Rp i Hi')). pose proof (proj2 (Rp i Hi')) as Hpi. fold (pi i). fold (pi i) in Hpi.
    destruct (zfor_inv (fun j => I (fun i' j' => i' < i \/ (i' = i /\ j' < j))) 0 kdim (fun j (x : mem Z * mem Z) => let '(fwd, bwd) := x in
      ci <- Some (pi i); fwd <- st fwd (i * kdim + j) (ci * kdim + j); bwd <- st bwd (ci * kdim + j) (i * kdim + j); Some (fwd, bwd)) x) as (x' & E' & Z1 & Z2 & G).
    + lia.
    + destruct Hx as (Z1 & Z2 & G). split; auto. split; auto. intros i' j' H1 H2 [H3|[H3 H4]]; [apply G; auto|lia].
    + intros j [fwd bwd] Hj (Z1 & Z2 & G). cbn [fst snd bind] in *.
      destruct (st_Some fwd (i * kdim + j) (pi i * kdim + j)) as [f' Ef]; [nia|].
      destruct (st_Some bwd (pi i * kdim + j) (i * kdim + j)) as [b' Eb]; [nia|]. rewrite Ef. cbn [bind]. rewrite Eb. cbn [bind].
      exists (f', b'). split; auto. split; [|split]; cbn [fst snd]; [rewrite (st_zlen _ _ _ _ Ef); auto|rewrite (st_zlen _ _ _ _ Eb); auto|].
      intros i' j' H1 H2 H3. rewrite (ld_st _ _ _ _ _ Ef), (ld_st _ _ _ _ _ Eb).
      destruct (Z.eq_dec i' i) as [->|Hne].
      * destruct (Z.eq_dec j' j) as [->|Hnj]; [rewrite !Z.eqb_refl; auto|].
        destruct (Z.eqb_spec (i * kdim + j) (i * kdim + j')); [lia|]. destruct (Z.eqb_spec (pi i * kdim + j) (pi i * kdim + j')); [lia|]. apply G; auto. lia.
      * destruct (Z.eqb_spec (i * kdim + j) (i' * kdim + j')) as [Q|_]; [apply Cell in Q; auto; lia|].
        destruct (Z.eqb_spec (pi i * kdim + j) (pi i' * kdim + j')) as [Q|_]; [apply Cell in Q; auto; destruct Q as [Q _]; apply Ip in Q; auto; lia|]. apply G; auto. lia.
    + exists x'. split; [exact E'|]. split; auto. split; auto. intros i' j' H1 H2 H3. apply G; auto. lia.
  - cbn [fst snd] in *.
    assert (GF : forall p, 0 <= p < n * kdim -> ld fwd p = Some (pi (p / kdim) * kdim + p mod kdim)).
    { intros p Hp'. destruct (cell_divmod kdim p Hk) as [C1 C2]. apply (cell_range kdim n p Hk) in Hp'.
      destruct (G (p / kdim) (p mod kdim) Hp' C2 ltac:(lia)) as [G1 _]. rewrite <- C1 in G1. auto. }
    assert (GB : forall q, 0 <= q < n * kdim -> exists p, 0 <= p < n * kdim /\ ld bwd q = Some p /\ q = pi (p / kdim) * kdim + p mod kdim).
    { intros q Hq. destruct (cell_divmod kdim q Hk) as [C1 C2]. apply (cell_range kdim n q Hk) in Hq. destruct (Sp _ Hq) as (i & Hi' & Ei).
      destruct (G i (q mod kdim) Hi' C2 ltac:(lia)) as [_ G2]. rewrite Ei, <- C1 in G2. exists (i * kdim + q mod kdim). split; [nia|]. split; auto.
      destruct (divmod_cell kdim i (q mod kdim) Hk C2) as [-> ->]. rewrite Ei. auto. }
    pose proof (read_cells_spec fwd 0 (n * kdim) (fun p => pi (p / kdim) * kdim + p mod kdim) ltac:(nia) GF) as RF.
    assert (GB' : forall q, 0 <= q < n * kdim -> ld bwd (0 + q) = Some (val 0 (ld bwd q))) by (intros q Hq; rewrite Z.add_0_l; destruct (GB q Hq) as (p & _ & -> & _); reflexivity).
    pose proof (read_cells_spec bwd 0 (n * kdim) (fun q => val 0 (ld bwd q)) ltac:(nia) GB') as RB.
    assert (Hnk : 0 <= n * kdim) by nia.
    destruct (read_cells_getz _ _ _ _ Hnk RF) as [ZF LF]. destruct (read_cells_getz _ _ _ _ Hnk RB) as [ZB LB].
    eexists fwd, bwd, _, _. split; [exact E|]. split; [exact RF|]. split; [exact RB|]. split; auto. split; auto.
    match goal with |- context [nthz ?l _ = pi _ * _ + _] => set (fl := l) in * end.
    match type of ZB with zlen ?l = _ => set (bl := l) in * end.
    assert (NF : forall p, 0 <= p < n * kdim -> nthz fl p = pi (p / kdim) * kdim + p mod kdim) by (intros p Hp'; apply nthz_eq; rewrite LF by auto; apply GF; auto).
    split; auto. intros p Hp'.
    assert (RFp : 0 <= nthz fl p < n * kdim).
    { rewrite NF by auto. destruct (cell_divmod kdim p Hk) as [C1 C2]. apply (cell_range kdim n p Hk) in Hp'. pose proof (proj2 (Rp _ Hp')). fold (pi (p / kdim)) in *. nia. }
    assert (InjF : forall p p', 0 <= p < n * kdim -> 0 <= p' < n * kdim -> pi (p / kdim) * kdim + p mod kdim = pi (p' / kdim) * kdim + p' mod kdim -> p = p').
    { intros x y Hx Hy Exy. destruct (cell_divmod kdim x Hk) as [C1 C2]. destruct (cell_divmod kdim y Hk) as [C3 C4]. apply Cell in Exy; auto. destruct Exy as [Q1 Q2].
      apply (cell_range kdim n x Hk) in Hx. apply (cell_range kdim n y Hk) in Hy. apply Ip in Q1; auto. rewrite C1, C3. congruence. }
    destruct (GB p Hp') as (b & Rb & Eb & Pb). assert (NB : nthz bl p = b) by (apply nthz_eq; rewrite LB by auto; exact Eb).
    split; auto. split; [lia|]. split.
    + destruct (GB _ RFp) as (b' & Rb' & Eb' & Pb'). rewrite (nthz_eq bl (nthz fl p) b') by (rewrite LB by auto; exact Eb'). rewrite NF in Pb' by auto. symmetry. now apply InjF.
    + rewrite NB, NF by auto. auto.
Qed.

(** ** Row ranges *)
Lemma mat_clusters_spec kdim n cl (s e : Z -> Z) : 0 <= n -> (forall i, 0 <= i < n -> ld cl (i * 2) = Some (s i) /\ ld cl (i * 2 + 1) = Some (e i)) ->
  exists m, mat_clusters kdim n cl = Some m /\ forall i, 0 <= i < n -> ld m (i * 2) = Some (kdim * s i) /\ ld m (i * 2 + 1) = Some (kdim * (e i + 1) - 1).
Proof.
  intros Hn Hc. unfold mat_clusters.
  destruct (zfor_inv (fun k m => zlen m = n * 2 /\ forall i, 0 <= i < k -> ld m (i * 2) = Some (kdim * s i) /\ ld m (i * 2 + 1) = Some (kdim * (e i + 1) - 1)) 0 n
    (fun i (m : mem Z) => x <- ld cl (i * 2); m <- st m (i * 2) (kdim * x); y <- ld cl (i * 2 + 1); st m (i * 2 + 1) (kdim * (y + 1) - 1)) (alloc (n * 2))) as (m & E & _ & G).
  - lia.
  - split; [apply zlen_alloc; lia|intros; lia].
  - intros i m Hi (Zm & G). destruct (Hc i Hi) as [-> ->]. cbn [bind]. destruct (st_Some m (i * 2) (kdim * s i)) as [m1 E1]; [lia|]. rewrite E1. cbn [bind].
    pose proof (st_zlen _ _ _ _ E1). destruct (st_Some m1 (i * 2 + 1) (kdim * (e i + 1) - 1)) as [m2 E2]; [lia|]. exists m2. split; auto. pose proof (st_zlen _ _ _ _ E2). split; [lia|].
    intros j Hj. rewrite !(ld_st _ _ _ _ _ E2), !(ld_st _ _ _ _ _ E1).
    destruct (Z.eqb_spec (i * 2 + 1) (j * 2)); [lia|]. destruct (Z.eqb_spec (i * 2) (j * 2 + 1)); [lia|].
    destruct (Z.eqb_spec (i * 2) (j * 2)); destruct (Z.eqb_spec (i * 2 + 1) (j * 2 + 1)); try lia; [assert (i = j) by lia; subst; auto|apply G; lia].
  - exists m. auto.
Qed.

Lemma tiles_child_a {F : num} (a : tarrays F) (p lv : Z) cs : forall s e, tiles a p lv s e cs ->
  forall c, In c cs -> 0 <= c < p /\ ld (a_level a) c = Some lv.
Proof.
  induction cs as [|c cs IH]; intros s e H c' Hc; [contradiction|]. cbn [tiles] in H.
  destruct H as (ce & hc & nc & D & _ & H1 & H2 & H3). destruct Hc as [<-|Hc].
  - split; auto. apply D.
  - eapply IH; eauto.
Qed.

(** ** The second phase of H2P_build *)
Section Build.
Context {F : num} {K : cring}.
Variable kern : list F -> list F -> Z -> Z -> K.
Variables (pt_dim xpt_dim kdim n_point n_thread : Z) (coord0 : mem F) (t : tree_result F) (ps : pairs)
  (U : list (dmat K)) (J : list int_vec) (Jc : list (dmat F)) (js : Z -> list Z) (blkB blkD0 blkD1 : int_vec) (bl bl0 bl1 : list Z) (sc : build_sched).
Notation a := (r_arrays t).
Notation n_node := (r_n_node t).
Notation n_leaf := (r_n_leaf t).
Notation minl := (ps_min_level ps).
Hypothesis Hdims : 1 <= pt_dim /\ 1 <= kdim /\ 1 <= n_thread /\ 1 <= n_point.
Hypothesis CT : cluster_tree pt_dim n_point n_node (r_max_level t) n_leaf a.
Hypothesis RE : reordered xpt_dim n_point coord0 (r_coord t) (r_idx t).
Hypothesis HC : forall d q, 0 <= d < xpt_dim -> 0 <= q < n_point -> exists v, ld coord0 (d * n_point + q) = Some v.
Hypothesis Hmin : 0 <= minl <= r_max_level t.
Hypothesis Hadm : forall n0 n1, In (n0, n1) (ps_adm ps) -> 0 <= n0 < n_node /\ 0 <= n1 < n_node /\ minl <= Z.max (lev a n0) (lev a n1).
Hypothesis Hinadm : forall n0 n1, In (n0, n1) (ps_inadm ps) -> 0 <= n0 < n_node /\ 0 <= n1 < n_node.
Hypothesis Hsimple : simple_pairs (ps_adm ps) /\ simple_pairs (ps_inadm ps).
Hypothesis Hsome : 1 <= zlen (ps_adm ps).
Hypothesis SK : skeletons_ok pt_dim xpt_dim kdim n_point n_node minl (r_coord t) a U J Jc js.
Hypothesis Hblk : iv_holds blkB bl /\ iv_holds blkD0 bl0 /\ iv_holds blkD1 bl1.
Hypothesis Hsc : build_sched_ok kdim n_thread t ps J blkB blkD0 blkD1 sc.

Definition cs (i : Z) : Z := val 0 (ld (a_cluster a) (i * 2)).
Definition ce (i : Z) : Z := val 0 (ld (a_cluster a) (i * 2 + 1)).
Lemma cluster_at i : 0 <= i < n_node -> ld (a_cluster a) (2 * i) = Some (cs i) /\ ld (a_cluster a) (2 * i + 1) = Some (ce i) /\ 0 <= cs i <= ce i /\ ce i < n_point /\
  ld (a_level a) i = Some (lev a i) /\ 0 <= lev a i <= r_max_level t.
Proof.
  intros Hi. destruct (ct_node _ _ _ _ _ _ CT i Hi) as (s & e & lv & hh & nc & (D1 & D2 & D3 & D4 & D5) & H1 & H2 & H3 & _).
  rewrite Z.add_0_r in D1. unfold cs, ce, lev. rewrite (Z.mul_comm 2 i), D1, D2, D3. cbn [val]. repeat (split; [auto; lia|]). lia.
Qed.
Lemma npts_cs i : npts a i = ce i - cs i + 1.
Proof. reflexivity. Qed.

(** Coordinates of the point at position p. *)
Definition cpt (p : Z) : list F := coords_of xpt_dim n_point (r_coord t) p.
Lemma coord_set d p : 0 <= d < xpt_dim -> 0 <= p < n_point -> exists v, ld (r_coord t) (d * n_point + p) = Some v.
Proof.
  intros Hd Hp. destruct RE as [(perm & Hperm & Hidx) Hc].
  destruct (getz_in perm p) as [o Eo]; [unfold zlen; rewrite (Permutation_length Hperm), zrange_length; lia|].
  rewrite (Hc p d o Hp Hd) by (rewrite Hidx; auto). apply HC; auto. apply In_zrange. eapply Permutation_in; [exact Hperm|]. eapply getz_In; eauto.
Qed.
Lemma cpt_user p o : 0 <= p < n_point -> ld (r_idx t) p = Some o -> coords_of xpt_dim n_point coord0 o = cpt p.
Proof.
  intros Hp Ho. unfold cpt, coords_of. apply map_ext_in. intros d Hd. apply In_zrange in Hd. now rewrite (proj2 RE p d o Hp Hd Ho).
Qed.
Lemma point_cluster s j : 0 <= s + j < n_point -> point xpt_dim (r_coord t) s n_point j = Some (cpt (s + j)).
Proof.
  intros Hp. unfold point, cpt, coords_of. apply all_some_map. intros d Hd. apply In_zrange in Hd. destruct (coord_set d (s + j) Hd Hp) as (v & Ev).
  replace (s + d * n_point + j) with (d * n_point + (s + j)) by lia. now rewrite Ev.
Qed.
Lemma js_range i p : 0 <= i < n_node -> minl <= lev a i -> In p (js i) -> cs i <= p <= ce i.
Proof.
  intros Hi Hl Hin. pose proof (sk_own _ _ _ _ _ _ _ _ _ _ _ _ SK i p Hi Hl Hin) as Ho.
  destruct (ct_node _ _ _ _ _ _ CT i Hi) as (s & e & lv & hh & nc & D & _). rewrite (owns_data _ _ _ _ _ _ _ _ D) in Ho.
  destruct D as (D1 & D2 & _). unfold cs, ce. rewrite Z.add_0_r in D1. rewrite D1, D2. cbn [val]. lia.
Qed.
Lemma point_skel i m j : 0 <= i < n_node -> minl <= lev a i -> getz Jc i = Some m -> 0 <= j < zlen (js i) ->
  point xpt_dim (dm_data m) 0 (dm_ncol m) j = Some (cpt (nthz (js i) j)).
Proof.
  intros Hi Hl Em Hj. unfold point, cpt, coords_of. apply all_some_map. intros d Hd. apply In_zrange in Hd.
  destruct (sk_Jc _ _ _ _ _ _ _ _ _ _ _ _ SK i m Em) as (_ & G). rewrite Z.add_0_l, (G d j (nthz (js i) j) Hd (getz_nthz _ _ Hj)).
  destruct (cluster_at i Hi) as (_ & _ & C1 & C2 & _). pose proof (js_range i (nthz (js i) j) Hi Hl (getz_In _ _ _ (getz_nthz _ _ Hj))).
  destruct (coord_set d (nthz (js i) j) Hd ltac:(lia)) as (v & ->). reflexivity.
Qed.

(** Points on n's side of the block of the pair (n, m). *)
Definition side_n (n m : Z) : Z := if lev a m <=? lev a n then zlen (js n) else npts a n.
Definition side_pos (n m j : Z) : Z := if lev a m <=? lev a n then nthz (js n) j else cs n + j.

Lemma J_at i : 0 <= i < n_node -> exists v m, getz J i = Some v /\ iv_len v = zlen (js i) /\ getz Jc i = Some m /\ dm_ncol m = zlen (js i).
Proof.
  intros Hi. destruct (sk_len _ _ _ _ _ _ _ _ _ _ _ _ SK) as (_ & Z1 & Z2). destruct (getz_in J i ltac:(lia)) as [v Ev]. destruct (getz_in Jc i ltac:(lia)) as [m Em].
  exists v, m. destruct (sk_J _ _ _ _ _ _ _ _ _ _ _ _ SK i v Ev) as (_ & L & _). destruct (sk_Jc _ _ _ _ _ _ _ _ _ _ _ _ SK i m Em) as (L' & _). auto.
Qed.
Lemma B_npts_spec n0 n1 : 0 <= n0 < n_node -> 0 <= n1 < n_node -> B_npts (a_level a) (a_cluster a) J n0 n1 = Some (side_n n0 n1, side_n n1 n0).
Proof.
  intros H0 H1. destruct (cluster_at n0 H0) as (A1 & A2 & A3 & A4 & A5 & _). destruct (cluster_at n1 H1) as (B1 & B2 & B3 & B4 & B5 & _).
  destruct (J_at n0 H0) as (v0 & m0 & V0 & W0 & _). destruct (J_at n1 H1) as (v1 & m1 & V1 & W1 & _).
  unfold B_npts, side_n. rewrite A5, B5. cbn [bind]. destruct (Z.eqb_spec (lev a n0) (lev a n1)) as [E|E].
  - rewrite V0, V1. cbn [bind]. rewrite E, Z.leb_refl. congruence.
  - destruct (Z.ltb_spec (lev a n1) (lev a n0)); destruct (Z.leb_spec (lev a n0) (lev a n1)); destruct (Z.leb_spec (lev a n1) (lev a n0)); try lia.
    + rewrite B1, B2. cbn [bind]. rewrite V0. cbn [bind]. rewrite W0. reflexivity.
    + rewrite A1, A2. cbn [bind]. rewrite V1. cbn [bind]. rewrite W1. reflexivity.
Qed.

Definition cx : bctx F := ctx_of pt_dim xpt_dim kdim n_point t Jc.

(** What an evaluated block looks like, cell by cell. *)
Definition cellval (P Q : Z -> Z) (np1 c : Z) : K :=
  kern (cpt (P (c / (np1 * kdim) / kdim))) (cpt (Q (c mod (np1 * kdim) / kdim))) ((c / (np1 * kdim)) mod kdim) ((c mod (np1 * kdim)) mod kdim).

Lemma eval_B_spec n0 n1 mat off : In (n0, n1) (ps_adm ps) -> 0 <= off -> off + (side_n n0 n1 * kdim) * (side_n n1 n0 * kdim) <= zlen mat ->
  exists m', eval_B kern cx n0 n1 mat off = Some m' /\ zlen m' = zlen mat /\
    forall c, (in_reg off ((side_n n0 n1 * kdim) * (side_n n1 n0 * kdim)) c /\ ld m' c = Some (cellval (side_pos n0 n1) (side_pos n1 n0) (side_n n1 n0) (c - off)))
           \/ (~ in_reg off ((side_n n0 n1 * kdim) * (side_n n1 n0 * kdim)) c /\ getz m' c = getz mat c).
Proof.
  intros Hin Ho Hz. destruct (Hadm _ _ Hin) as (H0 & H1 & Hl). destruct Hdims as (D1 & D2 & D3 & D4).
  destruct (cluster_at n0 H0) as (A1 & A2 & A3 & A4 & A5 & _). destruct (cluster_at n1 H1) as (B1 & B2 & B3 & B4 & B5 & _).
  destruct (J_at n0 H0) as (v0 & m0 & V0 & W0 & X0 & Y0). destruct (J_at n1 H1) as (v1 & m1 & V1 & W1 & X1 & Y1).
  pose proof (zlen_nonneg (js n0)). pose proof (zlen_nonneg (js n1)).
  unfold eval_B, cx, ctx_of. cbn [x_dim x_kdim x_npoint x_coord x_Jc x_level x_cluster]. rewrite A5, B5. cbn [bind].
  revert Hz. unfold cellval. unfold side_n, side_pos. rewrite !npts_cs. destruct (Z.eqb_spec (lev a n0) (lev a n1)) as [E|E].
  - rewrite E, Z.leb_refl. intros Hz. rewrite X0, X1. cbn [bind]. rewrite Y0, Y1.
    apply krnl_eval_spec with (P := fun j => cpt (nthz (js n0) j)) (Q := fun j => cpt (nthz (js n1) j)); auto; intros j Hj.
    + rewrite <- Y0. apply point_skel; auto; lia.
    + rewrite <- Y1. apply point_skel; auto; lia.
  - destruct (Z.ltb_spec (lev a n1) (lev a n0)); destruct (Z.leb_spec (lev a n0) (lev a n1)); destruct (Z.leb_spec (lev a n1) (lev a n0)); try lia; intros Hz.
    + rewrite B1, B2. cbn [bind]. rewrite X0. cbn [bind]. rewrite Y0.
      apply krnl_eval_spec with (P := fun j => cpt (nthz (js n0) j)) (Q := fun j => cpt (cs n1 + j)); auto; try lia; intros j Hj.
      * rewrite <- Y0. apply point_skel; auto; lia.
      * apply point_cluster. lia.
    + rewrite A1, A2. cbn [bind]. rewrite X1. cbn [bind]. rewrite Y1.
      apply krnl_eval_spec with (P := fun j => cpt (cs n0 + j)) (Q := fun j => cpt (nthz (js n1) j)); auto; try lia; intros j Hj.
      * apply point_cluster. lia.
      * rewrite <- Y1. apply point_skel; auto; lia.
Qed.

Lemma eval_D_spec n0 n1 mat off : 0 <= n0 < n_node -> 0 <= n1 < n_node -> 0 <= off -> off + (npts a n0 * kdim) * (npts a n1 * kdim) <= zlen mat ->
  exists m', eval_D kern cx n0 n1 mat off = Some m' /\ zlen m' = zlen mat /\
    forall c, (in_reg off ((npts a n0 * kdim) * (npts a n1 * kdim)) c /\ ld m' c = Some (cellval (fun j => cs n0 + j) (fun j => cs n1 + j) (npts a n1) (c - off)))
           \/ (~ in_reg off ((npts a n0 * kdim) * (npts a n1 * kdim)) c /\ getz m' c = getz mat c).
Proof.
  intros H0 H1 Ho Hz. destruct Hdims as (D1 & D2 & D3 & D4).
  destruct (cluster_at n0 H0) as (A1 & A2 & A3 & A4 & _). destruct (cluster_at n1 H1) as (B1 & B2 & B3 & B4 & _).
  unfold eval_D, cx, ctx_of. cbn [x_dim x_kdim x_npoint x_coord x_Jc x_level x_cluster]. rewrite A1, A2, B1, B2. cbn [bind].
  unfold cellval. rewrite !npts_cs in *.
  apply krnl_eval_spec with (P := fun j => cpt (cs n0 + j)) (Q := fun j => cpt (cs n1 + j)); auto; try lia; intros j Hj; apply point_cluster; lia.
Qed.

(** *** The AOT loops *)
Lemma own_block_perm n size v : work_ok v n n_thread size -> exists m, 0 <= m <= n /\
  Permutation (map snd (concat (thread_items v (map (own_block (iv_len v - 1)) (zrange 0 n_thread))))) (zrange 0 m) /\ (forall k, m <= k < n -> size k = 0).
Proof.
  intros (Hb & L1 & L2). destruct Hdims as (_ & _ & D3 & _).
  destruct (blocks_perm n_thread v n size (map (own_block (iv_len v - 1)) (zrange 0 n_thread)) ltac:(lia) Hb) as (m & M & P & _ & Z0 & _).
  - unfold block_assignment. destruct (Z.leb_spec (iv_len v - 1) n_thread); [reflexivity|lia].
  - eauto.
Qed.
Lemma bounds_ok n size v : work_ok v n n_thread size -> bounds_readable n_thread v = true.
Proof. intros (_ & _ & L). apply forallb_forall. intros x Hx. apply In_zrange in Hx. apply Z.ltb_lt. lia. Qed.

Definition Bsize (k : Z) : Z := let '(n0, n1) := pair_at (ps_adm ps) k in (side_n n0 n1 * kdim) * (side_n n1 n0 * kdim).

Lemma side_n_nonneg n m : 0 <= n < n_node -> 0 <= side_n n m.
Proof.
  intros Hn. unfold side_n. destruct (_ <=? _); [apply zlen_nonneg|]. rewrite npts_cs. destruct (cluster_at n Hn) as (_ & _ & A & _). lia.
Qed.

Lemma build_B_spec v m : work_ok v (zlen (ps_adm ps)) n_thread Bsize -> B_AOT_schedule n_thread v (bs_evB sc) ->
  (forall k, 0 <= k <= zlen (ps_adm ps) -> ld (bm_ptr m) k = Some (zsumf Bsize 0 k)) -> bm_total m = zsumf Bsize 0 (zlen (ps_adm ps)) ->
  exists Bd, build_B_AOT kern cx n_thread (ps_adm ps) m v (bs_evB sc) = Some Bd /\ zlen Bd = zsumf Bsize 0 (zlen (ps_adm ps)) /\
    forall k n0 n1 c, getz (ps_adm ps) k = Some (n0, n1) -> 0 <= c < Bsize k ->
      ld Bd (zsumf Bsize 0 k + c) = Some (cellval (side_pos n0 n1) (side_pos n1 n0) (side_n n1 n0) c).
Proof.
  intros Hw Hs Hp Ht. unfold build_B_AOT. rewrite (bounds_ok _ _ _ Hw). rewrite Ht.
  destruct (own_block_perm _ _ _ Hw) as (mm & Hm & Hperm & Hz). apply inter_permutation in Hs.
  assert (Hperm2 : Permutation (map snd (bs_evB sc)) (zrange 0 mm)) by (rewrite (Permutation_map snd Hs); exact Hperm).
  assert (Hnn : forall k, 0 <= k < zlen (ps_adm ps) -> 0 <= Bsize k).
  { intros k Hk. unfold Bsize, pair_at. destruct (getz_in _ k Hk) as [[n0 n1] E]. rewrite E. cbn [val]. destruct (Hadm _ _ (getz_In _ _ _ E)) as (H0 & H1 & _).
    destruct Hdims as (_ & D2 & _). pose proof (side_n_nonneg n0 n1 H0). pose proof (side_n_nonneg n1 n0 H1). apply Z.mul_nonneg_nonneg; nia. }
  destruct (run_blocks (zlen (ps_adm ps)) Bsize (fun k c => let '(n0, n1) := pair_at (ps_adm ps) k in cellval (side_pos n0 n1) (side_pos n1 n0) (side_n n1 n0) c) Hnn
    (fun ev : Z * Z => snd ev) (fun ev => fill_B kern cx (ps_adm ps) (bm_ptr m) (snd ev)) (bs_evB sc)) as (Bd & E & Zb & G).
  - intros e He. assert (In (snd e) (zrange 0 mm)) as Hi by (eapply Permutation_in; [exact Hperm2|now apply in_map]). apply In_zrange in Hi. lia.
  - intros e mt He Zm. assert (In (snd e) (zrange 0 mm)) as Hi by (eapply Permutation_in; [exact Hperm2|now apply in_map]). apply In_zrange in Hi.
    unfold fill_B. destruct (getz_in (ps_adm ps) (snd e) ltac:(lia)) as [[n0 n1] En]. rewrite En. cbn [bind]. rewrite Hp by lia. cbn [bind].
    assert (Es : Bsize (snd e) = (side_n n0 n1 * kdim) * (side_n n1 n0 * kdim)) by (unfold Bsize, pair_at; now rewrite En).
    assert (Ep : pair_at (ps_adm ps) (snd e) = (n0, n1)) by (unfold pair_at; now rewrite En). rewrite Ep, Es.
    destruct (eval_B_spec n0 n1 mt (zsumf Bsize 0 (snd e))) as (m' & E' & Z' & G'); [eapply getz_In; eauto| | |].
    + apply (off_pos (zlen (ps_adm ps)) Bsize Hnn). lia.
    + rewrite <- Es, Zm. apply (off_end (zlen (ps_adm ps)) Bsize Hnn). lia.
    + exists m'. split; auto. split; [lia|]. exact G'.
  - intros k Hk Hpos. assert (Hkm : 0 <= k < mm) by (destruct (Z.lt_ge_cases k mm); [lia|]; specialize (Hz k ltac:(lia)); lia).
    assert (In k (map snd (bs_evB sc))) as Hin by (eapply Permutation_in; [apply Permutation_sym; exact Hperm2|now apply In_zrange]).
    apply in_map_iff in Hin as (e & <- & He). eauto.
  - exists Bd. split; [exact E|]. split; auto. intros k n0 n1 c En Hc. rewrite (G k c); auto; [|eapply getz_range; eauto]. unfold pair_at. rewrite En. reflexivity.
Qed.

(** *** Leaves and dense blocks *)
Definition lf (k : Z) : Z := val 0 (ld (a_height_nodes a) k).
Lemma leaves : 1 <= n_leaf /\ (forall k, 0 <= k < n_leaf -> ld (a_height_nodes a) k = Some (lf k) /\ 0 <= lf k < n_node) /\
  (forall i j, 0 <= i < n_leaf -> 0 <= j < n_leaf -> lf i = lf j -> i = j).
Proof.
  destruct Hdims as (_ & _ & _ & D4).
  destruct (ct_heights _ _ _ _ _ _ CT 0 ltac:(lia)) as (ns & C & Le & L & I & S). rewrite (ct_nleaf _ _ _ _ _ _ CT) in C. injection C as C.
  assert (G : forall k, 0 <= k < n_leaf -> getz ns k = Some (lf k)).
  { intros k Hk. destruct (getz_in ns k ltac:(lia)) as [x Ex]. unfold lf. specialize (L k ltac:(lia)). rewrite Z.mul_0_l, Z.add_0_l in L. rewrite L, Ex. reflexivity. }
  split; [|split].
  - destruct (ct_leaf_of_point _ _ _ _ _ _ CT 0 ltac:(lia)) as (i & (Hi & s & e & lv & (_ & _ & _ & Dh & _) & _) & _).
    assert (In i ns) as Hin by (apply I; auto). apply In_getz in Hin as (k & Hk). apply getz_range in Hk. lia.
  - intros k Hk. pose proof (G k Hk) as Gk. split; [|apply (I (lf k)); eapply getz_In; eauto].
    specialize (L k ltac:(lia)). rewrite Z.mul_0_l, Z.add_0_l in L. congruence.
  - intros i j Hi Hj E. destruct (Z.lt_total i j) as [Hl|[Hl|Hl]]; auto.
    + specialize (S i j (lf i) (lf j) ltac:(lia) (G i Hi) (G j Hj)). lia.
    + specialize (S j i (lf j) (lf i) ltac:(lia) (G j Hj) (G i Hi)). lia.
Qed.

Notation drow := (d_row n_leaf (ps_inadm ps) lf).
Notation dcol := (d_col n_leaf (ps_inadm ps) lf).
Definition nD : Z := n_leaf + zlen (ps_inadm ps).
Definition Dsize (k : Z) : Z := (npts a (drow k) * kdim) * (npts a (dcol k) * kdim).

Lemma dnodes k : 0 <= k < nD -> 0 <= drow k < n_node /\ 0 <= dcol k < n_node.
Proof.
  intros Hk. destruct leaves as (_ & L & _). unfold d_row, d_col. destruct (Z.ltb_spec k n_leaf); [split; apply L; lia|].
  unfold pair_at. destruct (getz_in (ps_inadm ps) (k - n_leaf)) as [[n0 n1] E]; [unfold nD in *; lia|]. rewrite E. cbn. apply Hinadm. eapply getz_In; eauto.
Qed.
Lemma Dsize_nonneg k : 0 <= k < nD -> 0 <= Dsize k.
Proof.
  intros Hk. destruct (dnodes k Hk) as (H0 & H1). destruct (cluster_at _ H0) as (_ & _ & A & _). destruct (cluster_at _ H1) as (_ & _ & B & _).
  destruct Hdims as (_ & D2 & _). unfold Dsize. rewrite !npts_cs. apply Z.mul_nonneg_nonneg; nia.
Qed.

Lemma build_D_spec v0 v1 m : work_ok v0 n_leaf n_thread Dsize -> work_ok v1 (zlen (ps_inadm ps)) n_thread (fun k => Dsize (n_leaf + k)) ->
  D_AOT_schedule n_thread v0 v1 (bs_evD sc) ->
  (forall k, 0 <= k <= nD -> ld (bm_ptr m) k = Some (zsumf Dsize 0 k)) -> bm_total m = zsumf Dsize 0 nD ->
  exists Dd, build_D_AOT kern cx n_thread (ps_inadm ps) m v0 v1 (bs_evD sc) = Some Dd /\ zlen Dd = zsumf Dsize 0 nD /\
    forall k c, 0 <= k < nD -> 0 <= c < Dsize k ->
      ld Dd (zsumf Dsize 0 k + c) = Some (cellval (fun j => cs (drow k) + j) (fun j => cs (dcol k) + j) (npts a (dcol k)) c).
Proof.
  intros Hw0 Hw1 Hs Hp Ht. unfold build_D_AOT. rewrite (bounds_ok _ _ _ Hw0), (bounds_ok _ _ _ Hw1). cbn [andb]. rewrite Ht.
  destruct leaves as (L1 & L2 & _). pose proof (zlen_nonneg (ps_inadm ps)) as Zi.
  destruct (own_block_perm _ _ _ Hw0) as (m0 & Hm0 & Hperm0 & Hz0). destruct (own_block_perm _ _ _ Hw1) as (m1 & Hm1 & Hperm1 & Hz1). apply inter_permutation in Hs.
  rewrite concat_combine_perm in Hs by (unfold thread_items; rewrite !map_length, !number_length, !map_length; reflexivity).
  set (bi := fun ev : Z * (bool * Z) => if fst (snd ev) then n_leaf + snd (snd ev) else snd (snd ev)).
  assert (Hev : forall e, In e (bs_evD sc) -> (fst (snd e) = false /\ 0 <= snd (snd e) < m0) \/ (fst (snd e) = true /\ 0 <= snd (snd e) < m1)).
  { intros e He. apply (Permutation_in _ Hs) in He. apply in_app_or in He as [He|He]; apply in_map_iff in He as ([tt i] & <- & He); cbn [fst snd]; [left|right]; split; auto.
    - apply In_zrange. eapply Permutation_in; [exact Hperm0|]. now apply (in_map snd) in He.
    - apply In_zrange. eapply Permutation_in; [exact Hperm1|]. now apply (in_map snd) in He. }
  assert (Hbi : forall e, In e (bs_evD sc) -> 0 <= bi e < nD).
  { intros e He. unfold bi, nD. destruct (Hev e He) as [[-> Hr]|[-> Hr]]; lia. }
  destruct (run_blocks nD Dsize (fun k c => cellval (fun j => cs (drow k) + j) (fun j => cs (dcol k) + j) (npts a (dcol k)) c) Dsize_nonneg bi
    (fun (ev : Z * (bool * Z)) d => let '(_, (isoff, i)) := ev in if (isoff : bool) then fill_D1 kern cx (ps_inadm ps) (bm_ptr m) i d else fill_D0 kern cx (bm_ptr m) i d) (bs_evD sc)) as (Dd & E & Zb & G); auto.
  - intros e mt He Zm. pose proof (Hbi e He) as Hb. pose proof (dnodes _ Hb) as (N0 & N1).
    destruct (eval_D_spec (drow (bi e)) (dcol (bi e)) mt (zsumf Dsize 0 (bi e)) N0 N1) as (m' & E' & Z' & G').
    { apply (off_pos nD Dsize Dsize_nonneg). lia. }
    { rewrite Zm. apply (off_end nD Dsize Dsize_nonneg). lia. }
    exists m'. split; [|split; [lia|exact G']]. destruct e as [tt [isoff i]]. specialize (Hev _ He). cbn [fst snd] in Hev. destruct isoff.
    + destruct Hev as [[? _]|[_ Hr]]; [discriminate|]. unfold fill_D1. assert (Eb : bi (tt, (true, i)) = n_leaf + i) by reflexivity. rewrite Eb in *.
      destruct (getz_in (ps_inadm ps) i ltac:(lia)) as [[n0 n1] En]. rewrite En. cbn [bind]. change (x_nleaf cx) with n_leaf. rewrite (Z.add_comm i), Hp by lia. cbn [bind].
      assert (Epi : pair_at (ps_inadm ps) (n_leaf + i - n_leaf) = (n0, n1)) by (unfold pair_at; replace (n_leaf + i - n_leaf) with i by lia; now rewrite En).
      unfold d_row, d_col in E'. rewrite Epi in E'. destruct (Z.ltb_spec (n_leaf + i) n_leaf); [lia|]. exact E'.
    + destruct Hev as [[_ Hr]|[? _]]; [|discriminate]. unfold fill_D0. assert (Eb : bi (tt, (false, i)) = i) by reflexivity. rewrite Eb in *.
      change (x_leaves cx) with (a_height_nodes a). rewrite (proj1 (L2 i ltac:(lia))). cbn [bind]. rewrite Hp by lia. cbn [bind].
      unfold d_row, d_col in E'. destruct (Z.ltb_spec i n_leaf); [|lia]. exact E'.
  - intros k Hk Hpos. unfold nD in Hk. destruct (Z.lt_ge_cases k n_leaf) as [Hl|Hl].
    + assert (Hkm : 0 <= k < m0) by (destruct (Z.lt_ge_cases k m0); [lia|]; specialize (Hz0 k ltac:(lia)); lia).
      apply In_zrange in Hkm. apply (Permutation_in _ (Permutation_sym Hperm0)) in Hkm. apply in_map_iff in Hkm as ([tt i] & <- & Hin). exists (tt, (false, i)). split; [|reflexivity].
      apply (Permutation_in _ (Permutation_sym Hs)). apply in_or_app. left. apply in_map_iff. exists (tt, i). auto.
    + assert (Hkm : 0 <= k - n_leaf < m1). { destruct (Z.lt_ge_cases (k - n_leaf) m1); [lia|]. specialize (Hz1 (k - n_leaf) ltac:(lia)). replace (n_leaf + (k - n_leaf)) with k in Hz1 by lia. lia. }
      apply In_zrange in Hkm. apply (Permutation_in _ (Permutation_sym Hperm1)) in Hkm. apply in_map_iff in Hkm as ([tt i] & Ei & Hin). exists (tt, (true, i)). split; [|unfold bi; cbn [fst snd] in *; lia].
      apply (Permutation_in _ (Permutation_sym Hs)). apply in_or_app. right. apply in_map_iff. exists (tt, i). auto.
  - exists Dd. split; [exact E|]. split; auto.
Qed.

(** *** The kernel matrix in H2Pack's ordering *)
Definition KM : Z -> Z -> K := kernel_matrix kern kdim (coords_of xpt_dim n_point coord0).

Lemma KMp_cells (h : h2rep F K) perm : h_kdim h = kdim -> Permutation perm (zrange 0 n_point) -> (forall i, 0 <= i < n_point -> ld (r_idx t) i = getz perm i) ->
  (forall p, 0 <= p < n_point * kdim -> nthz (h_fwd h) p = nthz perm (p / kdim) * kdim + p mod kdim) ->
  forall p q, 0 <= p < n_point * kdim -> 0 <= q < n_point * kdim ->
    KMp h KM p q = kern (cpt (p / kdim)) (cpt (q / kdim)) (p mod kdim) (q mod kdim).
Proof.
  intros Hk Hperm Hidx Hf p q Hp Hq. destruct Hdims as (_ & D2 & _). unfold KMp, KM, kernel_matrix. rewrite !Hf by auto.
  destruct (cell_divmod kdim p D2) as [_ Rp]. destruct (cell_divmod kdim q D2) as [_ Rq].
  destruct (divmod_cell kdim (nthz perm (p / kdim)) _ D2 Rp) as [-> ->]. destruct (divmod_cell kdim (nthz perm (q / kdim)) _ D2 Rq) as [-> ->].
  apply (cell_range kdim n_point _ D2) in Hp, Hq.
  assert (Zp : zlen perm = n_point) by (unfold zlen; rewrite (Permutation_length Hperm), zrange_length; lia).
  rewrite (cpt_user (p / kdim)), (cpt_user (q / kdim)); auto; rewrite Hidx by auto; apply getz_nthz; lia.
Qed.

Lemma cellval_rc P Q np1 r c : 0 <= c < np1 * kdim -> cellval P Q np1 (r * (np1 * kdim) + c) = kern (cpt (P (r / kdim))) (cpt (Q (c / kdim))) (r mod kdim) (c mod kdim).
Proof.
  intros Hc. unfold cellval. destruct (divmod_cell (np1 * kdim) r c ltac:(lia) Hc) as [-> ->]. reflexivity.
Qed.

Lemma side_cell n m r : 0 <= n < n_node -> minl <= Z.max (lev a n) (lev a m) -> 0 <= r < side_n n m * kdim ->
  0 <= side_pos n m (r / kdim) < n_point.
Proof.
  intros Hn Hl Hr. destruct Hdims as (_ & D2 & _). apply (cell_range kdim _ _ D2) in Hr. destruct (cluster_at n Hn) as (_ & _ & C1 & C2 & _).
  unfold side_n, side_pos in *. destruct (Z.leb_spec (lev a m) (lev a n)).
  - pose proof (js_range n (nthz (js n) (r / kdim)) Hn ltac:(lia) (getz_In _ _ _ (getz_nthz _ _ Hr))). lia.
  - rewrite npts_cs in Hr. lia.
Qed.

Lemma zsumf_scale k f lo hi : k * zsumf f lo hi = zsumf (fun i => f i * k) lo hi.
Proof.
  destruct (Z.le_gt_cases hi lo); [rewrite !zsumf_empty by lia; lia|].
  remember (Z.to_nat (hi - lo)) as n eqn:En. replace hi with (lo + Z.of_nat n) by lia. clear. induction n as [|n IH].
  - rewrite !zsumf_empty by lia. lia.
  - replace (lo + Z.of_nat (S n)) with (lo + Z.of_nat n + 1) by lia. rewrite !zsumf_snoc by lia. nia.
Qed.
Lemma last_nonneg b : 1 <= zlen b -> getz b 0 = Some 0 -> (forall k, 0 <= k -> k + 1 < zlen b -> nthz b k <= nthz b (k + 1)) -> 0 <= nthz b (zlen b - 1).
Proof.
  intros Zb I0 I1. assert (Hm : forall m, Z.of_nat m < zlen b -> 0 <= nthz b (Z.of_nat m)).
  { induction m as [|m IHm]; intros Hm; [change (Z.of_nat 0) with 0; rewrite (nthz_eq _ _ _ I0); lia|]. specialize (IHm ltac:(lia)).
    specialize (I1 (Z.of_nat m) ltac:(lia) ltac:(lia)). replace (Z.of_nat (S m)) with (Z.of_nat m + 1) by lia. lia. }
  specialize (Hm (Z.to_nat (zlen b - 1)) ltac:(lia)). rewrite Z2Nat.id in Hm by lia. auto.
Qed.
Lemma chd_at i k : 0 <= i < n_node -> 0 <= k < nch a i -> 0 <= chd a pt_dim i k < n_node /\ lev a (chd a pt_dim i k) = lev a i + 1.
Proof.
  intros Hi Hk. destruct (ct_node _ _ _ _ _ _ CT i Hi) as (s & e & lv & hh & nc & D & _). pose proof D as (_ & _ & Dl & _ & Dc).
  assert (Enc : nch a i = nc) by (unfold nch; rewrite Dc; reflexivity). assert (El : lev a i = lv) by (unfold lev; rewrite Dl; reflexivity).
  destruct (ct_children _ _ _ _ _ _ CT i s e lv hh nc Hi D ltac:(lia)) as (cl & Zc & Lc & Tc & _).
  destruct (getz_in cl k) as [c Hc]; [lia|]. unfold chd. rewrite Lc by lia. rewrite Hc. cbn [val].
  destruct (tiles_child_a _ _ _ _ _ _ Tc c (getz_In _ _ _ Hc)) as [B L]. split; [lia|]. unfold lev at 1. rewrite L. cbn. lia.
Qed.

Lemma occurs_pos l k n0 n1 i : getz l k = Some (n0, n1) -> i = n0 \/ i = n1 -> occurs l i <> 0.
Proof.
  intros G Hi. apply getz_In in G. unfold occurs.
  pose proof (zcount_nonneg (fun '(x, _) => x =? i) l). pose proof (zcount_nonneg (fun '(_, x) => x =? i) l).
  assert (H2 : forall f : Z * Z -> bool, f (n0, n1) = true -> 1 <= zcount f l).
  { intros f Hf. apply in_split in G as (l1 & l2 & ->). change ((n0, n1) :: l2) with ([(n0, n1)] ++ l2). rewrite !zcount_app.
    pose proof (zcount_nonneg f l1). pose proof (zcount_nonneg f l2). rewrite zcount_cons, Hf, zcount_nil. lia. }
  destruct Hi as [->| ->].
  - pose proof (H2 (fun '(x, _) => x =? n0) ltac:(apply Z.eqb_refl)). lia.
  - pose proof (H2 (fun '(_, x) => x =? n1) ltac:(apply Z.eqb_refl)). lia.
Qed.

Lemma h2_build_spec : exists h bm dm perm, h2_build kern pt_dim xpt_dim kdim n_point n_thread t ps U J Jc blkB blkD0 blkD1 sc = Some (h, bm, dm) /\
  rep_ok h /\
  Permutation perm (zrange 0 n_point) /\ (forall i, 0 <= i < n_point -> ld (r_idx t) i = getz perm i) /\
  (forall p, 0 <= p < n_point * kdim -> nthz (h_fwd h) p = nthz perm (p / kdim) * kdim + p mod kdim) /\
  blocks_are_kernel h js KM /\
  meta_ok n_node (zlen (ps_adm ps)) (fun k => side_n (fst (pair_at (ps_adm ps) k)) (snd (pair_at (ps_adm ps) k)) * kdim)
    (fun k => side_n (snd (pair_at (ps_adm ps) k)) (fst (pair_at (ps_adm ps) k)) * kdim) (pair_entries 0 (ps_adm ps) (zlen (ps_adm ps))) bm /\
  meta_ok n_node nD (fun k => npts a (drow k) * kdim) (fun k => npts a (dcol k) * kdim) (leaf_entries lf n_leaf ++ pair_entries n_leaf (ps_inadm ps) (zlen (ps_inadm ps))) dm /\
  (h_t h = a /\ h_ptdim h = pt_dim /\ h_npoint h = n_point /\ h_nnode h = n_node /\ h_nthread h = n_thread /\ h_kdim h = kdim /\ h_kms h = kdim * n_point /\ h_nleaf h = n_leaf /\ h_minlevel h = minl /\
   h_maxlevel h = r_max_level t /\ h_maxchild h = 2 ^ pt_dim /\ h_U h = U /\
   h_adm h = ps_adm ps /\ h_inadm h = ps_inadm ps /\ h_Bnrow h = bm_nrow bm /\ h_Bncol h = bm_ncol bm /\ h_Bptr h = bm_ptr bm /\
   h_Dnrow h = bm_nrow dm /\ h_Dncol h = bm_ncol dm /\ h_Dptr h = bm_ptr dm) /\
  (forall i, 0 <= i < n_node -> mfirst h i = kdim * cs i /\ mlast h i = kdim * (ce i + 1) - 1) /\
  zlen (h_Bdata h) = bm_total bm /\ zlen (h_Ddata h) = bm_total dm /\
  (forall k n0 n1 c, getz (ps_adm ps) k = Some (n0, n1) -> 0 <= c < Bsize k ->
      ld (h_Bdata h) (zsumf Bsize 0 k + c) = Some (cellval (side_pos n0 n1) (side_pos n1 n0) (side_n n1 n0) c)) /\
  (forall k c, 0 <= k < nD -> 0 <= c < Dsize k ->
      ld (h_Ddata h) (zsumf Dsize 0 k + c) = Some (cellval (fun j => cs (drow k) + j) (fun j => cs (dcol k) + j) (npts a (dcol k)) c)).
Proof.
  destruct Hdims as (D1 & D2 & D3 & D4). destruct Hblk as (HB & HB0 & HB1). destruct Hsimple as (S1 & S2). destruct leaves as (L1 & L2 & L3).
  assert (Nn : 1 <= n_node) by (destruct (L2 0 ltac:(lia)); lia).
  destruct RE as [(perm & Hperm & Hidx) _].
  destruct (mat_clusters_spec kdim n_node (a_cluster a) cs ce ltac:(lia)) as (mcl & Em & Hm).
  { intros i Hi. destruct (cluster_at i Hi) as (A1 & A2 & _). rewrite (Z.mul_comm i 2). auto. }
  set (np0 := fun k => side_n (fst (pair_at (ps_adm ps) k)) (snd (pair_at (ps_adm ps) k))).
  set (np1 := fun k => side_n (snd (pair_at (ps_adm ps) k)) (fst (pair_at (ps_adm ps) k))).
  destruct (gen_B_metadata_spec kdim n_node n_thread (a_level a) (a_cluster a) J (ps_adm ps) np0 np1 D2) with (ord := bs_ordB sc) (blk := blkB) (bl := bl)
    as (bm & nr & vB & EB & MB & Znr & Lnr & WB); auto.
  { intros k n0 n1 En. destruct (Hadm _ _ (getz_In _ _ _ En)) as (H0 & H1 & _). unfold np0, np1, pair_at. rewrite En. cbn [val fst snd].
    split; [now apply B_npts_spec|]. split; [now apply side_n_nonneg|]. split; [now apply side_n_nonneg|]. auto. }
  { apply (bo_ordB _ _ _ _ _ _ _ _ _ Hsc). }
  destruct (gen_D_metadata_spec kdim n_node n_leaf n_thread (a_height_nodes a) (a_cluster a) (ps_inadm ps) lf cs ce D2) with (ord := bs_ordD sc) (blk0 := blkD0) (blk1 := blkD1) (bl0 := bl0) (bl1 := bl1)
    as (dm & vD0 & vD1 & ED & MD & WD0 & WD1); auto.
  { intros i Hi. destruct (cluster_at i Hi) as (A1 & A2 & A3 & _). split; [auto|]. split; [auto|]. lia. }
  { intros k n0 n1 En. apply Hinadm. eapply getz_In; eauto. }
  { apply (bo_ordD _ _ _ _ _ _ _ _ _ Hsc). }
  assert (Bs : forall k, np0 k * kdim * (np1 k * kdim) = Bsize k) by (intros k; unfold np0, np1, Bsize; destruct (pair_at (ps_adm ps) k); reflexivity).
  change (fun k => (ce (drow k) - cs (drow k) + 1) * kdim * ((ce (dcol k) - cs (dcol k) + 1) * kdim)) with Dsize in *.
  change (fun k => (ce (drow k) - cs (drow k) + 1) * kdim) with (fun k => npts a (drow k) * kdim) in *.
  change (fun k => (ce (dcol k) - cs (dcol k) + 1) * kdim) with (fun k => npts a (dcol k) * kdim) in *.
  change (n_leaf + zlen (ps_inadm ps)) with nD in MD.
  assert (Bp : forall k, zsumf (fun k => np0 k * kdim * (np1 k * kdim)) 0 k = zsumf Bsize 0 k) by (intros k; apply zsumf_ext; intros; apply Bs).
  pose proof (bo_evB _ _ _ _ _ _ _ _ _ Hsc _ _ _ EB) as EVB. pose proof (bo_evD _ _ _ _ _ _ _ _ _ Hsc _ _ _ ED) as EVD.
  destruct (build_B_spec vB bm) as (Bd & EBd & ZBd & GB); auto.
  { destruct WB as ((b & W1 & W2 & W3 & W4 & W5 & W6) & W7). split; auto. exists b. repeat (split; [auto|]). intros k Hk. rewrite <- Bs. apply W6. auto. }
  { intros k Hk. rewrite (mo_ptr _ _ _ _ _ _ MB k Hk). f_equal. apply Bp. }
  { rewrite (mo_total _ _ _ _ _ _ MB). apply Bp. }
  destruct (build_D_spec vD0 vD1 dm) as (Dd & EDd & ZDd & GD); auto.
  { intros k Hk. rewrite (mo_ptr _ _ _ _ _ _ MD k Hk). reflexivity. }
  { rewrite (mo_total _ _ _ _ _ _ MD). reflexivity. }
  destruct (pmt_indices_spec n_point kdim (r_idx t) perm D2 ltac:(lia) Hperm Hidx) as (fwd & bwd & fl & fb & EP & RF & RB & ZF & ZBw & NF & PM).
  unfold h2_build. rewrite Em. cbn [bind]. rewrite EB. cbn [bind]. unfold cx in EBd. rewrite EBd. cbn [bind]. rewrite ED. cbn [bind]. unfold cx in EDd. rewrite EDd. cbn [bind].
  rewrite EP. cbn [bind]. rewrite RF. cbn [bind]. rewrite RB. cbn [bind].
  eexists _, bm, dm, perm. split; [reflexivity|].
  match goal with |- rep_ok ?x /\ _ => set (h := x) end.
  assert (Hmcl : forall i, 0 <= i < n_node -> mfirst h i = kdim * cs i /\ mlast h i = kdim * (ce i + 1) - 1).
  { intros i Hi. destruct (Hm i Hi) as [M1 M2]. unfold mfirst, mlast. change (h_mcl h) with mcl. rewrite M1, M2. auto. }
  assert (Hms : forall i, 0 <= i < n_node -> msize h i = npts a i * kdim).
  { intros i Hi. unfold msize. destruct (Hmcl i Hi) as [-> ->]. rewrite npts_cs. lia. }
  assert (Hrank : forall i, 0 <= i < n_node -> minl <= lev a i -> rank h i = zlen (js i) * kdim).
  { intros i Hi Hl. unfold rank. change (h_U h) with U. destruct (sk_len _ _ _ _ _ _ _ _ _ _ _ _ SK) as (ZU & _). destruct (getz_in U i ltac:(lia)) as [V EV]. rewrite EV.
    destruct (sk_U _ _ _ _ _ _ _ _ _ _ _ _ SK i V EV) as (_ & HU). destruct (HU Hl) as (_ & -> & _). lia. }
  assert (Hlev : forall i, level h i = lev a i) by reflexivity.
  assert (Hside : forall n m, 0 <= n < n_node -> minl <= Z.max (lev a n) (lev a m) -> side_n n m * kdim = (if level h m <=? level h n then rank h n else msize h n)).
  { intros n m Hn Hl. rewrite !Hlev. unfold side_n. destruct (Z.leb_spec (lev a m) (lev a n)); [rewrite Hrank; auto; lia|rewrite Hms; auto]. }
  assert (HB' : forall k n0 n1, getz (ps_adm ps) k = Some (n0, n1) -> np0 k = side_n n0 n1 /\ np1 k = side_n n1 n0 /\ Bsize k = side_n n0 n1 * kdim * (side_n n1 n0 * kdim) /\
     ld (bm_ptr bm) k = Some (zsumf Bsize 0 k) /\ ld (bm_nrow bm) k = Some (side_n n0 n1 * kdim) /\ ld (bm_ncol bm) k = Some (side_n n1 n0 * kdim)).
  { intros k n0 n1 En. pose proof (getz_range _ _ _ En) as Hk. unfold np0, np1, Bsize, pair_at. rewrite (mo_nrow _ _ _ _ _ _ MB k Hk), (mo_ncol _ _ _ _ _ _ MB k Hk), (mo_ptr _ _ _ _ _ _ MB k ltac:(lia)), Bp.
    unfold np0, np1, pair_at. rewrite En. cbn [val fst snd]. auto 10. }
  assert (HD' : forall k, 0 <= k < nD -> ld (bm_ptr dm) k = Some (zsumf Dsize 0 k) /\ ld (bm_nrow dm) k = Some (npts a (drow k) * kdim) /\ ld (bm_ncol dm) k = Some (npts a (dcol k) * kdim)).
  { intros k Hk. rewrite (mo_nrow _ _ _ _ _ _ MD k Hk), (mo_ncol _ _ _ _ _ _ MD k Hk), (mo_ptr _ _ _ _ _ _ MD k ltac:(lia)). auto. }
  assert (Hleafk : forall k, leaf h k = lf k) by reflexivity.
  assert (Zi := zlen_nonneg (ps_inadm ps)).
  assert (Hd1 : forall k n0 n1, getz (ps_inadm ps) k = Some (n0, n1) -> 0 <= n_leaf + k < nD /\ drow (n_leaf + k) = n0 /\ dcol (n_leaf + k) = n1).
  { intros k n0 n1 En. pose proof (getz_range _ _ _ En). split; [unfold nD; lia|]. unfold d_row, d_col. destruct (Z.ltb_spec (n_leaf + k) n_leaf); [lia|].
    replace (n_leaf + k - n_leaf) with k by lia. unfold pair_at. rewrite En. auto. }
  assert (Hd0 : forall k, 0 <= k < n_leaf -> 0 <= k < nD /\ drow k = lf k /\ dcol k = lf k).
  { intros k Hk. split; [unfold nD; lia|]. unfold d_row, d_col. destruct (Z.ltb_spec k n_leaf); [auto|lia]. }
  assert (HoffB : forall k, 0 <= k < zlen (ps_adm ps) -> 0 <= zsumf Bsize 0 k).
  { intros k Hk. apply zsumf_nonneg. intros j Hj. destruct (getz_in (ps_adm ps) j ltac:(lia)) as [[n0 n1] En]. destruct (Hadm _ _ (getz_In _ _ _ En)) as (H0 & H1 & _).
    destruct (HB' _ _ _ En) as (_ & _ & -> & _). apply Z.mul_nonneg_nonneg; apply Z.mul_nonneg_nonneg; try lia; now apply side_n_nonneg. }
  assert (HoffD : forall k, 0 <= k < nD -> 0 <= zsumf Dsize 0 k) by (intros k Hk; apply zsumf_nonneg; intros j Hj; apply Dsize_nonneg; lia).
  assert (FD : forall k, 0 <= k < nD -> filled_at Dd (zsumf Dsize 0 k) (npts a (drow k) * kdim * (npts a (dcol k) * kdim))).
  { intros k Hk. split; [auto|]. intros c Hc. rewrite (GD k c Hk Hc). eauto. }
  split.
  { constructor.
    - cbn. split; [auto|]. split; [auto|]. split; [auto|]. split; [auto|]. split; [auto|]. exact Hmin.
    - exact CT.
    - intros i s e Hi Es Ee. destruct (cluster_at i Hi) as (A1 & A2 & _). rewrite Z.add_0_r in Es. rewrite (Z.mul_comm 2 i) in *.
      change (h_t h) with a in *. rewrite A1 in Es. rewrite A2 in Ee. injection Es as <-. injection Ee as <-. apply Hm. auto.
    - change (h_U h) with U. destruct (sk_len _ _ _ _ _ _ _ _ _ _ _ _ SK) as (ZU & _). split; [auto|]. intros i V EV. pose proof (getz_range _ _ _ EV) as Hi. rewrite ZU in Hi.
      destruct (sk_U _ _ _ _ _ _ _ _ _ _ _ _ SK i V EV) as (U1 & U2). split; [exact U1|]. intros Hl. destruct (U2 Hl) as (W1 & W2 & W3 & W4 & W5).
      split; [rewrite W2; nia|]. split; [|auto]. rewrite W3. change (nchild h i) with (nch a i). destruct (Z.eqb_spec (nch a i) 0).
      + rewrite Hms by auto. lia.
      + unfold choff. rewrite zsumf_scale. apply zsumf_ext. intros k Hk. change (child h i k) with (chd a pt_dim i k).
        destruct (chd_at i k Hi Hk) as (C1 & C2). rewrite Hrank; auto. change (level h i) with (lev a i) in Hl. change (h_minlevel h) with minl in Hl. lia.
    - intros k n0 n1 En. destruct (Hadm _ _ (getz_In _ _ _ En)) as (H0 & H1 & Hl). destruct S1 as (_ & S1). destruct (S1 _ _ (getz_In _ _ _ En)) as (Hne & _). auto.
    - split; [exact Znr|]. intros i Hi. exists (occurs (ps_adm ps) i). split; [apply Lnr; auto|]. intros (k & n0 & n1 & En & Hi'). eapply occurs_pos; eauto.
    - intros k n0 n1 En. destruct (HB' _ _ _ En) as (_ & _ & ES & E1 & E2 & E3). destruct (Hadm _ _ (getz_In _ _ _ En)) as (H0 & H1 & Hl).
      eexists _, _, _. split; [exact E1|]. split; [exact E2|]. split; [exact E3|]. split; [apply Hside; auto|]. split; [apply Hside; auto; lia|].
      split; [apply HoffB; eapply getz_range; eauto|]. intros c Hc. rewrite <- ES in Hc. change (h_Bdata h) with Bd. rewrite (GB _ _ _ c En Hc). eauto.
    - destruct WB as ((b & W1 & W2 & W3 & W4 & W5 & W6) & W7). exists b. repeat (split; [auto|]). intros k Hk. change (h_adm h) with (ps_adm ps) in Hk.
      assert (0 <= k) by (pose proof (last_nonneg b W2 W3 W4); lia). destruct (getz_in (ps_adm ps) k ltac:(lia)) as [[n0 n1] En]. destruct (HB' _ _ _ En) as (N0 & N1 & ES & E1 & E2 & E3).
      unfold Bnrow, Bncol. change (h_Bnrow h) with (bm_nrow bm). change (h_Bncol h) with (bm_ncol bm). rewrite E2, E3. cbn [val]. rewrite <- (W6 k Hk), N0, N1. reflexivity.
    - intros k n0 n1 En. apply Hinadm. eapply getz_In; eauto.
    - intros k n0 n1 En. destruct (Hd1 _ _ _ En) as (R & Er & Ec). destruct (HD' _ R) as (E1 & E2 & E3). destruct (Hinadm _ _ (getz_In _ _ _ En)) as (N0 & N1).
      exists (zsumf Dsize 0 (n_leaf + k)). rewrite !Hms by auto. rewrite Er in E2. rewrite Ec in E3. split; [exact E1|]. split; [exact E2|]. split; [exact E3|].
      pose proof (FD _ R) as F1. rewrite Er, Ec in F1. exact F1.
    - intros k Hk. destruct (Hd0 _ Hk) as (R & Er & Ec). destruct (HD' _ R) as (E1 & E2 & E3). destruct (L2 k Hk) as (_ & N0). rewrite Hleafk.
      exists (zsumf Dsize 0 k). rewrite !Hms by auto. rewrite Er in E2. rewrite Ec in E3. split; [exact E1|]. split; [exact E2|]. split; [exact E3|].
      pose proof (FD _ R) as F1. rewrite Er, Ec in F1. exact F1.
    - destruct WD0 as ((b & W1 & W2 & W3 & W4 & W5 & W6) & W7). exists b. repeat (split; [auto|]). intros k Hk. change (h_nleaf h) with n_leaf in Hk.
      assert (0 <= k) by (pose proof (last_nonneg b W2 W3 W4); lia). destruct (Hd0 k ltac:(lia)) as (R & _). destruct (HD' _ R) as (E1 & E2 & E3).
      unfold Dnrow, Dncol. change (h_Dnrow h) with (bm_nrow dm). change (h_Dncol h) with (bm_ncol dm). rewrite E2, E3. cbn [val]. apply (W6 k Hk).
    - destruct WD1 as ((b & W1 & W2 & W3 & W4 & W5 & W6) & W7). exists b. repeat (split; [auto|]). intros k Hk. change (h_inadm h) with (ps_inadm ps) in Hk. change (h_nleaf h) with n_leaf.
      assert (0 <= k) by (pose proof (last_nonneg b W2 W3 W4); lia). assert (R : 0 <= n_leaf + k < nD) by (unfold nD; lia). destruct (HD' _ R) as (E1 & E2 & E3).
      unfold Dnrow, Dncol. change (h_Dnrow h) with (bm_nrow dm). change (h_Dncol h) with (bm_ncol dm). rewrite E2, E3. cbn [val]. apply (W6 k Hk).
    - change (h_fwd h) with fl. change (h_bwd h) with fb. change (h_kms h) with (kdim * n_point). rewrite (Z.mul_comm kdim). auto. }
  split; [auto|]. split; [auto|]. split; [exact NF|].
  assert (KC : forall p q, 0 <= p < n_point * kdim -> 0 <= q < n_point * kdim -> KMp h KM p q = kern (cpt (p / kdim)) (cpt (q / kdim)) (p mod kdim) (q mod kdim)).
  { apply (KMp_cells h perm); auto. }
  assert (Own : forall i r, 0 <= i < n_node -> 0 <= r < msize h i -> 0 <= mfirst h i + r < n_point * kdim /\ (mfirst h i + r) / kdim = cs i + r / kdim /\ (mfirst h i + r) mod kdim = r mod kdim).
  { intros i r Hi Hr. rewrite Hms in Hr by auto. destruct (Hmcl i Hi) as [-> _]. destruct (cluster_at i Hi) as (_ & _ & C1 & C2 & _). destruct (cell_divmod kdim r D2) as [E1 E2].
    apply (cell_range kdim _ r D2) in Hr. rewrite npts_cs in Hr.
    replace (kdim * cs i + r) with ((cs i + r / kdim) * kdim + r mod kdim) by lia. destruct (divmod_cell kdim (cs i + r / kdim) (r mod kdim) D2 E2) as [-> ->]. split; [|auto]. nia. }
  assert (Brow : forall n m r, 0 <= n < n_node -> minl <= Z.max (lev a n) (lev a m) -> 0 <= r < side_n n m * kdim ->
     0 <= block_row h js n m r < n_point * kdim /\ block_row h js n m r / kdim = side_pos n m (r / kdim) /\ block_row h js n m r mod kdim = r mod kdim).
  { intros n m r Hn Hl Hr. pose proof (side_cell n m r Hn Hl Hr) as SC. destruct (cell_divmod kdim r D2) as [E1 E2]. unfold block_row, side_pos, side_n in *. rewrite !Hlev. destruct (lev a m <=? lev a n).
    - change (h_kdim h) with kdim. rewrite (Z.mul_comm kdim (nthz _ _)). destruct (divmod_cell kdim (nthz (js n) (r / kdim)) (r mod kdim) D2 E2) as [-> ->]. split; [nia|auto].
    - apply Own; auto. rewrite Hms; auto. }
  split.
  { assert (DC : forall k r c, 0 <= k < nD -> 0 <= r < msize h (drow k) -> 0 <= c < msize h (dcol k) -> Dval h k r c = KMp h KM (mfirst h (drow k) + r) (mfirst h (dcol k) + c)).
    { intros k r c Hk Hr Hc. destruct (HD' _ Hk) as (E1 & E2 & E3). destruct (dnodes k Hk) as (N0 & N1). destruct (Own _ _ N0 Hr) as (O1 & O2 & O3). destruct (Own _ _ N1 Hc) as (P1 & P2 & P3).
      rewrite KC by auto. rewrite O2, O3, P2, P3. rewrite Hms in Hr, Hc by auto.
      unfold Dval. change (h_Ddata h) with Dd. change (h_Dptr h) with (bm_ptr dm). change (h_Dncol h) with (bm_ncol dm). rewrite E1, E3. cbn [val].
      rewrite <- Z.add_assoc, GD; auto; [cbn [val]; apply cellval_rc; auto|]. unfold Dsize. nia. }
    split; [|split].
    - intros k r c Hk Hr Hc. rewrite Hleafk in *. destruct (Hd0 k Hk) as (R & Er & Ec). specialize (DC k r c R). rewrite Er, Ec in DC. auto.
    - intros k n0 n1 r c En Hr Hc. destruct (Hd1 _ _ _ En) as (R & Er & Ec). specialize (DC (n_leaf + k) r c R). rewrite Er, Ec in DC. auto.
    - intros k n0 n1 r c En Hr Hc. destruct (HB' _ _ _ En) as (_ & _ & ES & E1 & E2 & E3). destruct (Hadm _ _ (getz_In _ _ _ En)) as (N0 & N1 & Hl).
      unfold Bnrow, Bncol in *. change (h_Bnrow h) with (bm_nrow bm) in *. change (h_Bncol h) with (bm_ncol bm) in *. rewrite E2 in Hr. rewrite E3 in Hc. cbn [val] in Hr, Hc.
      destruct (Brow n0 n1 r N0 Hl Hr) as (O1 & O2 & O3). destruct (Brow n1 n0 c N1 ltac:(lia) Hc) as (P1 & P2 & P3). rewrite KC by auto. rewrite O2, O3, P2, P3.
      unfold Bval. change (h_Bdata h) with Bd. change (h_Bptr h) with (bm_ptr bm). change (h_Bncol h) with (bm_ncol bm). rewrite E1, E3. cbn [val].
      rewrite <- Z.add_assoc, (GB k n0 n1); auto; [cbn [val]; apply cellval_rc; auto|]. rewrite ES. nia. }
  split; [exact MB|]. split; [exact MD|]. split; [cbn; auto 30|]. split; [exact Hmcl|].
  change (h_Bdata h) with Bd. change (h_Ddata h) with Dd. rewrite ZBd, ZDd, (mo_total _ _ _ _ _ _ MB), (mo_total _ _ _ _ _ _ MD), Bp. split; [reflexivity|]. split; [reflexivity|]. split; [exact GB|exact GD].
Qed.
End Build.
