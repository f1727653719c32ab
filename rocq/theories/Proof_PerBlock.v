(** The periodic product: the blocks it evaluates. *)
From Coq Require Import ZArith QArith List Lia Bool Permutation.
From Verif Require Import Base Mem Num CRing Conc Model_Utils Spec_Utils Proof_Utils Model_Dense Spec_Dense Proof_Dense Model_Partition Spec_Tree Model_CSR Spec_CSR Model_Pairs Spec_Pairs Model_Matvec Spec_Matvec
  Model_Build Spec_Build Proof_Build Proof_BuildFill Proof_Gemv Proof_MvTree Proof_MvFwd Model_Matmul Proof_Gemm Proof_MmFwd Proof_MmMid Model_Periodic Spec_Periodic.
Import ListNotations.
Open Scope Z_scope.

(** A handle with the same tree and bases and no pairs. *)
Section Strip.
Context {F : num} {K : cring}.
Variable h : h2rep F K.
Variable adm : list (Z * Z).
Hypothesis R : per_rep_ok h adm.

Definition sqs : Z := zsumf (fun k => msize h (leaf h k) * msize h (leaf h k)) 0 (h_nleaf h).
Definition strip : h2rep F K :=
  H2Rep (h_ptdim h) (h_npoint h) (h_kdim h) (h_nthread h) (h_nnode h) (h_maxchild h) (h_nleaf h) (h_maxlevel h) (h_minlevel h) (h_kms h)
    (h_t h) (h_mcl h) (h_U h) [] [] (h_nr h) [] [] [] []
    (map (fun k => Some (msize h (leaf h k))) (zrange 0 (h_nleaf h))) (map (fun k => Some (msize h (leaf h k))) (zrange 0 (h_nleaf h)))
    (map (fun _ => Some 0) (zrange 0 (h_nleaf h))) (repeat (Some c0) (Z.to_nat sqs))
    (mkIV 1 1 [Some 0]) (mkIV 2 2 [Some 0; Some (h_nleaf h)]) (mkIV 1 1 [Some 0]) (h_fwd h) (h_bwd h).

Lemma blocks_any (b : list Z) n size : (forall k, 0 <= k -> k + 1 < zlen b -> nthz b k <= nthz b (k + 1)) -> getz b 0 = Some 0 ->
  nthz b (zlen b - 1) = n -> blocks_ok (mkIV (zlen b) (zlen b) (map Some b)) n size.
Proof.
  intros Hm H0 He. exists b. pose proof (getz_range _ _ _ H0) as R0. split; [|split; [|split; [|split; [|split]]]]; auto; try lia.
  unfold iv_holds. cbn [iv_len iv_cap iv_data]. rewrite zlen_map. do 3 (split; [lia|]). intros k Hk. unfold ld. rewrite getz_map. destruct (getz b k); auto.
Qed.

Lemma nleaf_pos : 0 <= h_nleaf h.
Proof.
  destruct (pr_dims _ _ R) as (_ & _ & _ & _ & _ & _ & Hm). destruct (ct_heights _ _ _ _ _ _ (pr_tree _ _ R) 0 ltac:(lia)) as (ns & _ & Hz & _).
  pose proof (zlen_nonneg ns). lia.
Qed.

Lemma strip_ok : rep_ok strip.
Proof.
  pose proof nleaf_pos as Hl. destruct (pr_dims _ _ R) as (D1 & D2 & D3 & D4 & D5 & D6 & D7). destruct (pr_U _ _ R) as [ZU HU].
  assert (Hno : forall (A : Type) k (x : A), getz (@nil A) k = Some x -> False).
  { intros A k x G. apply getz_range in G. zlia. }
  constructor; cbn [strip h_ptdim h_kdim h_nthread h_maxchild h_kms h_minlevel h_maxlevel h_npoint h_nnode h_nleaf h_t h_mcl h_U h_adm h_inadm h_nr h_fwd h_bwd
    h_Bptr h_Bnrow h_Bncol h_Bdata h_Dptr h_Dnrow h_Dncol h_Ddata h_Bblk h_D0blk h_D1blk].
  - lia.
  - exact (pr_tree _ _ R).
  - exact (pr_mcl _ _ R).
  - split; auto. intros i U E. pose proof (getz_range _ _ _ E) as Ri. rewrite ZU in Ri.
    assert (Hlev : 0 <= level strip i). { destruct (ct_node _ _ _ _ _ _ (pr_tree _ _ R) i Ri) as (s & e & lv & hh & nc & D & _ & _ & Hlv & _). destruct D as (_ & _ & L & _).
      unfold level. cbn [strip h_t]. rewrite L. cbn [val]. lia. }
    split; [lia|]. intros _. exact (HU i U E).
  - intros k n0 n1 G. apply Hno in G. contradiction.
  - destruct (pr_nr _ _ R) as [Zn Hn]. split; auto. intros i Hi. destruct (Hn i Hi) as (n & En & _). exists n. split; auto.
    intros (k & n0 & n1 & G & _). apply Hno in G. contradiction.
  - intros k n0 n1 G. apply Hno in G. contradiction.
  - change (zlen (@nil (Z * Z))) with 0. apply (blocks_any [0]); auto. change (zlen [0]) with 1. lia.
  - intros k n0 n1 G. apply Hno in G. contradiction.
  - intros k n0 n1 G. apply Hno in G. contradiction.
  - intros k Hk. exists 0. unfold ld. rewrite !getz_map, getz_zrange by lia. cbn [bind option_map]. split; auto. split; auto. split; auto.
    split; [lia|]. intros j Hj. exists c0. change (msize strip (leaf strip k)) with (msize h (leaf h k)) in Hj.
    assert (Hs : msize h (leaf h k) * msize h (leaf h k) <= sqs).
    { unfold sqs. rewrite (zsumf_split _ 0 k (h_nleaf h)), (zsumf_split _ k (k + 1) (h_nleaf h)), zsumf_snoc, (zsumf_empty _ k k) by lia.
      match goal with |- context [zsumf ?f 0 k] => pose proof (zsumf_nonneg f 0 k ltac:(intros; nia)); pose proof (zsumf_nonneg f (k + 1) (h_nleaf h) ltac:(intros; nia)) end. lia. }
    unfold ld. rewrite Z.add_0_l. destruct (getz_in (repeat (Some (c0 (c := K))) (Z.to_nat sqs)) j) as [v Ev].
    { unfold zlen. rewrite repeat_length. lia. }
    rewrite Ev. apply getz_In, repeat_spec in Ev. now subst v.
  - apply (blocks_any [0; h_nleaf h]); auto. change (zlen [0; h_nleaf h]) with 2. intros k A B. assert (k = 0) by lia. subst k. exact Hl.
  - change (zlen (@nil (Z * Z))) with 0. apply (blocks_any [0]); auto. change (zlen [0]) with 1. lia.
  - exact (pr_pmt _ _ R).
Qed.
End Strip.

(** ** Shifted coordinates *)
Section Shift.
Context {F : num}.

Lemma shift_coord_spec (m : dmat F) (shift : mem F) (scale : F) r c f (s : Z -> F) : dm_holds m r c f -> (forall i, 0 <= i < r -> ld shift i = Some (s i)) ->
  exists m', shift_coord m shift scale = Some m' /\ dm_holds m' r c (fun i j => nadd (f i j) (nmul scale (s i))) /\ dm_ld m' = dm_ld m.
Proof.
  intros (Hok & Hr & Hc & Hf & He) Hs. unfold shift_coord. rewrite Hr, Hc.
  destruct (region_loop r c 0 (dm_ld m) (fun i j d => x <- ld d (i * dm_ld m + j)%Z; s0 <- ld shift i; st d (i * dm_ld m + j)%Z (nadd x (nmul scale s0)))
    (fun i j => nadd (f i j) (nmul scale (s i))) (dm_data m) Hf) as (d & E & Zd & Vd & _).
  - intros i j D Hi Hj ZD G. rewrite Z.add_0_l in G. assert (L : ld D (i * dm_ld m + j) = Some (f i j)).
    { unfold ld. rewrite G. specialize (He i j Hi Hj). unfold ld in He. exact He. }
    rewrite L. cbn [bind]. rewrite (Hs i Hi). cbn [bind]. pose proof (ld_range _ _ _ L) as Rg.
    destruct (st_Some D (i * dm_ld m + j) (nadd (f i j) (nmul scale (s i))) Rg) as [D' E']. exists D'. split; auto. split; [eapply st_zlen; eauto|].
    intros x. rewrite (getz_st _ _ _ _ x E'), Z.add_0_l. rewrite Z.eqb_sym. reflexivity.
  - rewrite E. cbn [bind]. eexists. split; [reflexivity|]. split; [|reflexivity].
    unfold dm_holds. cbn [dm_set_data dm_nrow dm_ncol dm_ld dm_data]. rewrite Zd. split; [apply dm_set_data_ok; auto|]. do 3 (split; [auto|]).
    intros i j Hi Hj. specialize (Vd i j Hi Hj). rewrite Z.add_0_l in Vd. exact Vd.
Qed.

Lemma list_nth (l : list F) d : map (fun i => nth (Z.to_nat i) l d) (zrange 0 (zlen l)) = l.
Proof.
  pose proof (zlen_nonneg l). apply getz_ext; [rewrite zlen_map, zlen_zrange; lia|]. intros i Hi. rewrite zlen_map, zlen_zrange in Hi by lia.
  rewrite getz_map, getz_zrange by lia. cbn [option_map]. rewrite Z.add_0_l. unfold getz. destruct (Z.leb_spec 0 i); [|lia].
  symmetry. apply nth_error_nth'. unfold zlen in Hi. lia.
Qed.

Lemma shift_fill (dim : Z) (get : Z -> option F) (s : Z -> F) : 0 <= dim <= 8 -> (forall d, 0 <= d < dim -> get d = Some (s d)) -> (forall d, dim <= d -> s d = nlit 0%Q) ->
  exists sh, zfor 0 dim (fun k sh => v <- get k; st sh k v) shift8 = Some sh /\ forall d, 0 <= d < 8 -> ld sh d = Some (s d).
Proof.
  intros Hd Hg Hz.
  destruct (zfor_inv (fun k (sh : mem F) => zlen sh = 8 /\ forall d, 0 <= d < 8 -> ld sh d = Some (if d <? k then s d else nlit 0%Q)) 0 dim
    (fun k sh => v <- get k; st sh k v) shift8) as (sh & E & _ & V); [lia| | |].
  - split; [reflexivity|]. intros d Hd'. destruct (Z.ltb_spec d 0); [lia|]. unfold ld. destruct (getz_in (@shift8 F) d) as [v Ev]; [exact Hd'|].
    rewrite Ev. apply getz_In, repeat_spec in Ev. now subst v.
  - intros k sh Hk (Zs & V). rewrite (Hg k Hk). cbn [bind]. destruct (st_Some sh k (s k)) as [sh' E]; [lia|]. exists sh'. split; auto.
    split; [rewrite (st_zlen _ _ _ _ E); auto|]. intros d Hd'. rewrite (ld_st _ _ _ _ d E). destruct (Z.eqb_spec k d) as [<-|Hne].
    + now rewrite (proj2 (Z.ltb_lt k (k + 1))) by lia.
    + rewrite V by auto. destruct (Z.ltb_spec d k); destruct (Z.ltb_spec d (k + 1)); auto; lia.
  - exists sh. split; auto. intros d Hd'. rewrite V by auto. destruct (Z.ltb_spec d dim); auto. now rewrite Hz by lia.
Qed.

Lemma point_holds (m : dmat F) r c f j : dm_holds m r c f -> 0 <= j < c -> point r (dm_data m) 0 (dm_ld m) j = Some (map (fun d => f d j) (zrange 0 r)).
Proof.
  intros (_ & _ & _ & _ & He) Hj. unfold point. apply all_some_map. intros d Hd. apply In_zrange in Hd. rewrite Z.add_0_l. apply He; lia.
Qed.
End Shift.

(** ** The blocks *)
Section Blocks.
Context {F : num} {K : cring}.
Local Open Scope ring_K.
Variable kern : list F -> list F -> Z -> Z -> K.
Variable h : h2rep F K.
Hypothesis R : rep_ok h.
Hypothesis M0 : h_minlevel h = 0.
Variables (pt : Z -> list F) (js : Z -> list Z) (adm inadm : list (Z * Z)) (sB sD : Z -> Z -> F) (O : Z -> Z -> K) (c : pctx F K).
Hypothesis PO : per_ok h pt js adm inadm sB sD O c.
Notation kd := (h_kdim h).
Notation np := (h_npoint h).

(** The points behind the rows of a block on the side of n. *)
Definition bpoint (n m i : Z) : Z := if level h m <=? level h n then nthz (js n) i else (mfirst h n / kd + i)%Z.

Lemma block_row_div n m r : 0 <= n < h_nnode h -> (block_row h js n m r / kd)%Z = bpoint n m (r / kd) /\ (block_row h js n m r mod kd)%Z = (r mod kd)%Z.
Proof.
  intros Hn. destruct (ro_dims _ R) as (_ & D2 & _). unfold block_row, bpoint. destruct (level h m <=? level h n).
  - rewrite (Z.add_comm (kd * _)), (Z.mul_comm kd), Z.div_add, Z.mod_add by lia. pose proof (Z.mod_pos_bound r kd ltac:(lia)).
    rewrite Z.mod_mod by lia. split; auto. rewrite (Z.div_small (r mod kd)) by lia. lia.
  - destruct (node_at h R n Hn) as (s & e & hh & _ & _ & _ & _ & _ & M1 & _). rewrite M1, (Z.mul_comm kd s), Z.div_mul by lia.
    rewrite (Z.add_comm (s * kd)), Z.div_add, Z.mod_add by lia. split; auto. lia.
Qed.

Lemma cluster_at n : 0 <= n < h_nnode h -> exists s e, ld (q_cluster c) (n * 2) = Some s /\ ld (q_cluster c) (n * 2 + 1) = Some e /\
  0 <= s <= e /\ e < np /\ (mfirst h n / kd)%Z = s /\ msize h n = ((e - s + 1) * kd)%Z /\ mfirst h n = (kd * s)%Z.
Proof.
  intros Hn. destruct (po_dims _ _ _ _ _ _ _ _ _ PO) as (_ & _ & _ & _ & _ & ->). destruct (ro_dims _ R) as (_ & D2 & _).
  destruct (node_at h R n Hn) as (s & e & hh & (C1 & C2 & _) & H1 & H2 & _ & _ & M1 & M2 & _). rewrite Z.add_0_r in C1.
  exists s, e. split; auto. split; auto. split; auto. split; auto. unfold msize. rewrite M1, M2, (Z.mul_comm kd s), Z.div_mul by lia. split; [auto|]. lia.
Qed.

Lemma point_np s i : 0 <= s + i < np -> point (q_xdim c) (q_coord c) s (q_npoint c) i = Some (pt (s + i)).
Proof.
  intros Hi. destruct (po_dims _ _ _ _ _ _ _ _ _ PO) as (_ & _ & _ & -> & _). destruct (po_pt _ _ _ _ _ _ _ _ _ PO (s + i)%Z Hi) as (Zp & Lp).
  unfold point. rewrite <- (list_nth (pt (s + i)) (nlit 0%Q)) at 1. rewrite Zp. apply all_some_map. intros d Hd. apply In_zrange in Hd.
  replace (s + d * np + i)%Z with (d * np + (s + i))%Z by lia. rewrite (Lp d) by lia. unfold getz. destruct (Z.leb_spec 0 d); [|lia].
  apply nth_error_nth'. unfold zlen in Zp. lia.
Qed.

Lemma skel_ok n m : 0 <= n < h_nnode h -> getz (q_Jc c) n = Some m -> forall i, 0 <= i < zlen (js n) ->
  point (q_xdim c) (dm_data m) 0 (dm_ld m) i = Some (pt (nthz (js n) i)).
Proof.
  intros Hn Em i Hi. destruct (po_Jc _ _ _ _ _ _ _ _ _ PO) as (_ & HJ). rewrite (point_holds _ _ _ _ i (HJ n m Em) Hi). f_equal.
  destruct (po_js _ _ _ _ _ _ _ _ _ PO n Hn) as (_ & Hr). specialize (Hr (nthz (js n) i) (getz_In _ _ _ (getz_nthz _ _ Hi))).
  destruct (po_pt _ _ _ _ _ _ _ _ _ PO _ Hr) as (Zp & _). rewrite <- Zp. apply list_nth.
Qed.

(** The columns' points, moved. *)
Definition shifted_points (m : dmat F) (n : Z) (P : Z -> list F) (s : Z -> F) : Prop :=
  dm_ok m /\ dm_ncol m = n /\ forall j, 0 <= j < n -> point (q_xdim c) (dm_data m) 0 (dm_ld m) j = Some (moved (P j) s).

Lemma cluster_shifted_spec n sh s (m1 : dmat F) : 0 <= n < h_nnode h -> dm_ok m1 -> (forall d, 0 <= d < 8 -> ld sh d = Some (s d)) ->
  exists m', cluster_shifted c n sh m1 = Some m' /\ shifted_points m' (msize h n / kd) (fun j => pt (mfirst h n / kd + j)%Z) s.
Proof.
  intros Hn Hm Hs. destruct (cluster_at n Hn) as (a & b & E1 & E2 & H1 & H2 & H3 & H4 & _). unfold cluster_shifted. rewrite E1, E2. cbn [bind].
  destruct (po_dims _ _ _ _ _ _ _ _ _ PO) as (P1 & P2 & P3 & P4 & _). destruct (ro_dims _ R) as (_ & D2 & _).
  rewrite H4, Z.div_mul, H3 by lia. set (npt := (b - a + 1)%Z).
  destruct (Proof_Dense.dm_resize_ok m1 (q_xdim c) npt Hm ltac:(lia) ltac:(lia)) as (R1 & R2 & R3 & R4 & R5). set (m := dm_resize m1 (q_xdim c) npt) in *.
  pose proof (po_pt _ _ _ _ _ _ _ _ _ PO) as HP.
  assert (Hc : forall d i, 0 <= d < q_xdim c -> 0 <= i < np -> ld (q_coord c) (d * np + i) = Some (nth (Z.to_nat d) (pt i) (nlit 0%Q))).
  { intros d i Hd Hi. destruct (HP i Hi) as (Zp & ->); auto. unfold getz. destruct (Z.leb_spec 0 d); [|lia]. apply nth_error_nth'. unfold zlen in Zp. lia. }
  destruct (copy_matrix_spec (q_xdim c) npt (q_coord c) a (q_npoint c) (dm_data m) 0 (dm_ld m)) as (d & Ed & Zd & Gd & _).
  { unfold fits. rewrite P4. repeat split; try lia. intros. pose proof (Hc (q_xdim c - 1)%Z b ltac:(lia) ltac:(lia)) as L. apply ld_range in L. lia. }
  { rewrite R4. apply fits_resized; lia. }
  rewrite Ed. cbn [bind].
  assert (Hh : dm_holds (dm_set_data m d) (q_xdim c) npt (fun d j => nth (Z.to_nat d) (pt (a + j)%Z) (nlit 0%Q))).
  { unfold dm_holds. cbn [dm_set_data dm_nrow dm_ncol dm_ld dm_data]. split; [apply dm_set_data_ok; auto|]. split; auto. split; auto. split; [rewrite Zd, R4; apply fits_resized; lia|].
    intros i j Hi Hj. specialize (Gd i j Hi Hj). rewrite Z.add_0_l in Gd. rewrite ld_getz, Gd, <- ld_getz, P4.
    replace (a + i * np + j)%Z with (i * np + (a + j))%Z by lia. apply Hc; lia. }
  destruct (shift_coord_spec _ sh (nlit 1%Q) _ _ _ s Hh) as (m' & E' & Hm' & Em'). { intros i Hi. apply Hs. lia. }
  exists m'. split; auto. pose proof Hm' as (O1 & _ & O3 & _). split; auto. split; auto. intros j Hj.
  rewrite (point_holds _ _ _ _ j Hm' Hj). f_equal. unfold moved. destruct (HP (a + j)%Z ltac:(lia)) as (-> & _). reflexivity.
Qed.

Lemma skeleton_shifted_spec n sh s (m1 : dmat F) : 0 <= n < h_nnode h -> dm_ok m1 -> (forall d, 0 <= d < 8 -> ld sh d = Some (s d)) ->
  exists m', skeleton_shifted c n sh m1 = Some m' /\ shifted_points m' (zlen (js n)) (fun j => pt (nthz (js n) j)) s.
Proof.
  intros Hn Hm Hs. unfold skeleton_shifted. destruct (po_Jc _ _ _ _ _ _ _ _ _ PO) as (ZJ & HJ). destruct (getz_in (q_Jc c) n) as [jm Ej]; [lia|].
  rewrite Ej. cbn [bind]. destruct (dm_copy_spec jm m1 _ _ _ (HJ n jm Ej) Hm) as (m2 & E2 & H2). rewrite E2. cbn [bind].
  destruct (po_dims _ _ _ _ _ _ _ _ _ PO) as (P1 & P2 & P3 & P4 & _).
  destruct (shift_coord_spec _ sh (nlit 1%Q) _ _ _ s H2) as (m' & E' & Hm' & Em'). { intros i Hi. apply Hs. lia. }
  exists m'. split; auto. pose proof Hm' as (O1 & _ & O3 & _). split; auto. split; auto. intros j Hj.
  rewrite (point_holds _ _ _ _ j Hm' Hj). f_equal. unfold moved.
  destruct (po_js _ _ _ _ _ _ _ _ _ PO n Hn) as (_ & Hr). specialize (Hr (nthz (js n) j) (getz_In _ _ _ (getz_nthz _ _ Hj))).
  destruct (po_pt _ _ _ _ _ _ _ _ _ PO _ Hr) as (-> & _). reflexivity.
Qed.

(** What a block buffer holds after an evaluation. *)
Definition block_is (o : dmat K) (m n : Z) (f : Z -> Z -> K) : Prop :=
  dm_ok o /\ dm_nrow o = m /\ dm_ncol o = n /\ dm_ld o = n /\ forall r cc, 0 <= r < m -> 0 <= cc < n -> ld (dm_data o) (r * n + cc) = Some (f r cc).

Lemma eval_block (o : dmat K) cs0 o0 ld0 n0 (P : Z -> list F) m1 n1 (Q : Z -> list F) s : dm_ok o -> 0 <= n0 -> 0 <= n1 ->
  (forall i, 0 <= i < n0 -> point (q_xdim c) cs0 o0 ld0 i = Some (P i)) -> shifted_points m1 n1 Q s ->
  let b := dm_resize o (n0 * kd) (n1 * kd) in
  exists d, krnl_eval kern (q_xdim c) (q_kdim c) cs0 o0 ld0 n0 (dm_data m1) 0 (dm_ld m1) (dm_ncol m1) (dm_data b) 0 (dm_ld b) = Some d /\
    block_is (dm_set_data b d) (n0 * kd) (n1 * kd) (fun r cc => kern (P (r / kd)%Z) (moved (Q (cc / kd)%Z) s) (r mod kd)%Z (cc mod kd)%Z).
Proof.
  intros Ho H0 H1 HP (Om & En & HQ) b. destruct (ro_dims _ R) as (_ & D2 & _).
  destruct (Proof_Dense.dm_resize_ok o (n0 * kd) (n1 * kd) Ho ltac:(nia) ltac:(nia)) as (R1 & R2 & R3 & R4 & R5). fold b in R1, R2, R3, R4, R5.
  destruct (po_dims _ _ _ _ _ _ _ _ _ PO) as (_ & _ & -> & _). rewrite En, R4.
  destruct (krnl_eval_spec kern (q_xdim c) kd cs0 o0 ld0 n0 (dm_data m1) 0 (dm_ld m1) n1 P (fun j => moved (Q j) s) (dm_data b) 0) as (d & Ed & Zd & Vd); auto; try lia.
  exists d. split; auto. split; [apply dm_set_data_ok; auto|]. split; auto. split; auto. split; auto. intros r cc Hr Hc. cbn [dm_set_data dm_data].
  destruct (Vd (r * (n1 * kd) + cc)%Z) as [(_ & V)|(V & _)].
  - rewrite V, !Z.sub_0_r. rewrite (Z.add_comm (r * _)), Z.div_add, Z.mod_add, (Z.div_small cc), (Z.mod_small cc), Z.add_0_l by lia. reflexivity.
  - exfalso. apply V. unfold in_reg. nia.
Qed.

Lemma side_points n m : 0 <= n < h_nnode h -> exists k, side_size h n m = (k * kd)%Z /\ 1 <= k /\ (side_size h n m / kd)%Z = k /\ k = (if level h m <=? level h n then zlen (js n) else (msize h n / kd)%Z).
Proof.
  intros Hn. destruct (ro_dims _ R) as (_ & D2 & _). unfold side_size. destruct (level h m <=? level h n).
  - destruct (po_js _ _ _ _ _ _ _ _ _ PO n Hn) as (EJ & _). rewrite EJ. exists (zlen (js n)). rewrite (Z.mul_comm kd), Z.div_mul by lia.
    destruct (U_at h R n Hn) as (U & _ & Er & _ & HU). destruct (HU ltac:(pose proof (level_range h R n Hn); lia)) as (H1 & _). nia.
  - destruct (cluster_at n Hn) as (s & e & _ & _ & H1 & _ & _ & -> & _). exists (e - s + 1)%Z. rewrite Z.div_mul by lia. lia.
Qed.

Lemma moved_kshift s n0 n1 r cc : 0 <= n0 < h_nnode h -> 0 <= n1 < h_nnode h ->
  kern (pt (bpoint n0 n1 (r / kd))) (moved (pt (bpoint n1 n0 (cc / kd))) s) (r mod kd)%Z (cc mod kd)%Z =
  kshift kern h pt s (block_row h js n0 n1 r) (block_row h js n1 n0 cc).
Proof.
  intros H0 H1. unfold kshift. destruct (block_row_div n0 n1 r H0) as (-> & ->). destruct (block_row_div n1 n0 cc H1) as (-> & ->). reflexivity.
Qed.

Lemma per_B_block_spec k n0 n1 (bij : dmat K) (m1 : dmat F) : getz adm k = Some (n0, n1) -> dm_ok bij -> dm_ok m1 ->
  exists bij' m1', per_B_block kern h c n0 n1 k (bij, m1) = Some (bij', m1') /\ dm_ok m1' /\
    block_is bij' (side_size h n0 n1) (side_size h n1 n0) (fun r cc => kshift kern h pt (sB k) (block_row h js n0 n1 r) (block_row h js n1 n0 cc)).
Proof.
  intros Hk Hb Hm. destruct (po_adm _ _ _ _ _ _ _ _ _ PO k n0 n1 Hk) as (H0 & H1 & Er & Ec & Hs & Hz). unfold per_B_block.
  rewrite !(ld_level h R) by auto. cbn [bind]. destruct (po_dims _ _ _ _ _ _ _ _ _ PO) as (P1 & P2 & _).
  destruct (shift_fill (q_dim c) (fun d => ld (q_shB c) (k * q_dim c + d)) (sB k)) as (sh & Esh & Vsh); [lia|auto|auto|].
  unfold get_shift. rewrite Esh. cbn [bind]. rewrite Er, Ec. cbn [bind]. cbv zeta.
  destruct (side_points n0 n1 H0) as (a & Sa & La & _ & Da). destruct (side_points n1 n0 H1) as (b & Sb & Lb & _ & Db). rewrite Sa, Sb.
  destruct (po_Jc _ _ _ _ _ _ _ _ _ PO) as (ZJ & HJ). destruct (getz_in (q_Jc c) n0) as [j0 Ej]; [lia|].
  assert (Hj0 : dm_ncol j0 = zlen (js n0)) by (destruct (HJ n0 j0 Ej) as (_ & _ & ? & _); auto).
  assert (Fin : forall (m' : dmat F) d (P Q : Z -> Z), dm_ok m' -> (forall i, P i = bpoint n0 n1 i) -> (forall i, Q i = bpoint n1 n0 i) ->
     block_is (dm_set_data (dm_resize bij (a * kd) (b * kd)) d) (a * kd) (b * kd) (fun r cc => kern (pt (P (r / kd)%Z)) (moved (pt (Q (cc / kd)%Z)) (sB k)) (r mod kd)%Z (cc mod kd)%Z) ->
     exists bij' m1', Some (dm_set_data (dm_resize bij (a * kd) (b * kd)) d, m') = Some (bij', m1') /\ dm_ok m1' /\
       block_is bij' (a * kd) (b * kd) (fun r cc => kshift kern h pt (sB k) (block_row h js n0 n1 r) (block_row h js n1 n0 cc))).
  { intros m' d P Q Om' EP EQ (B1 & B2 & B3 & B4 & B5). eexists _, _. split; [reflexivity|]. split; auto. split; auto. split; auto. split; auto. split; auto. intros r cc Hr Hc.
    rewrite B5, <- moved_kshift, EP, EQ by auto. reflexivity. }
  assert (Ej' : getz (q_Jc c) n0 = Some j0) by auto.
  destruct (Z.eqb_spec (level h n0) (level h n1)) as [He|Hne]; [|destruct (Z.ltb_spec (level h n1) (level h n0)) as [Hlt|Hge]].
  - rewrite (proj2 (Z.leb_le _ _)) in Da by lia. rewrite (proj2 (Z.leb_le _ _)) in Db by lia. destruct (skeleton_shifted_spec n1 sh (sB k) m1 H1 Hm Vsh) as (m' & Em & Sm). rewrite Em. cbn [bind].
    rewrite Ej'. cbn [bind]. rewrite Hj0, <- Da. rewrite <- Db in Sm.
    destruct (eval_block bij (dm_data j0) 0 (dm_ld j0) a (fun i => pt (nthz (js n0) i)) m' b (fun i => pt (nthz (js n1) i)) (sB k)) as (d & Ed & Bd); auto; try lia.
    { intros i Hi. apply (skel_ok n0); auto. lia. }
    rewrite Ed. cbn [bind]. apply (Fin m' d (nthz (js n0)) (nthz (js n1))); auto; try apply Sm; intros; unfold bpoint; rewrite (proj2 (Z.leb_le _ _)) by lia; auto.
  - rewrite (proj2 (Z.leb_le _ _)) in Da by lia. rewrite (proj2 (Z.leb_gt _ _)) in Db by lia.
    destruct (cluster_shifted_spec n1 sh (sB k) m1 H1 Hm Vsh) as (m' & Em & Sm). rewrite Em. cbn [bind].
    rewrite Ej'. cbn [bind]. rewrite Hj0, <- Da. rewrite <- Db in Sm.
    destruct (eval_block bij (dm_data j0) 0 (dm_ld j0) a (fun i => pt (nthz (js n0) i)) m' b (fun i => pt (mfirst h n1 / kd + i)%Z) (sB k)) as (d & Ed & Bd); auto; try lia.
    { intros i Hi. apply (skel_ok n0); auto. lia. }
    rewrite Ed. cbn [bind]. apply (Fin m' d (nthz (js n0)) (fun i => (mfirst h n1 / kd + i)%Z)); auto; try apply Sm; intros; unfold bpoint;
      [rewrite (proj2 (Z.leb_le _ _)) by lia|rewrite (proj2 (Z.leb_gt _ _)) by lia]; auto.
  - rewrite (proj2 (Z.leb_gt _ _)) in Da by lia. rewrite (proj2 (Z.leb_le _ _)) in Db by lia.
    destruct (cluster_at n0 H0) as (s0 & e0 & E1 & E2 & B1 & B2 & B3 & B4 & _). rewrite E1, E2. cbn [bind].
    destruct (skeleton_shifted_spec n1 sh (sB k) m1 H1 Hm Vsh) as (m' & Em & Sm). rewrite Em. cbn [bind]. rewrite <- Db in Sm.
    rewrite B4, Z.div_mul in Da by (destruct (ro_dims _ R); lia). rewrite <- Da.
    destruct (eval_block bij (q_coord c) s0 (q_npoint c) a (fun i => pt (s0 + i)%Z) m' b (fun i => pt (nthz (js n1) i)) (sB k)) as (d & Ed & Bd); auto; try lia.
    { intros i Hi. apply point_np. lia. }
    rewrite Ed. cbn [bind]. apply (Fin m' d (fun i => (s0 + i)%Z) (nthz (js n1))); auto; try apply Sm; intros; unfold bpoint;
      [rewrite (proj2 (Z.leb_gt _ _)), B3 by lia|rewrite (proj2 (Z.leb_le _ _)) by lia]; auto.
Qed.

(** The shift of the k-th D block: none for the leaves. *)
Definition dshift (k : Z) : Z -> F := if k <? h_nleaf h then no_shift else sD (k - h_nleaf h)%Z.

Lemma per_D_block_spec k n0 n1 (dij : dmat K) (m1 : dmat F) : 0 <= n0 < h_nnode h -> 0 <= n1 < h_nnode h ->
  ld (bm_nrow (q_dm c)) k = Some (msize h n0) -> ld (bm_ncol (q_dm c)) k = Some (msize h n1) ->
  (h_nleaf h <= k -> getz inadm (k - h_nleaf h) = Some (n0, n1)) -> dm_ok dij -> dm_ok m1 ->
  exists dij' m1', per_D_block kern c n0 n1 k (dij, m1) = Some (dij', m1') /\ dm_ok m1' /\
    block_is dij' (msize h n0) (msize h n1) (fun r cc => kshift kern h pt (dshift k) (mfirst h n0 + r) (mfirst h n1 + cc)).
Proof.
  intros H0 H1 Er Ec Hk Hd Hm. unfold per_D_block. rewrite (Z.mul_comm 2 n0). destruct (po_dims _ _ _ _ _ _ _ _ _ PO) as (P1 & P2 & P3 & P4 & P5 & _). destruct (ro_dims _ R) as (_ & D2 & _).
  destruct (cluster_at n0 H0) as (s0 & e0 & E1 & E2 & B1 & B2 & B3 & B4 & B5). destruct (cluster_at n1 H1) as (s1 & e1 & _ & _ & C1 & C2 & C3 & C4 & C5).
  rewrite E1, E2, Er, Ec. cbn [bind]. cbv zeta. rewrite P5.
  assert (Hsh : exists sh, (if k <? h_nleaf h then zfor 0 (q_dim c) (fun k sh => st sh k (nlit 0%Q)) shift8 else get_shift c (q_shD c) (k - h_nleaf h)) = Some sh /\
    forall d, 0 <= d < 8 -> ld sh d = Some (dshift k d)).
  { unfold dshift. destruct (Z.ltb_spec k (h_nleaf h)) as [Hl|Hl].
    - destruct (shift_fill (q_dim c) (fun _ => Some (nlit 0%Q)) (@no_shift F)) as (sh & Esh & Vsh); [lia|auto|auto|]. cbn [bind] in Esh. exists sh. auto.
    - destruct (po_inadm _ _ _ _ _ _ _ _ _ PO _ _ _ (Hk Hl)) as (_ & _ & _ & _ & Hs & Hz). unfold get_shift.
      apply (shift_fill (q_dim c) (fun d => ld (q_shD c) ((k - h_nleaf h) * q_dim c + d)) (sD (k - h_nleaf h)%Z)); auto. lia. }
  destruct Hsh as (sh & Esh & Vsh). rewrite Esh. cbn [bind].
  destruct (cluster_shifted_spec n1 sh (dshift k) m1 H1 Hm Vsh) as (m' & Em & Sm). rewrite Em. cbn [bind]. rewrite C4, Z.div_mul in Sm by lia. rewrite B4, C4.
  destruct (eval_block dij (q_coord c) s0 (q_npoint c) (e0 - s0 + 1) (fun i => pt (s0 + i)%Z) m' (e1 - s1 + 1) (fun i => pt (mfirst h n1 / kd + i)%Z) (dshift k)) as (d & Ed & (K1 & K2 & K3 & K4 & K5)); auto; try lia.
  { intros i Hi. apply point_np. lia. }
  rewrite Ed. cbn [bind]. eexists _, _. split; [reflexivity|]. split; [apply Sm|]. split; auto. split; auto. split; auto. split; auto. intros r cc Hr Hc.
  rewrite K5 by auto. unfold kshift. rewrite C3.
  assert (Hdv : forall s r : Z, ((kd * s + r) / kd)%Z = (s + r / kd)%Z /\ ((kd * s + r) mod kd)%Z = (r mod kd)%Z).
  { intros s q. rewrite (Z.add_comm (kd * s)), (Z.mul_comm kd), Z.div_add, Z.mod_add by lia. split; auto. lia. }
  rewrite B5, C5. destruct (Hdv s0 r) as (-> & ->). destruct (Hdv s1 cc) as (-> & ->). reflexivity.
Qed.

Lemma block_gview (o : dmat K) m n f : block_is o m n f -> 1 <= n -> dm_ok o /\ gview o m n f /\ view o = (m, n, n, false).
Proof.
  intros (B1 & B2 & B3 & B4 & B5) Hn. split; auto. assert (Ev : view o = (m, n, n, false)).
  { unfold view. rewrite B4, (proj2 (Z.ltb_lt 0 n)) by lia. now rewrite B2, B3. }
  split; auto. unfold gview. rewrite Ev. auto.
Qed.
End Blocks.
