(** Proofs for Model_UJ.v: one node. *)
From Coq Require Import ZArith QArith List Lia Bool Permutation.
From Verif Require Import Base Mem Num FNum Conc Model_Utils Spec_Utils Proof_Utils Model_Dense Spec_Dense Proof_Dense Proof_Dense3 Model_Partition Spec_Tree Spec_Matvec
  Model_Build Spec_Build Proof_Build Proof_BuildFill Model_ID Spec_ID Proof_IDFinal Proof_Bucket Model_UJ Spec_UJ.
Import ListNotations.
Open Scope Z_scope.

Section Node.
Context {F : num} {E : fnum}.
Variable kern : list F -> list F -> Z -> Z -> E.
Variable c : uctx F E.
Variables n_node max_level n_leaf minlevel : Z.
Hypothesis UI : uj_input c n_node max_level n_leaf minlevel.

Notation a := (c_t c).
Notation dim := (c_dim c).
Notation npt := (c_npoint c).
Notation coord := (c_coord c).
Notation kdim := (c_kdim c).
Notation pts := (node_pts (c_t c) (c_ptdim c)).
Let cv d p : F := val (nlit 0%Q) (ld coord (d * npt + p)).

Lemma ctree : cluster_tree (c_ptdim c) npt n_node max_level n_leaf a. Proof. apply UI. Qed.
Lemma coord_val d p : 0 <= d < dim -> 0 <= p < npt -> ld coord (d * npt + p) = Some (cv d p).
Proof.
  intros Hd Hp. destruct UI as [_ _ _ [Zc Hc] _]. destruct (Hc (d * npt + p)) as [v Ev]; [nia|]. unfold cv. now rewrite Ev.
Qed.
Lemma coord_fits n s : 0 <= s -> 0 <= n -> s + n <= npt -> fits dim n s npt (zlen coord).
Proof.
  intros Hs Hn He. destruct UI as [D _ _ [Zc _] _]. unfold fits. repeat split; try lia.
Qed.

(** A matrix of coordinates of the points [l]. *)
Definition jc_ok (m : dmat F) (l : list Z) : Prop :=
  dm_ok m /\ dm_nrow m = dim /\ dm_ncol m = zlen l /\ dm_ld m = zlen l /\ dim * zlen l <= zlen (dm_data m) /\
  forall d k, 0 <= d < dim -> 0 <= k < zlen l -> ld (dm_data m) (d * zlen l + k) = Some (cv d (nthz l k)).

Lemma node_facts i : 0 <= i < n_node -> exists s h nc, node_data a i s (s + npts a i - 1) (lev a i) h nc /\ 0 <= s /\ 1 <= npts a i /\ s + npts a i <= npt /\
  0 <= lev a i <= max_level /\ nch a i = nc /\ 0 <= nc /\ (nc = 0 <-> h = 0).
Proof.
  intros Hi. destruct (ct_node _ _ _ _ _ _ ctree i Hi) as (s & e & lv & h & nc & N & H1 & H2 & H3 & H4 & H5 & H6).
  pose proof N as (N1 & N2 & N3 & N4 & N5). rewrite Z.add_0_r in N1.
  assert (En : npts a i = e - s + 1) by (unfold npts; now rewrite N1, N2).
  assert (El : lev a i = lv) by (unfold lev; now rewrite N3). assert (Ec : nch a i = nc) by (unfold nch; now rewrite N5).
  exists s, h, nc. rewrite El, En. replace (s + (e - s + 1) - 1) with e by lia. split; [exact N|]. do 6 (split; [auto; lia|]). exact H6.
Qed.

Lemma child_facts i : 0 <= i < n_node -> nch a i <> 0 -> forall k, 0 <= k < nch a i -> ld (a_children a) (i * 2 ^ c_ptdim c + k) = Some (chd a (c_ptdim c) i k) /\
  0 <= chd a (c_ptdim c) i k < i /\ lev a (chd a (c_ptdim c) i k) = lev a i + 1 /\ ld (a_parent a) (chd a (c_ptdim c) i k) = Some i.
Proof.
  intros Hi Hn k Hk. destruct (node_facts i Hi) as (s & h & nc & N & _ & _ & _ & _ & En & _).
  destruct (ct_children _ _ _ _ _ _ ctree i _ _ _ _ _ Hi N ltac:(lia)) as (cs & Zc & Hc & T & _).
  assert (G : exists x, getz cs k = Some x) by (apply getz_in; lia). destruct G as [x Gx].
  assert (Ech : ld (a_children a) (i * 2 ^ c_ptdim c + k) = Some x) by (rewrite Hc, Gx; auto; lia).
  assert (Ex : chd a (c_ptdim c) i k = x) by (unfold chd; now rewrite Ech). rewrite Ex. split; auto.
  apply getz_In in Gx. clear - T Gx. revert T. generalize s at 1 as s0. generalize (s + npts a i - 1). induction cs as [|y cs IH]; intros e s0 T; [inversion Gx|].
  destruct T as (ce & h' & nc' & (_ & _ & L & _) & P & B & _ & T). destruct Gx as [->|Gx]; [|eapply IH; eauto].
  split; auto. split; auto. unfold lev at 1. now rewrite L.
Qed.

(** ** (1) the points *)
Lemma uj_leaf_spec js i : 0 <= i < n_node -> nch a i = 0 -> exists v m, uj_leaf c i = Some (v, m) /\ iv_holds v (pts js i) /\ jc_ok m (pts js i).
Proof.
  intros Hi Hn. destruct (node_facts i Hi) as (s & h & nc & (N1 & N2 & N3 & N4 & N5) & Hs & Hp & He & Hl & En & _ & _). rewrite Z.add_0_r in N1.
  set (n := npts a i) in *. assert (Ep : pts js i = zrange s (s + n)) by (unfold node_pts; rewrite Hn, N1; reflexivity). rewrite Ep.
  assert (Zl : zlen (zrange s (s + n)) = n) by (rewrite zlen_zrange; lia).
  unfold uj_leaf. rewrite N1, N2. cbn [bind]. replace (s + n - 1 - s + 1) with n by lia.
  assert (Zi : zlen (iv_data (iv_init n)) = n /\ iv_cap (iv_init n) = n). { unfold iv_init. destruct (Z.ltb_spec n 0); [lia|]. cbn. rewrite zlen_alloc; lia. }
  destruct (zfill_spec (fun k => s + k) (fun k (d : mem Z) => st d k (s + k)) 0 n (iv_data (iv_init n))) as (d & Ed & Zd & Ld); auto; try lia.
  rewrite Ed. cbn [bind].
  pose proof (dm_init_ok (A := F) dim n) as Ok. destruct UI as [D _ _ _ _].
  assert (Hz : zlen (dm_data (@dm_init F dim n)) = dim * n) by (cbn; rewrite zlen_alloc; nia).
  destruct (copy_matrix_spec dim n coord s npt (dm_data (dm_init dim n)) 0 n) as (x & Ex & Zx & Gx & _).
  { apply coord_fits; lia. } { apply fits_resized; nia. }
  rewrite Ex. cbn [bind]. eexists _, _. split; [reflexivity|]. split.
  - unfold iv_holds. cbn [iv_data iv_cap iv_len]. rewrite Zl. split; [lia|]. split; [auto|]. split; [lia|]. intros k Hk. rewrite Ld.
    rewrite getz_zrange by lia. destruct (Z.leb_spec 0 k), (Z.ltb_spec k n); cbn; auto; lia.
  - unfold jc_ok. rewrite Zl. cbn [dm_set_data dm_nrow dm_ncol dm_ld dm_data dm_init]. unfold dm_ok. cbn [dm_set_data dm_size dm_data dm_init].
    rewrite !Z.max_r by lia. rewrite Zx, Hz. repeat split; try lia. intros d0 k Hd Hk. unfold ld. rewrite <- (Z.add_0_l (d0 * n)), Gx by lia.
    rewrite (nthz_eq _ _ (s + k)) by (rewrite getz_zrange; auto; lia). fold (ld coord (s + d0 * npt + k)).
    replace (s + d0 * npt + k) with (d0 * npt + (s + k)) by lia. apply coord_val; lia.
Qed.

(** What the finished nodes have left. *)
Definition left_ok (js : Z -> list Z) (J : list (option int_vec)) (Jc : list (option (dmat F))) (i : Z) : Prop :=
  exists v m, getz J i = Some (Some v) /\ getz Jc i = Some (Some m) /\ iv_holds v (js i) /\ jc_ok m (js i).

Lemma zlen_flat_map (f : Z -> list Z) n : 0 <= n -> zlen (flat_map f (zrange 0 n)) = zsumf (fun k => zlen (f k)) 0 n.
Proof.
  intros Hn. pattern n. apply natlike_ind; auto. intros m Hm IH. unfold Z.succ. rewrite zrange_snoc, flat_map_app, zlen_app, IH by lia.
  rewrite zsumf_snoc by lia. cbn. now rewrite app_nil_r.
Qed.

Lemma uj_parent_spec js J Jc i : 0 <= i < n_node -> nch a i <> 0 -> (forall k, 0 <= k < nch a i -> left_ok js J Jc (chd a (c_ptdim c) i k)) ->
  exists v, uj_parent c J i = Some v /\ iv_holds v (pts js i).
Proof.
  intros Hi Hn HJ. destruct (node_facts i Hi) as (s & h & nc & (N1 & N2 & N3 & N4 & N5) & Hs & Hp & He & Hl & En & Hnc & _).
  unfold uj_parent. rewrite N5. cbn [bind]. rewrite <- En in *.
  destruct (zfor_inv (fun k (x : Z) => True) 0 (nch a i) (fun k acc => ch <- child_of c i k; j <- getp J ch; Some (acc + iv_len j)) 0) as (size & Es & _); auto.
  { intros k x Hk _. destruct (child_facts i Hi Hn k Hk) as (Ec & _). unfold child_of. rewrite Ec. cbn [bind].
    destruct (HJ k Hk) as (v & m & Ev & _). unfold getp. rewrite Ev. cbn [bind]. eauto. }
  rewrite Es. cbn [bind].
  destruct (zfor_inv (fun k v => iv_holds v (flat_map (fun k => js (chd a (c_ptdim c) i k)) (zrange 0 k))) 0 (nch a i)
    (fun k v => ch <- child_of c i k; j <- getp J ch; iv_concatenate v j) (iv_init size)) as (v & Ev & Hv); auto.
  - change (zrange 0 0) with (@nil Z). destruct (Z.ltb_spec size 0); [apply iv_holds_init_neg|apply iv_holds_init]; auto.
  - intros k x Hk Hx. destruct (child_facts i Hi Hn k Hk) as (Ec & _). unfold child_of. rewrite Ec. cbn [bind].
    destruct (HJ k Hk) as (v & m & Ev & _ & Hv & _). unfold getp. rewrite Ev. cbn [bind].
    destruct (iv_concatenate_spec x _ v _ Hx Hv) as (v' & E' & H' & _). exists v'. split; auto.
    rewrite zrange_snoc, flat_map_app by lia. cbn. now rewrite app_nil_r.
  - exists v. split; auto. unfold node_pts. destruct (Z.eqb_spec (nch a i) 0); [contradiction|]. auto.
Qed.

(** ** (2) coordinates of the points *)
Definition skel_ok (d : mem F) (l : list Z) : Prop :=
  dim * zlen l <= zlen d /\ forall x k, 0 <= x < dim -> 0 <= k < zlen l -> ld d (x * zlen l + k) = Some (cv x (nthz l k)).

Lemma uj_gather_spec js J Jc i d : 0 <= i < n_node -> nch a i <> 0 -> (forall k, 0 <= k < nch a i -> left_ok js J Jc (chd a (c_ptdim c) i k)) ->
  dim * zlen (pts js i) <= zlen d -> exists d', uj_gather c J Jc i (zlen (pts js i)) d = Some d' /\ zlen d' = zlen d /\ skel_ok d' (pts js i).
Proof.
  intros Hi Hn HJ Hz. destruct (node_facts i Hi) as (s & h & nc & (N1 & N2 & N3 & N4 & N5) & Hs & Hp & He & Hl & En & Hnc & _).
  unfold uj_gather. rewrite N5. cbn [bind]. rewrite <- En in *. clear nc En.
  assert (Ep : pts js i = flat_map (fun k => js (chd a (c_ptdim c) i k)) (zrange 0 (nch a i))) by (unfold node_pts; destruct (Z.eqb_spec (nch a i) 0); [contradiction|auto]).
  set (L := pts js i) in *. set (f := fun k => js (chd a (c_ptdim c) i k)) in *. set (pre := fun k => flat_map f (zrange 0 k)).
  assert (Epre : forall k, 0 <= k < nch a i -> exists t, L = pre k ++ f k ++ t).
  { intros k Hk. exists (flat_map f (zrange (k + 1) (nch a i))). rewrite Ep. unfold pre. rewrite (zrange_app 0 k (nch a i)) by lia. rewrite flat_map_app. f_equal.
    rewrite (zrange_cons k (nch a i)) by lia. reflexivity. }
  match goal with |- context [zfor 0 (nch a i) ?bd (0, d)] => destruct (zfor_inv (fun k (x : Z * mem F) => fst x = zlen (pre k) /\ zlen (snd x) = zlen d /\
      forall y t, 0 <= y < dim -> 0 <= t < zlen (pre k) -> ld (snd x) (y * zlen L + t) = Some (cv y (nthz (pre k) t))) 0 (nch a i) bd (0, d)) as ((off & d') & Ed & I1 & I2 & I3); auto end.
  - cbn [fst snd]. split; [reflexivity|]. split; auto. intros y t _ Ht. change (zlen (pre 0)) with 0 in Ht. lia.
  - intros k (off & d0) Hk (I1 & I2 & I3). cbn [fst snd] in *. destruct (child_facts i Hi Hn k Hk) as (Ec & _). unfold child_of. rewrite Ec. cbn [bind].
    destruct (HJ k Hk) as (v & m & Ev & Em & Hv & (M1 & M2 & M3 & M4 & M5 & M6)). unfold getp. rewrite Em, Ev. cbn [bind]. fold (f k) in *. rewrite M3.
    destruct (Epre k Hk) as [tl EL]. pose proof (zlen_nonneg (pre k)). pose proof (zlen_nonneg (f k)). pose proof (zlen_nonneg tl).
    assert (ZL : zlen L = zlen (pre k) + zlen (f k) + zlen tl) by (rewrite EL, !zlen_app; lia).
    assert (Dm : 1 <= dim) by (destruct UI as [D _ _ _ _]; lia).
    destruct (copy_matrix_spec dim (zlen (f k)) (dm_data m) 0 (zlen (f k)) d0 off (zlen L)) as (d1 & E1 & Z1 & G1 & O1).
    { apply fits_resized; lia. } { unfold fits. repeat split; try lia. }
    rewrite E1. cbn [bind]. eexists. split; [reflexivity|]. cbn [fst snd].
    assert (Ek : pre (k + 1) = pre k ++ f k) by (unfold pre; rewrite zrange_snoc, flat_map_app by lia; cbn; now rewrite app_nil_r).
    rewrite Ek, zlen_app. split; [destruct Hv as (_ & Hv & _); lia|]. split; [lia|]. intros y t Hy Ht.
    destruct (Z_lt_le_dec t (zlen (pre k))).
    + rewrite nthz_app1 by lia. rewrite <- I3 by lia. unfold ld. rewrite O1; auto. intros (y' & t' & Hy' & Ht' & Eq).
      destruct (row_col_inj (zlen L) (zlen L) y t y' (off + t')) as [_ X]; lia.
    + replace (y * zlen L + t) with (off + y * zlen L + (t - off)) by lia. unfold ld. rewrite G1 by lia. rewrite Z.add_0_l. fold (ld (dm_data m) (y * zlen (f k) + (t - off))).
      rewrite M6 by lia. do 2 f_equal. unfold nthz. rewrite (getz_app2 (pre k) (f k)) by lia. rewrite I1. reflexivity.
  - exists d'. split; [exact (f_equal (fun o : option (Z * mem F) => z <- o; let '(_, d0) := z in Some d0) Ed)|]. cbn [fst snd] in *. split; auto. unfold pre in *. rewrite <- Ep in *. split; [lia|]. auto.
Qed.

(** ** (3) the box centre as origin *)
Let ctr i d : F := centre a (c_ptdim c) i d.
Lemma uj_shift_spec i l d : 0 <= i < n_node -> skel_ok d l -> exists d', uj_shift c i (zlen l) d = Some d' /\ zlen d' = zlen d /\
  forall x k, 0 <= x < dim -> 0 <= k < zlen l -> ld d' (x * zlen l + k) = Some (if x <? c_ptdim c then nsub (cv x (nthz l k)) (ctr i x) else cv x (nthz l k)).
Proof.
  intros Hi [Hz Hd]. destruct UI as [D _ Hb _ _]. unfold uj_shift. set (n := zlen l) in *. pose proof (zlen_nonneg l) as Hn. fold n in Hn.
  match goal with |- context [zfor 0 (c_ptdim c) ?bd d] => destruct (zfor_inv (fun p (d' : mem F) => zlen d' = zlen d /\
     forall x k, 0 <= x < dim -> 0 <= k < n -> ld d' (x * n + k) = Some (if x <? p then nsub (cv x (nthz l k)) (ctr i x) else cv x (nthz l k))) 0 (c_ptdim c) bd d) as (d' & E' & P) end; try lia.
  - split; auto. intros x k Hx Hk. destruct (Z.ltb_spec x 0); [lia|auto].
  - intros p d1 Hp (Z1 & P1). destruct (Hb i p Hi ltac:(lia)) as [lo El]. destruct (Hb i (c_ptdim c + p) Hi ltac:(lia)) as [w Ew].
    replace (i * (c_ptdim c * 2) + p) with (i * 2 * c_ptdim c + p) in El by lia. replace (i * (c_ptdim c * 2) + (c_ptdim c + p)) with (i * 2 * c_ptdim c + (c_ptdim c + p)) in Ew by lia.
    rewrite El, Ew. cbn [bind]. assert (Ec : nadd lo (nmul (nlit (1 # 2)%Q) w) = ctr i p) by (unfold ctr, centre; now rewrite El, Ew). rewrite Ec.
    match goal with |- context [zfor 0 n ?bd d1] => destruct (zfor_inv (fun t (d' : mem F) => zlen d' = zlen d /\
      forall x k, 0 <= x < dim -> 0 <= k < n -> ld d' (x * n + k) = Some (if (x <? p) || ((x =? p) && (k <? t)) then nsub (cv x (nthz l k)) (ctr i x) else cv x (nthz l k))) 0 n bd d1) as (d2 & E2 & Z2 & P2) end; try lia.
    + split; auto. intros x k Hx Hk. rewrite (P1 x k Hx Hk). destruct (Z.ltb_spec x p), (Z.eqb_spec x p), (Z.ltb_spec k 0); cbn; auto; lia.
    + intros t d3 Ht (Z3 & P3). rewrite (P3 p t ltac:(lia) Ht). destruct (Z.ltb_spec p p); [lia|]. rewrite Z.eqb_refl. destruct (Z.ltb_spec t t); [lia|]. cbn [orb andb bind].
      destruct (st_Some d3 (p * n + t) (nsub (cv p (nthz l t)) (ctr i p))) as [d4 E4]; [nia|]. rewrite E4. exists d4. split; auto. split; [rewrite (st_zlen _ _ _ _ E4); auto|].
      intros x k Hx Hk. rewrite (ld_st _ _ _ _ _ E4). destruct (Z.eqb_spec (p * n + t) (x * n + k)) as [Eq|Ne].
      * destruct (row_col_inj n n p t x k) as [<- <-]; try lia. rewrite Z.eqb_refl. destruct (Z.ltb_spec p p); [lia|]. destruct (Z.ltb_spec t (t + 1)); [|lia]. reflexivity.
      * rewrite P3 by auto. destruct (Z.ltb_spec x p); cbn; auto. destruct (Z.eqb_spec x p) as [->|]; cbn; auto. destruct (Z.ltb_spec k t), (Z.ltb_spec k (t + 1)); auto; try lia.
    + rewrite E2. exists d2. split; auto. split; auto. intros x k Hx Hk. rewrite P2 by auto. destruct (Z.ltb_spec x p), (Z.eqb_spec x p), (Z.ltb_spec k n), (Z.ltb_spec x (p + 1)); cbn; auto; lia.
  - exists d'. split; auto.
Qed.

(** ** (6) the chosen points *)
Lemma uj_choose_spec v l sub sk jc : iv_holds v l -> iv_holds sub sk -> increasing sk -> (forall x, In x sk -> 0 <= x < zlen l) -> (forall x, In x l -> 0 <= x < npt) ->
  (forall m, jc = Some m -> dm_ok m) ->
  exists v' m', uj_choose c v sub jc = Some (v', m') /\ iv_holds v' (map (nthz l) sk) /\ jc_ok m' (map (nthz l) sk).
Proof.
  intros (V1 & V2 & V3 & V4) (S1 & S2 & S3 & S4) Hinc Hsk Hl Hjc. unfold uj_choose. rewrite S2. set (n := zlen sk) in *. pose proof (zlen_nonneg sk) as Hn0. fold n in Hn0.
  assert (Hnth : forall k, 0 <= k < n -> 0 <= nthz sk k < zlen l) by (intros k Hk; apply Hsk, (getz_In sk k), getz_nthz; auto).
  assert (Hge : forall k, 0 <= k < n -> k <= nthz sk k) by (apply increasing_ge; auto; intros x Hx; apply Hsk in Hx; lia).
  assert (Hle : n <= zlen l). { destruct (Z.eq_dec n 0) as [->|]; [apply zlen_nonneg|]. pose proof (Hge (n - 1) ltac:(lia)). pose proof (Hnth (n - 1) ltac:(lia)). lia. }
  match goal with |- context [zfor 0 n ?bd _] => destruct (zfor_inv (fun t (d : mem Z) => zlen d = zlen (iv_data v) /\
    (forall k, 0 <= k < t -> ld d k = Some (nthz l (nthz sk k))) /\ forall k, t <= k < zlen l -> ld d k = getz l k) 0 n bd (iv_data v)) as (d & Ed & Zd & D1 & D2) end; try lia.
  - split; auto. split; [intros; lia|]. intros; apply V4; lia.
  - intros t d Ht (Zd & D1 & D2). rewrite S4, getz_nthz by (fold n; lia). cbn [bind]. pose proof (Hge t Ht). pose proof (Hnth t Ht). rewrite D2, getz_nthz by lia. cbn [bind].
    destruct (st_Some d t (nthz l (nthz sk t))) as [d' E']; [lia|]. rewrite E'. exists d'. split; auto. split; [rewrite (st_zlen _ _ _ _ E'); auto|]. split.
    + intros k Hk. rewrite (ld_st _ _ _ _ _ E'). destruct (Z.eqb_spec t k) as [->|]; auto. apply D1. lia.
    + intros k Hk. rewrite (ld_st _ _ _ _ _ E'). destruct (Z.eqb_spec t k) as [->|]; [lia|]. apply D2. lia.
  - rewrite Ed. cbn [bind].
    set (jl := map (nthz l) sk). assert (Zj : zlen jl = n) by (unfold jl; now rewrite zlen_map).
    assert (Gj : forall k, 0 <= k < n -> nthz jl k = nthz l (nthz sk k)) by (intros k Hk; apply nthz_eq; unfold jl; rewrite getz_map, getz_nthz by auto; reflexivity).
    assert (Rj : read_cells d 0 n = Some jl).
    { rewrite (read_cells_spec d 0 n (fun k => nthz jl k)); auto. 2:{ intros k Hk. rewrite Z.add_0_l, D1, Gj; auto. }
      f_equal. apply getz_ext; [rewrite zlen_map, zlen_zrange; lia|]. intros k Hk. rewrite zlen_map, zlen_zrange in Hk by lia. rewrite getz_map, getz_zrange by lia. cbn. rewrite getz_nthz by lia. do 2 f_equal. lia. }
    rewrite Rj. cbn [bind]. destruct UI as [D _ _ _ _].
    set (m0 := match jc with None => dm_init dim n | Some m => dm_resize m dim n end).
    assert (Hm : dm_ok m0 /\ dm_nrow m0 = dim /\ dm_ncol m0 = n /\ dm_ld m0 = n /\ dim * n <= zlen (dm_data m0)).
    { unfold m0. destruct jc as [m|]; [apply dm_resize_ok; auto; lia|]. split; [apply dm_init_ok|]. cbn. rewrite !Z.max_r by lia. rewrite zlen_alloc; nia. }
    destruct Hm as (M1 & M2 & M3 & M4 & M5).
    assert (Hjl : forall x, In x jl -> 0 <= x < npt). { intros x Hx. unfold jl in Hx. apply in_map_iff in Hx as (y & <- & Hy). apply Hl, (getz_In l y), getz_nthz. apply Hsk; auto. }
    destruct (gather_cols_spec dim n jl coord (dm_data m0) npt n npt cv) as (x & Ex & Zx & Gx & _); auto.
    { apply fits_resized; lia. } { intros y k Hy Hk. apply coord_val; auto. }
    rewrite Ex. cbn [bind]. eexists _, _. split; [reflexivity|]. split.
    + unfold iv_holds. cbn [iv_data iv_cap iv_len]. fold jl. rewrite Zj. split; [lia|]. split; auto. split; [lia|]. intros k Hk. rewrite D1, getz_nthz, Gj by lia. auto.
    + unfold jc_ok. fold jl. rewrite Zj. cbn [dm_set_data dm_nrow dm_ncol dm_ld dm_data]. unfold dm_ok in *. cbn [dm_set_data dm_size dm_data]. rewrite Zx. do 5 (split; [lia|]).
      intros y k Hy Hk. apply Gx; lia.
Qed.
End Node.
