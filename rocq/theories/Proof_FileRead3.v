(** Reading, put together: steps 1 to 12 of H2P_read_from_file on stored files. *)
From Coq Require Import ZArith QArith List Lia Bool Permutation Sorted.
From Verif Require Import Base Mem Num CRing Conc Model_Utils Spec_Utils Proof_Utils Model_Dense Spec_Dense Proof_Dense Proof_Dense3 Proof_Bucket Model_Partition Spec_Tree Spec_Partition
  Model_Pairs Spec_Pairs Model_Matvec Spec_Matvec Proof_MvTree Model_Build Spec_Build Proof_Build Proof_BuildTop Model_Matmul Model_UJ Model_FileIO Proof_FileIO Proof_FileRead Proof_FileRead2.
Import ListNotations.
Open Scope Z_scope.

Section Read.
Context {F : num} {K : cring}.
Variables (bits : F -> Z) (unbits : Z -> F) (e6 : F -> F).
Variables (h : h2rep F K) (f : sfields F).
Variables (js : Z -> list Z) (uc : Z -> Z -> F) (pi : Z -> Z).
Hypothesis R : rep_ok h.
Hypothesis Hx : sf_hss f = false /\ sf_xdim f <= h_ptdim h.
Hypothesis HU : forall i U, getz (h_U h) i = Some U -> 0 <= dm_nrow U /\ (h_minlevel h <= level h i -> dm_ld U = dm_ncol U).
Hypothesis Hpi : forall i, 0 <= i < h_npoint h -> 0 <= pi i < h_npoint h.
Hypothesis Hsur : forall q, 0 <= q < h_npoint h -> exists i, 0 <= i < h_npoint h /\ pi i = q.
Hypothesis HJ : zlen (sf_J f) = h_nnode h /\ forall i v, getz (sf_J f) i = Some v -> iv_holds v (js i).
Hypothesis Hjs : forall i x, 0 <= i < h_nnode h -> In x (js i) -> 0 <= x < h_npoint h.
Hypothesis Hbits : forall q j, 0 <= q < h_npoint h -> 0 <= j < h_ptdim h -> unbits (bits (uc q j)) = uc q j.
Hypothesis Hsa : simple_pairs (h_adm h).
Hypothesis Hsi : simple_pairs (h_inadm h).
Hypothesis Hadm : 1 <= zlen (h_adm h).
Hypothesis Hfwd : forall p, 0 <= p < h_npoint h * h_kdim h -> nthz (h_fwd h) p = pi (p / h_kdim h) * h_kdim h + p mod h_kdim h.
Notation tok := (tok F).
Notation N := (h_nnode h).
Notation dim := (h_ptdim h).
Notation np := (h_npoint h).
Notation nB := (zlen (h_adm h)).
Notation nI := (zlen (h_inadm h)).
Notation nL := (h_nleaf h).

Lemma read_head_spec part (rest : list tok) :
  read_head (map TI (headZ h f part) ++ rest) = Some (RHead dim (h_kdim h) np (h_kms h) N (sf_root f) (h_maxlevel h) 0 (h_minlevel h) nI nB, rest).
Proof.
  unfold headZ, read_head. cbn [map app rdi bind]. destruct (Z.eqb_spec 1 1) as [_|]; [|lia]. cbn [negb]. cbn [rdi bind].
  now replace (h_maxlevel h + 1 - 1) with (h_maxlevel h) by lia.
Qed.

(** The tokens of the text. *)
Notation s1 := (concat (map (nodeL h) (zrange 0 N))).
Notation s2 := (concat (map (uL (Unr h) (rank h)) (zrange 0 N))).
Notation s3 := (concat (map (pL true (bp h) (Bnrow h) (Bncol h) (partial h)) (zrange 0 nB))).
Notation s4 := (concat (map (lL (leaf h) (fun k => msize h (leaf h k))) (zrange 0 nL))).
Notation s5 := (concat (map (pL false (pair_at (h_inadm h)) (fun k => msize h (dr h (nL + k))) (fun k => msize h (dc h (nL + k))) (fun _ => 0)) (zrange 0 nI))).
Notation s6 := (concat (map (cL bits dim uc) (zrange 0 np))).
Notation s7 := (concat (map (fun i => [TI (pi i)]) (zrange 0 np))).
Notation s8 := (concat (map (jL js) (zrange 0 N))).

Lemma concat_sing {A B} (g : A -> B) l : concat (map (fun z => [g z]) l) = map g l.
Proof. induction l; cbn; congruence. Qed.
Lemma map_ext_zrange {A} (g1 g2 : Z -> A) lo hi : (forall k, lo <= k < hi -> g1 k = g2 k) -> map g1 (zrange lo hi) = map g2 (zrange lo hi).
Proof. intros H. apply map_ext_in. intros k Hk. apply In_zrange in Hk. auto. Qed.

Lemma text_tokens part tol : concat (text bits h f js uc pi part tol) =
  map TI (headZ h f part) ++ s1 ++ s2 ++ s3 ++ s4 ++ s5 ++ [TI (sf_mlp f); TE tol; TI 1] ++ s6 ++ s7 ++ s8.
Proof.
  pose proof (nLn h R) as HL. pose proof (zlen_nonneg (h_inadm h)) as HI.
  unfold text. rewrite !concat_app. rewrite concat_sing. do 3 apply (f_equal (app _)).
  apply (f_equal2 (@app tok)); [reflexivity|].
  rewrite (zrange_app 0 nL (nL + nI)) by lia. rewrite map_app, concat_app, <- app_assoc. apply (f_equal2 (@app tok)).
  - f_equal. apply map_ext_zrange. intros k Hk. destruct (leaf_d h k Hk) as (E1 & E2). unfold DL, lL. now rewrite E1, E2.
  - apply (f_equal2 (@app tok)); [|reflexivity].
    f_equal. replace (zrange nL (nL + nI)) with (map (fun k => nL + k) (zrange 0 nI)).
    + rewrite map_map. apply map_ext_zrange. intros k Hk. destruct (getz_in (h_inadm h) k Hk) as [[n0 n1] E]. destruct (inadm_d h k _ _ E) as (E1 & E2).
      unfold DL, pL, pair_at. rewrite E, E1, E2. reflexivity.
    + apply getz_ext; [rewrite zlen_seg, zlen_zrange; lia|]. intros k Hk. rewrite zlen_seg in Hk by lia. rewrite getz_map, !getz_zrange by lia. cbn [option_map]. f_equal; lia.
Qed.

(** What has been read. *)
Record contents (nth : Z) (r : rfile F K) (tol : F) : Prop := {
  c_dims : h_ptdim (rf_h r) = dim /\ h_npoint (rf_h r) = np /\ h_kdim (rf_h r) = h_kdim h /\ h_nthread (rf_h r) = nth /\ h_nnode (rf_h r) = N /\
    h_maxchild (rf_h r) = h_maxchild h /\ h_nleaf (rf_h r) = nL /\ h_maxlevel (rf_h r) = h_maxlevel h /\ h_minlevel (rf_h r) = h_minlevel h /\ h_kms (rf_h r) = h_kms h;
  c_scal : rf_hss r = 0 /\ rf_root r = sf_root f /\ rf_mlp r = sf_mlp f /\ rf_tol r = tol /\ rf_jit r = false;
  c_tree : let t := h_t (rf_h r) in tree_read h N (RTree (a_level t) (a_cluster t) (h_mcl (rf_h r)) (a_nchild t) (a_children t) (a_parent t) nL);
  c_levels : forall l, 0 <= l <= h_maxlevel h -> lists (a_level_nodes (h_t (rf_h r))) (a_level_n (h_t (rf_h r))) nL l (fun i => 0 <= i < N /\ ld (a_level (h_t (rf_h r))) i = Some l);
  c_leaves : forall k, 0 <= k < nL -> ld (a_height_nodes (h_t (rf_h r))) k = Some (leaf h k);
  c_U : zlen (h_U (rf_h r)) = N /\ forall i, 0 <= i < N -> exists m, getz (h_U (rf_h r)) i = Some m /\ holds_full m (Unr h i) (rank h i) (Uval h i);
  c_pairs : h_adm (rf_h r) = h_adm h /\ h_inadm (rf_h r) = h_inadm h;
  c_nr : zlen (h_nr (rf_h r)) = N /\ forall j, 0 <= j < N -> ld (h_nr (rf_h r)) j = Some (occurs (h_adm h) j);
  c_bm : meta_ok N nB (Bnrow h) (Bncol h) (pair_entries 0 (h_adm h) nB) (rf_bm r) /\
    h_Bnrow (rf_h r) = bm_nrow (rf_bm r) /\ h_Bncol (rf_h r) = bm_ncol (rf_bm r) /\ h_Bptr (rf_h r) = bm_ptr (rf_bm r);
  c_dm : meta_ok N (nL + nI) (fun k => msize h (dr h k)) (fun k => msize h (dc h k)) (leaf_entries (leaf h) nL ++ pair_entries nL (h_inadm h) nI) (rf_dm r) /\
    h_Dnrow (rf_h r) = bm_nrow (rf_dm r) /\ h_Dncol (rf_h r) = bm_ncol (rf_dm r) /\ h_Dptr (rf_h r) = bm_ptr (rf_dm r);
  c_B : zlen (h_Bdata (rf_h r)) = zsumf (fun k => Bnrow h k * Bncol h k) 0 nB /\ forall k i j, 0 <= k < nB -> 0 <= i < Bnrow h k -> 0 <= j < Bncol h k ->
    ld (h_Bdata (rf_h r)) (zsumf (fun k => Bnrow h k * Bncol h k) 0 k + (i * Bncol h k + j)) = Some (Bval h k i j);
  c_D : zlen (h_Ddata (rf_h r)) = zsumf (fun k => msize h (dr h k) * msize h (dc h k)) 0 (nL + nI) /\ forall k i j, 0 <= k < nL + nI -> 0 <= i < msize h (dr h k) -> 0 <= j < msize h (dc h k) ->
    ld (h_Ddata (rf_h r)) (zsumf (fun k => msize h (dr h k) * msize h (dc h k)) 0 k + (i * msize h (dc h k) + j)) = Some (Dval h k i j);
  c_blk : work_ok (h_Bblk (rf_h r)) nB nth (fun k => Bnrow h k * Bncol h k) /\
    work_ok (h_D0blk (rf_h r)) nL nth (fun k => msize h (dr h k) * msize h (dc h k)) /\
    work_ok (h_D1blk (rf_h r)) nI nth (fun k => msize h (dr h (nL + k)) * msize h (dc h (nL + k)));
  c_pmt : h_fwd (rf_h r) = h_fwd h /\ h_bwd (rf_h r) = h_bwd h;
  c_points : (forall i, 0 <= i < np -> ld (rf_idx r) i = Some (pi i)) /\
    (forall j i, 0 <= j < dim -> 0 <= i < np -> ld (rf_coord r) (j * np + i) = Some (uc (pi i) j)) /\
    (forall j q, 0 <= j < dim -> 0 <= q < np -> ld (rf_coord0 r) (j * np + q) = Some (uc q j));
  c_skel : zlen (rf_J r) = N /\ zlen (rf_Jc r) = N /\ forall i, 0 <= i < N -> (exists v, getz (rf_J r) i = Some (Some v) /\ iv_holds v (js i)) /\
    exists m, getz (rf_Jc r) i = Some (Some m) /\ skel_coords dim uc pi m (js i)
}.


Lemma read_spec nth ordB ordD part tol : 1 <= nth -> Permutation ordB (zrange 0 N) -> Permutation ordD (zrange 0 N) ->
  exists r, read_from_file_1_12 unbits nth false ordB ordD (concat (text bits h f js uc pi part tol)) (binary h) = Some r /\ contents nth r tol.
Proof.
  intros Ht HoB HoD. pose proof (nLn h R) as HL. pose proof (zlen_nonneg (h_inadm h)) as HI. pose proof (N_pos h R) as HN. pose proof (np_pos h R) as Hp. pose proof (dim_pos h R) as Hd.
  pose proof (maxlevel_lt h R) as Hml. destruct (ro_dims _ R) as (D1 & D2 & D3 & D4 & D5 & D6).
  assert (HL1 : 1 <= nL).
  { destruct (ct_leaf_of_point _ _ _ _ _ _ (ro_tree _ R) 0 ltac:(lia)) as (i & (Hi & s & e & lv & Dn & _) & _).
    destruct (ct_heights _ _ _ _ _ _ (ro_tree _ R) 0 ltac:(lia)) as (ns & _ & Le & _ & In' & _). assert (In i ns) by (apply In'; split; auto; apply Dn). destruct ns; [contradiction|]. zlia. }
  rewrite text_tokens. unfold read_from_file_1_12, binary. rewrite read_head_spec. cbn [bind rh_nnode rh_dim rh_kdim rh_npoint rh_maxlevel rh_nadm rh_ninadm rh_hss rh_root rh_minlevel rh_kms].
  rewrite <- D4. assert (Hcap : nL <= nL * (h_maxlevel h + 1)) by nia.
  match goal with |- context [read_tree N (h_kdim h) (h_maxchild h) (s1 ++ ?r)] => destruct (read_tree_spec h R r) as (t & Et & Tt) end.
  rewrite Et. cbn [bind]. pose proof Tt as [(Z1 & Z2 & Z3 & Z4 & Z5 & Z6) Tn Tc Tp Tl].
  assert (Enl : rt_nleaf t = nL) by (rewrite Tl; apply (leaf_count bits unbits e6 h f js R Hx HJ)). rewrite Enl.
  destruct (read_levels_spec h R (rt_level t) Z1 ltac:(intros k Hk; now apply Tn)) as (ln & lns & El & Ll). rewrite El. cbn [bind].
  destruct (zfill_spec (fun _ => 0) (fun i m => st m i 0) 0 N (alloc N)) as (hn & En & Zn & Ln); [auto|lia|lia|rewrite zlen_alloc; lia|]. rewrite En. cbn [bind].
  destruct (st_ex (@alloc Z (nL * (h_maxlevel h + 1))) 0 nL (nL * (h_maxlevel h + 1)) (zlen_alloc (nL * (h_maxlevel h + 1)) ltac:(lia)) ltac:(lia)) as (hns & Eh & Zh & _). rewrite Eh. cbn [bind].
  match goal with |- context [read_U N (s2 ++ ?a) (concat (map (Ubin h) (zrange 0 N)) ++ ?b)] =>
    destruct (read_U_spec N (Unr h) (rank h) (Uval h) ltac:(lia) ltac:(intros i Hi; destruct (U_facts h R HU i Hi) as (_ & _ & _ & _ & Q1 & Q2 & _); auto) a b) as (U & EU & ZU & GU) end.
  change (fun i : Z => uB (Unr h) (rank h) (Uval h) i) with (Ubin h) in EU. change (uB (Unr h) (rank h) (Uval h)) with (Ubin h) in EU. rewrite EU. cbn [bind]. clear EU.
  destruct (st_ex (@alloc Z (nB + 1)) 0 0 (nB + 1) (zlen_alloc (nB + 1) ltac:(lia)) ltac:(lia)) as (bp0 & Eb0 & Zb0 & Lb0). rewrite Eb0. cbn [bind].
  match goal with |- context [read_pairs true 0 nB (_, _, _, _, _, s3 ++ ?a)] =>
    destruct (read_pairs_spec (F := F) true 0 nB (bp h) (Bnrow h) (Bncol h) (partial h) (alloc nB) (alloc nB) bp0 nB a ltac:(lia) ltac:(lia) ltac:(lia) (zlen_alloc nB ltac:(lia)) (zlen_alloc nB ltac:(lia)) Zb0)
      as (Bnr & Bnc & Bp & EB & ZB1 & ZB2 & ZB3 & GB & _ & GB0) end.
  match goal with |- context [read_pairs true 0 nB ?x] => match type of EB with read_pairs _ _ _ ?y = _ => change x with y end end. rewrite EB. cbn [bind]. clear EB.
  assert (Eadm : map (bp h) (zrange 0 nB) = h_adm h).
  { apply getz_ext; [rewrite zlen_seg; lia|]. intros k Hk. rewrite zlen_seg in Hk by lia. rewrite getz_map, getz_zrange by lia. cbn [option_map]. rewrite Z.add_0_l. unfold bp, pair_at. destruct (getz_in (h_adm h) k Hk) as [x Ex]. now rewrite Ex. }
  rewrite Eadm.
  destruct (st_ex (@alloc Z (nL + nI + 1)) 0 0 (nL + nI + 1) (zlen_alloc (nL + nI + 1) ltac:(lia)) ltac:(lia)) as (dp0 & Ed0 & Zd0 & Ld0). rewrite Ed0. cbn [bind].
  match goal with |- context [read_leaves nL (_, _, _, _, _, s4 ++ ?a)] =>
    destruct (read_leaves_spec (F := F) nL (leaf h) (fun k => msize h (leaf h k)) hns (alloc (nL + nI)) (alloc (nL + nI)) dp0 (nL + nI) a ltac:(lia) ltac:(lia) (zlen_alloc (nL + nI) ltac:(lia)) (zlen_alloc (nL + nI) ltac:(lia)) Zd0)
      as (lf & Dnr & Dnc & Dp & EL & ZL0 & ZL1 & ZL2 & ZL3 & GL & GL0) end; [now rewrite Ld0|].
  match goal with |- context [read_leaves nL ?x] => match type of EL with read_leaves _ ?y = _ => change x with y end end. rewrite EL. cbn [bind]. clear EL.
  match goal with |- context [read_pairs false nL nI (_, _, _, _, _, s5 ++ ?a)] =>
    destruct (read_pairs_spec (F := F) false nL nI (pair_at (h_inadm h)) (fun k => msize h (dr h (nL + k))) (fun k => msize h (dc h (nL + k))) (fun _ => 0) Dnr Dnc Dp (nL + nI) a ltac:(lia) ltac:(lia) ltac:(lia) ZL1 ZL2 ZL3)
      as (Dnr' & Dnc' & Dp' & EI & ZI1 & ZI2 & ZI3 & GI & GI1 & GI0) end.
  match goal with |- context [read_pairs false nL nI ?x] => match type of EI with read_pairs _ _ _ ?y = _ => change x with y end end. rewrite EI. cbn [bind app]. clear EI.
  assert (Einadm : map (pair_at (h_inadm h)) (zrange 0 nI) = h_inadm h).
  { apply getz_ext; [rewrite zlen_seg; lia|]. intros k Hk. rewrite zlen_seg in Hk by lia. rewrite getz_map, getz_zrange by lia. cbn [option_map]. rewrite Z.add_0_l. unfold pair_at. destruct (getz_in (h_inadm h) k Hk) as [x Ex]. now rewrite Ex. }
  rewrite Einadm. cbn [rdi rde bind].
  set (r := fun k => msize h (dr h k)). set (c := fun k => msize h (dc h k)).
  assert (GD : forall k, 0 <= k < nL + nI -> ld Dnr' k = Some (r k) /\ ld Dnc' k = Some (c k) /\ ld Dp' (k + 1) = Some (r k * c k) /\ 0 <= r k /\ 0 <= c k).
  { intros k Hk. destruct (d_facts h R k Hk) as (_ & _ & F1 & F2 & _). destruct (Z.lt_ge_cases k nL) as [Hl|Hl].
    - destruct (GI1 k Hl) as (Q1 & Q2 & Q3). destruct (GL k ltac:(lia)) as (_ & Q4 & Q5 & Q6). destruct (leaf_d h k ltac:(lia)) as (W1 & W2). unfold r, c in *. rewrite W1, W2 in *. rewrite Q1, Q2, Q3. repeat split; auto; lia.
    - destruct (GI (k - nL) ltac:(lia)) as (Q1 & Q2 & Q3). replace (nL + (k - nL)) with k in * by lia. unfold r, c. repeat split; auto; lia. }
  assert (GBm : forall k, 0 <= k < nB -> ld Bnr k = Some (Bnrow h k) /\ ld Bnc k = Some (Bncol h k) /\ ld Bp (k + 1) = Some (Bnrow h k * Bncol h k) /\ 0 <= Bnrow h k /\ 0 <= Bncol h k).
  { intros k Hk. destruct (GB k Hk) as (Q1 & Q2 & Q3). rewrite Z.add_0_l in *. destruct (adm_facts h R HU k Hk) as (_ & _ & _ & _ & _ & _ & _ & Q4 & Q5 & _). auto. }
  destruct (read_coords_spec bits unbits np dim uc pi Hp Hd Hpi Hsur Hbits s8) as (co & cu & idx & Ec & _ & _ & Zi & Gi & Gco & Gcu). rewrite Ec. cbn [bind]. clear Ec.
  destruct (Z.eqb_spec 1 0) as [?|_]; [lia|]. cbn [negb andb].
  rewrite <- (app_nil_r s8).
  destruct (read_skel_spec np dim uc pi Hd N js co ltac:(lia) Hjs Gco []) as (J & Jc & Ej & ZJ & ZJc & GJ). rewrite Ej. cbn [bind]. clear Ej.
  set (SB := zsumf (fun k => Bnrow h k * Bncol h k) 0).
  assert (SB0 : SB 0 = 0) by (unfold SB; now rewrite zsumf_empty by lia).
  destruct (read_data_spec (Bnrow h) (Bncol h) (Bbin h) Bnr Bnc 0 nB (alloc (SB nB)) (concat (map (Dbin h) (zrange 0 (nL + nI))))) as (Bd & EBd & ZBd & GBd & _).
  { lia. } { intros k Hk. destruct (GBm k Hk) as (? & ? & _). auto. } { intros k Hk. destruct (GBm k Hk) as (_ & _ & _ & Q4 & Q5). do 2 (split; auto). now apply zlen_blockdata. }
  { fold (SB nB). rewrite zlen_alloc; [lia|]. apply zsumf_nonneg. intros k Hk. destruct (GBm k Hk) as (_ & _ & _ & Q4 & Q5). nia. }
  fold (SB nB) in EBd. fold (SB 0) in EBd. rewrite SB0 in EBd. match goal with |- context [read_data 0 nB Bnr Bnc ?x] => match type of EBd with read_data _ _ _ _ ?y = _ => change x with y end end. rewrite EBd. cbn [bind]. clear EBd.
  set (SD := zsumf (fun k => r k * c k) 0).
  assert (SD0 : SD 0 = 0) by (unfold SD; now rewrite zsumf_empty by lia).
  assert (St0 : zsumf (fun k => msize h (leaf h k) * msize h (leaf h k)) 0 nL = SD nL).
  { unfold SD, zsumf. f_equal. apply map_ext_zrange. intros k Hk. unfold r, c. destruct (leaf_d h k Hk) as (-> & ->). reflexivity. }
  assert (St1 : SD nL + zsumf (fun k => r (nL + k) * c (nL + k)) 0 nI = SD (nL + nI)).
  { unfold SD. rewrite (zsumf_split (fun k => r k * c k) 0 nL (nL + nI)) by lia. f_equal. unfold zsumf. f_equal. generalize nI. intros z.
    unfold zrange. rewrite !map_map. replace (nL + z - nL) with (z - 0) by lia. apply map_ext. intros. f_equal; f_equal; lia. }
  rewrite St0. change (zsumf (fun k => msize h (dr h (nL + k)) * msize h (dc h (nL + k))) 0 nI) with (zsumf (fun k => r (nL + k) * c (nL + k)) 0 nI). rewrite St1.
  assert (Ssz : forall k, 0 <= k < nL + nI -> 0 <= r k /\ 0 <= c k /\ zlen (Dbin h k) = r k * c k).
  { intros k Hk. destruct (GD k Hk) as (_ & _ & _ & Q4 & Q5). do 2 (split; auto). now apply zlen_blockdata. }
  assert (Spos : 0 <= SD (nL + nI)) by (apply zsumf_nonneg; intros k Hk; destruct (Ssz k Hk) as (Q4 & Q5 & _); nia).
  rewrite (zrange_app 0 nL (nL + nI)) by lia. rewrite map_app, concat_app.
  assert (SDm : SD nL <= SD (nL + nI)).
  { unfold SD. rewrite (zsumf_split (fun k => r k * c k) 0 nL (nL + nI)) by lia. assert (0 <= zsumf (fun k => r k * c k) nL (nL + nI)); [|lia]. apply zsumf_nonneg. intros k Hk. destruct (Ssz k ltac:(lia)) as (Q4 & Q5 & _). nia. }
  destruct (read_data_spec r c (Dbin h) Dnr' Dnc' 0 nL (alloc (SD (nL + nI))) (concat (map (Dbin h) (zrange nL (nL + nI))))) as (Dd & EDd & ZDd & GDd & _).
  { lia. } { intros k Hk. destruct (GD k ltac:(lia)) as (? & ? & _). auto. } { intros k Hk. apply Ssz. lia. } { fold (SD nL). rewrite zlen_alloc; lia. }
  fold (SD nL) in EDd. fold (SD 0) in EDd. rewrite SD0 in EDd. match goal with |- context [read_data 0 nL Dnr' Dnc' ?x] => match type of EDd with read_data _ _ _ _ ?y = _ => change x with y end end. rewrite EDd. cbn [bind]. clear EDd.
  destruct (read_data_spec r c (Dbin h) Dnr' Dnc' nL (nL + nI) Dd []) as (Dd' & EDd & ZDd' & GDd' & ODd').
  { lia. } { intros k Hk. destruct (GD k ltac:(lia)) as (? & ? & _). auto. } { intros k Hk. apply Ssz. lia. } { fold (SD (nL + nI)). rewrite ZDd, zlen_alloc; lia. }
  rewrite app_nil_r in EDd. fold (SD nL) in EDd. fold (SD (nL + nI)) in EDd. match goal with |- context [read_data nL (nL + nI) Dnr' Dnc' ?x] => match type of EDd with read_data _ _ _ _ ?y = _ => change x with y end end. rewrite EDd. cbn [bind]. clear EDd.
  assert (Hrp : forall k n0 n1, getz (h_adm h) k = Some (n0, n1) -> 0 <= n0 < N /\ 0 <= n1 < N) by (intros k n0 n1 E; destruct (ro_adm _ R k n0 n1 E) as (? & ? & _); auto).
  destruct (read_Bmeta_spec N nth 1 (h_adm h) ordB HN Ht ltac:(lia) Hsa Hrp HoB Bnr Bnc Bp (Bnrow h) (Bncol h) (iv_init (nth * 10 + 5)) [] Hadm (iv_holds_init (nth * 10 + 5) ltac:(lia)) ZB3) as (bm & cnt & vB & EBm & MB & Zcnt & Gcnt & WB).
  { rewrite GB0. now rewrite Lb0. } { exact GBm. }
  fold (SB nB) in EBm. rewrite EBm. cbn [bind]. clear EBm.
  destruct (read_Dmeta_spec N nth 1 (h_inadm h) ordD HN Ht ltac:(lia) Hsi (ro_inadm _ R) HoD nL (leaf h) lf HL1) with (nr := Dnr') (nc := Dnc') (ptr := Dp') (r := r) (c := c) (blk0 := iv_init (nth * 10 + 5)) (bl0 := @nil Z) (blk1 := iv_init (nth * 10 + 5)) (bl1 := @nil Z)
    as (dm & v0 & v1 & EDm & MD & W0 & W1).
  { intros k Hk. destruct (GL k Hk) as (Q & _). split; auto. now apply leaf_at. }
  { intros i j Hi Hj Eij. destruct (leaf_at h R i Hi) as (A1 & _). destruct (leaf_at h R j Hj) as (A2 & _).
    destruct (ct_heights _ _ _ _ _ _ (ro_tree _ R) 0 ltac:(lia)) as (ns & C & _ & Ln' & _ & So). pose proof (ct_nleaf _ _ _ _ _ _ (ro_tree _ R)) as C'. rewrite C' in C. injection C as C.
    pose proof (Ln' i ltac:(lia)) as B1. pose proof (Ln' j ltac:(lia)) as B2. rewrite Z.mul_0_l, Z.add_0_l in *. rewrite A1 in B1. rewrite A2 in B2.
    destruct (Z.lt_trichotomy i j) as [Hlt|[Heq|Hgt]]; auto; exfalso; [pose proof (So i j _ _ ltac:(lia) (eq_sym B1) (eq_sym B2))|pose proof (So j i _ _ ltac:(lia) (eq_sym B2) (eq_sym B1))]; lia. }
  { apply iv_holds_init. lia. } { apply iv_holds_init. lia. } { lia. } { rewrite GI0. auto. } { exact GD. }
  fold (SD nL) in EDm. rewrite EDm. cbn [bind]. clear EDm.
  set (perm := map pi (zrange 0 np)).
  assert (Gp : forall i, 0 <= i < np -> getz perm i = Some (pi i)) by (intros i Hi; unfold perm; rewrite getz_map, getz_zrange by lia; reflexivity).
  assert (Zperm : zlen perm = np) by (apply zlen_seg; lia).
  assert (Hperm : Permutation perm (zrange 0 np)).
  { apply Permutation_sym, NoDup_Permutation_bis; [apply NoDup_zrange| |].
    - apply Nat2Z.inj_le. change (zlen perm <= zlen (zrange 0 np)). rewrite zlen_zrange by lia. lia.
    - intros q Hq. apply In_zrange in Hq. destruct (Hsur q Hq) as (i & Hi & <-). eapply getz_In. apply Gp; auto. }
  destruct (pmt_indices_spec np (h_kdim h) idx perm D2 ltac:(lia) Hperm ltac:(intros i Hi; rewrite Gi, Gp by auto; reflexivity)) as (fw & bw & fl & bl & Ep & Rf & Rb & Zf & Zb & Gf & Gpm).
  rewrite Ep. cbn [bind]. rewrite Rf. cbn [bind]. rewrite Rb. cbn [bind].
  destruct (ro_pmt _ R) as (Zf' & Zb' & Gpm'). rewrite D5, Z.mul_comm in Zf', Zb', Gpm'.
  assert (Efl : fl = h_fwd h).
  { apply getz_ext; [lia|]. intros p Hp'. rewrite !getz_nthz by lia. f_equal. rewrite Gf, Hfwd by lia. do 2 f_equal. apply nthz_eq, Gp. split; [apply Z.div_pos; lia|apply Z.div_lt_upper_bound; nia]. }
  assert (Ebl : bl = h_bwd h).
  { apply getz_ext; [lia|]. intros p Hp'. rewrite !getz_nthz by lia. f_equal. destruct (Gpm p ltac:(lia)) as (_ & Q1 & _ & Q2). destruct (Gpm' p ltac:(lia)) as (_ & Q3 & _ & Q4).
    rewrite Efl in Q2. destruct (Gpm' (nthz bl p) Q1) as (_ & _ & Q5 & _). rewrite Q2 in Q5. auto. }
  eexists. split; [reflexivity|]. constructor; cbn [rf_h rf_bm rf_dm rf_hss rf_root rf_mlp rf_tol rf_coord rf_coord0 rf_idx rf_J rf_Jc rf_jit h_ptdim h_npoint h_kdim h_nthread h_nnode h_maxchild h_nleaf h_maxlevel
    h_minlevel h_kms h_t h_mcl h_U h_adm h_inadm h_nr h_Bnrow h_Bncol h_Bptr h_Bdata h_Dnrow h_Dncol h_Dptr h_Ddata h_Bblk h_D0blk h_D1blk h_fwd h_bwd a_level a_cluster a_nchild a_children a_parent a_level_nodes a_level_n a_height_nodes].
  - repeat split; auto.
  - repeat split; auto.
  - destruct t as [tl tc tm tn tch tp tnl]. cbn in *. rewrite <- Enl. exact Tt.
  - exact Ll.
  - intros k Hk. now apply GL.
  - split; [now rewrite zlen_map|]. intros i Hi. destruct (GU i Hi) as (m & Em & Hm). exists m. rewrite getz_map, Em. auto.
  - auto.
  - auto.
  - auto.
  - auto.
  - split; [rewrite ZBd; apply zlen_alloc; apply zsumf_nonneg; intros k Hk; destruct (GBm k Hk) as (_ & _ & _ & Q4 & Q5); nia|]. intros k i j Hk Hi Hj. rewrite GBd by (auto; nia). now apply getz_blockdata.
  - split; [rewrite ZDd', ZDd; now apply zlen_alloc|]. intros k i j Hk Hi Hj. destruct (Ssz k Hk) as (Q4 & Q5 & _). change (ld Dd' (SD k + (i * c k + j)) = Some (Dval h k i j)). 
    assert (Q6 : 0 <= i * c k + j < r k * c k) by (unfold r, c; nia). 
    destruct (Z.lt_ge_cases k nL) as [Hl|Hl].
    + rewrite ODd'.
      * unfold SD. rewrite GDd by (auto; lia). now apply getz_blockdata.
      * fold (SD nL). assert (SD (k + 1) <= SD nL).
        { unfold SD. rewrite (zsumf_split (fun k => r k * c k) 0 (k + 1) nL) by lia. assert (0 <= zsumf (fun k => r k * c k) (k + 1) nL); [|lia]. apply zsumf_nonneg. intros k' Hk'. destruct (Ssz k' ltac:(lia)) as (Q7 & Q8 & _). nia. }
        unfold SD in *. rewrite zsumf_snoc in * by lia. lia.
    + unfold SD. rewrite GDd' by (auto; lia). now apply getz_blockdata.
  - rewrite Z.mul_1_r in *. auto.
  - auto.
  - auto.
  - auto.
Qed.
End Read.
