(** Storing and reading a handle made by H2P_build. *)
From Coq Require Import ZArith QArith List Lia Bool Permutation Sorted.
From Verif Require Import Base Mem Num CRing Conc Model_Utils Spec_Utils Proof_Utils Model_Dense Spec_Dense Proof_Dense Proof_Dense3 Proof_Bucket Model_Partition Spec_Tree Spec_Partition
  Model_Pairs Spec_Pairs Model_Matvec Spec_Matvec Proof_MvTree Proof_MvTop Model_Build Spec_Build Proof_Build Proof_BuildTop Proof_BuildUse Proof_JitUse Model_Matmul Proof_MmFam Model_UJ Model_FileIO Proof_FileIO Proof_FileRead Proof_FileRead2 Proof_FileRead3 Proof_FileUse
  Spec_FileIO Proof_FileAll Proof_FileBad.
Import ListNotations.
Open Scope Z_scope.

Section Top.
Context {F : num} {K : cring}.
Variable kern : list F -> list F -> Z -> Z -> K.
Variables (fuel : nat) (rnd : Z -> F) (pt_dim xpt_dim kdim n_point n_thread : Z) (coord0 : mem F) (mlp : Z) (mls : F) (rbox : option (mem F)) (alpha : F) (depth : nat)
  (t : tree_result F) (ps : pairs) (U : list (dmat K)) (J : list int_vec) (Jc : list (dmat F)) (js : Z -> list Z) (blkB blkD0 blkD1 : int_vec) (sc : build_sched).
Hypothesis BI : build_inputs fuel rnd pt_dim xpt_dim kdim n_point n_thread coord0 mlp mls rbox alpha depth t ps U J Jc js blkB blkD0 blkD1 sc.
Variables (h : h2rep F K) (bm dm : bmeta).
Hypothesis EB : h2_build kern pt_dim xpt_dim kdim n_point n_thread t ps U J Jc blkB blkD0 blkD1 sc = Some (h, bm, dm).
Variables (bits : F -> Z) (unbits : Z -> F) (e6 : F -> F) (f : sfields F).
Hypothesis Ef : sf_hss f = false /\ sf_xdim f = xpt_dim /\ sf_coord f = r_coord t /\ sf_idx f = r_idx t /\ sf_J f = J.
Hypothesis Hx : xpt_dim <= pt_dim.
Hypothesis HU : forall i V, getz U i = Some V -> 0 <= dm_nrow V /\ (ps_min_level ps <= lev (r_arrays t) i -> dm_ld V = dm_ncol V).
Hypothesis Hjs : forall i p, 0 <= i < r_n_node t -> In p (js i) -> 0 <= p < n_point.
Notation ctx := (ctx_of pt_dim xpt_dim kdim n_point t Jc).

Lemma file_core regenB regenD : exists uc pi part,
  rep_ok h /\ (sf_hss f = false /\ sf_xdim f <= h_ptdim h) /\
  (forall i V, getz (h_U h) i = Some V -> 0 <= dm_nrow V /\ (h_minlevel h <= level h i -> dm_ld V = dm_ncol V)) /\
  (forall i, 0 <= i < h_npoint h -> ld (sf_idx f) i = Some (pi i) /\ 0 <= pi i < h_npoint h) /\
  (forall q, 0 <= q < h_npoint h -> exists i, 0 <= i < h_npoint h /\ pi i = q) /\
  (forall j i, 0 <= j < h_ptdim h -> 0 <= i < h_npoint h -> ld (sf_coord f) (j * h_npoint h + i) = Some (uc (pi i) j)) /\
  (zlen (sf_J f) = h_nnode h /\ forall i v, getz (sf_J f) i = Some v -> iv_holds v (js i)) /\
  (forall i x, 0 <= i < h_nnode h -> In x (js i) -> 0 <= x < h_npoint h) /\
  (h_npoint h = n_point /\ h_ptdim h = pt_dim /\ xpt_dim = pt_dim /\ 2 <= h_nnode h) /\
  (forall q j, 0 <= q < n_point -> 0 <= j < xpt_dim -> ld coord0 (j * n_point + q) = Some (uc q j)) /\
  (simple_pairs (h_adm h) /\ simple_pairs (h_inadm h) /\ 1 <= zlen (h_adm h)) /\
  (forall p, 0 <= p < h_npoint h * h_kdim h -> nthz (h_fwd h) p = pi (p / h_kdim h) * h_kdim h + p mod h_kdim h) /\
  store_to_file bits e6 h f (get_Bij kern ctx bm (h_Bdata h) regenB) (get_Dij kern ctx dm (h_Ddata h) regenD) = Some (Some (text bits h f js uc pi part (e6 (sf_tol f)), binary h)).
Proof.
  destruct (build_all kern _ _ _ _ _ _ _ _ _ _ _ _ _ _ _ _ _ _ _ _ _ _ _ BI) as (h' & bm' & dm' & E' & R & Cv & BK & (E1 & E2 & E3 & E4 & E5 & E6 & E7 & E8 & E9 & E10) & FW & S1 & S2 & Hin & GB & GBn & GD & GL & GDn).
  rewrite EB in E'. injection E' as <- <- <-.
  destruct (bi_facts _ _ _ _ _ _ _ _ _ _ _ _ _ _ _ _ _ _ _ _ _ _ _ BI) as (D & CT & RE & HC & Hmin & Hadm & Hinadm & (Hsim1 & Hsim2) & Hsome & Hine).
  assert (Edim : h_ptdim h = pt_dim).
  { clear - EB. unfold h2_build in EB. binv EB x1. binv EB x2. destruct x2 as [[? ?] ?]. binv EB x3. binv EB x4. destruct x4 as [[? ?] ?]. binv EB x5. binv EB x6. destruct x6. binv EB x7. binv EB x8. injection EB as <- _ _. reflexivity. }
  destruct Ef as (F1 & F2 & F3 & F4 & F5). destruct D as (D1 & D2 & D3 & D4).
  assert (Dx : xpt_dim = pt_dim) by (destruct (bi_points _ _ _ _ _ _ _ _ _ _ _ _ _ _ _ _ _ _ _ _ _ _ _ BI) as ((_ & ?) & _); lia).
  destruct RE as ((perm & Pp & Pi) & RC).
  assert (Zp : zlen perm = n_point) by (unfold zlen; rewrite (Permutation_length Pp); fold (zlen (zrange 0 n_point)); rewrite zlen_zrange; lia).
  set (pi := fun i => nthz perm i). set (uc := fun q j => val alpha (ld coord0 (j * n_point + q))).
  assert (Hidx : forall i, 0 <= i < h_npoint h -> ld (sf_idx f) i = Some (pi i) /\ 0 <= pi i < h_npoint h).
  { rewrite E3, F4. intros i Hi. rewrite Pi by auto. assert (G : getz perm i = Some (pi i)) by (apply getz_nthz; lia). split; auto. apply getz_In in G. rewrite Pp in G. apply In_zrange in G. auto. }
  assert (Huc : forall q j, 0 <= q < n_point -> 0 <= j < xpt_dim -> ld coord0 (j * n_point + q) = Some (uc q j)).
  { intros q j Hq Hj. destruct (HC j q Hj Hq) as (v & E). unfold uc. rewrite E. reflexivity. }
  assert (Hsur : forall q, 0 <= q < h_npoint h -> exists i, 0 <= i < h_npoint h /\ pi i = q).
  { rewrite E3. intros q Hq. assert (Hi : In q perm) by (rewrite Pp; now apply In_zrange). apply In_getz in Hi as (i & Hi). exists i. split; [rewrite <- Zp; eapply getz_range; eauto|]. now apply nthz_eq. }
  assert (Hco : forall j i, 0 <= j < h_ptdim h -> 0 <= i < h_npoint h -> ld (sf_coord f) (j * h_npoint h + i) = Some (uc (pi i) j)).
  { intros j i Hj Hi. destruct (Hidx i Hi) as (G & Rg). rewrite Edim in Hj. rewrite E3 in *. rewrite F3. rewrite (RC i j (pi i)) by (auto; try lia; congruence). apply Huc; lia. }
  assert (HJ : zlen (sf_J f) = h_nnode h /\ forall i v, getz (sf_J f) i = Some v -> iv_holds v (js i)).
  { rewrite F5, E2. destruct (sk_len _ _ _ _ _ _ _ _ _ _ _ _ (bi_skel _ _ _ _ _ _ _ _ _ _ _ _ _ _ _ _ _ _ _ _ _ _ _ BI)) as (_ & ZJ & _). split; auto. apply (sk_J _ _ _ _ _ _ _ _ _ _ _ _ (bi_skel _ _ _ _ _ _ _ _ _ _ _ _ _ _ _ _ _ _ _ _ _ _ _ BI)). }
  assert (Hjs' : forall i x, 0 <= i < h_nnode h -> In x (js i) -> 0 <= x < h_npoint h) by (rewrite E2, E3; auto).
  assert (Hx' : sf_hss f = false /\ sf_xdim f <= h_ptdim h) by (split; auto; lia).
  assert (HU' : forall i V, getz (h_U h) i = Some V -> 0 <= dm_nrow V /\ (h_minlevel h <= level h i -> dm_ld V = dm_ncol V)).
  { rewrite E8, E7. intros i V G. destruct (HU i V G) as (Q1 & Q2). split; auto. intros Hl. apply Q2. unfold level in Hl. rewrite E1 in Hl. exact Hl. }
  assert (V : forall (o : dmat K) tr nr nc g, block_view o tr nr nc g -> 0 <= nr -> 0 <= nc -> 0 <= dm_nrow o /\ 0 <= dm_ncol o) by (intros o tr nr nc g (-> & -> & _) ? ?; auto).
  assert (Hms : forall i, 0 <= i < h_nnode h -> 0 <= msize h i) by (intros i Hi; destruct (cluster_range h R i Hi) as (_ & Q & _); lia).
  destruct (store_spec bits e6 h f (get_Bij kern ctx bm (h_Bdata h) regenB) (get_Dij kern ctx dm (h_Ddata h) regenD) js uc pi R Hx' HU') as (part & ES); auto.
  { intros k a0 a1 out G Ho. destruct (GB k a0 a1 regenB out G Ho) as ((o & G1 & V1) & _). exists o. split; auto. split; auto. pose proof (getz_range _ _ _ G) as Hk. destruct (adm_facts h R HU' k Hk) as (_ & _ & _ & _ & _ & _ & _ & Q1 & Q2 & _).
    eapply (get_block_ok (eval_B kern ctx)); [apply eval_B_zlen|exact Ho|exact G1| |]; apply (V _ _ _ _ _ V1); auto. }
  { intros k a0 a1 out G Ho. destruct (GD k a0 a1 regenD out G Ho) as ((o & G1 & V1) & _). exists o. split; auto. split; auto. destruct (ro_inadm _ R _ _ _ G) as (N0 & N1).
    eapply (get_block_ok (eval_D kern ctx)); [apply eval_D_zlen|exact Ho|exact G1| |]; apply (V _ _ _ _ _ V1); auto. }
  { intros k out Hk Ho. destruct (GL k regenD out Hk Ho) as (o & G1 & V1). exists o. split; auto. split; auto. destruct (leaf_at h R k Hk) as (_ & Rl).
    eapply (get_block_ok (eval_D kern ctx)); [apply eval_D_zlen|exact Ho|exact G1| |]; apply (V _ _ _ _ _ V1); auto. }
  exists uc, pi, part. do 8 (split; [assumption|]).
  assert (H2 : 2 <= h_nnode h).
  { destruct (getz_in (h_adm h) 0 ltac:(rewrite E9; lia)) as [[a0 a1] G]. destruct (ro_adm _ R _ _ _ G) as (Q1 & Q2 & Q3 & _). lia. }
  split; [auto|]. split; [exact Huc|]. split; [rewrite E9, E10; auto|]. split; [|exact ES].
  rewrite E3, E4. intros p Hp. apply FW; auto. assert (0 <= p / kdim < n_point) by (split; [apply Z.div_pos; lia|apply Z.div_lt_upper_bound; lia]). destruct (Hidx (p / kdim)) as (G & _); [lia|]. now rewrite <- F4.
Qed.

Hypothesis Hbits : forall k v, 0 <= k < xpt_dim * n_point -> ld coord0 k = Some v -> 2 ^ 60 <= bits v < 2 ^ 64 /\ unbits (bits v) = v.

Theorem file_spec regenB regenD nth ordB ordD : 1 <= nth -> Permutation ordB (zrange 0 (h_nnode h)) -> Permutation ordD (zrange 0 (h_nnode h)) ->
  exists txt bin jm ja txt' r,
    store_to_file bits e6 h f (get_Bij kern ctx bm (h_Bdata h) regenB) (get_Dij kern ctx dm (h_Ddata h) regenD) = Some (Some (txt, bin)) /\
    txt_to_json unbits txt = Some (jm, ja) /\ json_to_txt bits e6 jm ja = Some txt' /\
    read_from_file_1_12 unbits nth false ordB ordD (concat txt') bin = Some r /\
    restored h f (e6 (e6 (sf_tol f))) r /\ lookups_restored h r /\ read_from_file unbits nth false ordB ordD (concat txt') bin = None /\ h_nthread (rf_h r) = nth /\
    forall sc s x y (xf : Z -> K), schedule_ok (rf_h r) sc -> state_ok (rf_h r) s ->
      (forall j, 0 <= j < h_kms h -> ld x j = Some (xf j)) -> h_kms h <= zlen y ->
      exists s' y', matvec (rf_h r) sc s x y = Some (s', y') /\ state_ok (rf_h r) s' /\ zlen y' = zlen y /\
        (forall i, 0 <= i < h_kms h -> ld y' i = Some (rsum 0 (h_kms h) (fun j => cmul (Hmat h (nthz (h_bwd h) i) (nthz (h_bwd h) j)) (xf j)))) /\
        (forall i, h_kms h <= i -> getz y' i = getz y i).
Proof.
  intros Hn HoB HoD. destruct (file_core regenB regenD) as (uc & pi & part & R & Hx' & HU' & Hidx & Hsur & Hco & HJ & Hjs' & (E3 & Edim & Dx & H2) & Huc & (Hs1 & Hs2 & Hs3) & Hfwd & ES).
  assert (Hb : forall q j, 0 <= q < h_npoint h -> 0 <= j < h_ptdim h -> 2 ^ 60 <= bits (uc q j) < 2 ^ 64 /\ unbits (bits (uc q j)) = uc q j).
  { rewrite E3, Edim. intros q j Hq Hj. apply (Hbits (j * n_point + q)); [nia|]. apply Huc; lia. }
  destruct (read_spec bits unbits e6 h f js uc pi R Hx' HU' ltac:(intros; now apply Hidx) Hsur HJ Hjs' ltac:(intros; now apply Hb) Hs1 Hs2 Hs3 Hfwd nth ordB ordD part (e6 (e6 (sf_tol f))) Hn HoB HoD) as (r & ER & CR).
  exists (text bits h f js uc pi part (e6 (sf_tol f))), (binary h), (Proof_FileIO.jm h f part), (Proof_FileIO.ja h f js uc pi (e6 (sf_tol f))), (text bits h f js uc pi part (e6 (e6 (sf_tol f)))), r.
  split; [exact ES|]. split; [apply to_json; auto|]. split; [apply to_txt; auto|]. split; [exact ER|].
  split; [apply (restored_of h f js uc pi R HU' Hidx Hco HJ Hjs' nth r _ CR)|]. split; [apply (lookups_of h f js uc pi R HU' nth r _ CR)|].
  split; [unfold read_from_file; rewrite ER; cbn [bind]; rewrite (step_13_fails h f js uc pi nth r _ R CR H2); reflexivity|].
  split; [destruct (c_dims _ _ _ _ _ _ _ _ CR) as (_ & _ & _ & Q & _); exact Q|].
  intros sc' s x y xf Hs Hst Hxx Hy. apply (matvec_read h f js uc pi R HU' nth r (e6 (e6 (sf_tol f))) Hn CR sc' s x y xf Hs Hst Hxx Hy).
Qed.

End Top.

Section Zero.
Context {F : num} {K : cring}.
Variable kern : list F -> list F -> Z -> Z -> K.
Theorem store_zero fuel rnd pt_dim xpt_dim kdim n_point n_thread coord0 mlp mls rbox alpha depth t ps U J Jc js blkB blkD0 blkD1 sc h bm dm bits unbits e6 f regenB regenD :
  build_inputs fuel rnd pt_dim xpt_dim kdim n_point n_thread coord0 mlp mls rbox alpha depth t ps U J Jc js blkB blkD0 blkD1 sc ->
  h2_build kern pt_dim xpt_dim kdim n_point n_thread t ps U J Jc blkB blkD0 blkD1 sc = Some (h, bm, dm) ->
  sf_hss f = false /\ sf_xdim f = xpt_dim /\ sf_coord f = r_coord t /\ sf_idx f = r_idx t /\ sf_J f = J -> xpt_dim <= pt_dim ->
  (forall i V, getz U i = Some V -> 0 <= dm_nrow V /\ (ps_min_level ps <= lev (r_arrays t) i -> dm_ld V = dm_ncol V)) ->
  (forall i p, 0 <= i < r_n_node t -> In p (js i) -> 0 <= p < n_point) ->
  (exists k v, 0 <= k < xpt_dim * n_point /\ ld coord0 k = Some v /\ bits v < 2 ^ 60) ->
  exists txt bin, store_to_file bits e6 h f (get_Bij kern (ctx_of pt_dim xpt_dim kdim n_point t Jc) bm (h_Bdata h) regenB) (get_Dij kern (ctx_of pt_dim xpt_dim kdim n_point t Jc) dm (h_Ddata h) regenD) = Some (Some (txt, bin)) /\
    txt_to_json unbits txt = None.
Proof.
  intros BI EB Ef Hx HU Hjs (k & v & Hk & Ek & Hv).
  destruct (file_core kern _ _ _ _ _ _ _ _ _ _ _ _ _ _ _ _ _ _ _ _ _ _ _ BI h bm dm EB bits e6 f Ef Hx HU Hjs regenB regenD) as (uc & pi & part & R & Hx' & HU' & Hidx & Hsur & Hco & HJ & Hjs' & (E3 & Edim & Dx & H2) & Huc & _ & _ & ES).
  exists (text bits h f js uc pi part (e6 (sf_tol f))), (binary h). split; [exact ES|].
  assert (Hp : 0 < n_point) by (destruct (bi_points _ _ _ _ _ _ _ _ _ _ _ _ _ _ _ _ _ _ _ _ _ _ _ BI) as (_ & ? & _); lia).
  pose proof (Z.mod_pos_bound k n_point Hp). assert (0 <= k / n_point < xpt_dim) by (split; [apply Z.div_pos; lia|apply Z.div_lt_upper_bound; lia]).
  assert (Ec : k = k / n_point * n_point + k mod n_point) by (rewrite Z.mul_comm; apply Z.div_mod; lia).
  apply (to_json_fails bits unbits e6 h f js uc pi R Hx' HJ part (e6 (sf_tol f)) (k mod n_point) (k / n_point)); [lia|lia|].
  assert (uc (k mod n_point) (k / n_point) = v); [|congruence]. specialize (Huc (k mod n_point) (k / n_point) ltac:(lia) ltac:(lia)). rewrite <- Ec in Huc. congruence.
Qed.
End Zero.
