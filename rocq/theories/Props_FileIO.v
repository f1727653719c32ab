(** Property C28: store and read.

    The stored handle is one made by H2P_build.  Missing from the full property:
    HSS mode, BD_JIT = 1 when reading, and step 13 of H2P_read_from_file, which
    goes wrong for every stored handle (C28_read_step_13_refuted); coordinates
    must not have a zero as their first hexadecimal digit
    (C28_zero_coordinate_refuted).  The tolerance comes back rounded as by
    printing with "%e" twice. *)
From Coq Require Import ZArith QArith List Lia Bool Permutation.
From Verif Require Import Base Mem Num CRing Conc Model_Utils Spec_Utils Model_Dense Spec_Dense Model_Partition Spec_Tree Spec_Partition
  Model_Pairs Model_Matvec Spec_Matvec Model_Build Spec_Build Model_FileIO Spec_FileIO Proof_FileTop Ex_Matvec Ex_Build.
Import ListNotations.
Open Scope Z_scope.

(** Storing a handle, running the two scripts and reading the result back, on any
    number of threads and in any order of the sorting steps, restores it. *)
Theorem C28_store_then_read_restores_partial :
  forall (F : num) (K : cring) (kern : list F -> list F -> Z -> Z -> K) fuel rnd pt_dim xpt_dim kdim n_point n_thread (coord0 : mem F)
    max_leaf_points max_leaf_size root_enbox alpha depth t ps U J Jc js blkB blkD0 blkD1 sc h bm dm
    (bits : F -> Z) (unbits : Z -> F) (e6 : F -> F) (f : sfields F),
    build_inputs fuel rnd pt_dim xpt_dim kdim n_point n_thread coord0 max_leaf_points max_leaf_size root_enbox alpha depth t ps U J Jc js blkB blkD0 blkD1 sc ->
    h2_build kern pt_dim xpt_dim kdim n_point n_thread t ps U J Jc blkB blkD0 blkD1 sc = Some (h, bm, dm) ->
    (* the handle's other fields *)
    sf_hss f = false /\ sf_xdim f = xpt_dim /\ sf_coord f = r_coord t /\ sf_idx f = r_idx t /\ sf_J f = J ->
    xpt_dim <= pt_dim ->
    (* U is stored row after row without gaps; skeletons are lists of points *)
    (forall i V, getz U i = Some V -> 0 <= dm_nrow V /\ (ps_min_level ps <= lev (r_arrays t) i -> dm_ld V = dm_ncol V)) ->
    (forall i p, 0 <= i < r_n_node t -> In p (js i) -> 0 <= p < n_point) ->
    (* coordinates have 16 hexadecimal digits *)
    (forall k v, 0 <= k < xpt_dim * n_point -> ld coord0 k = Some v -> 2 ^ 60 <= bits v < 2 ^ 64 /\ unbits (bits v) = v) ->
    forall regenB regenD nth ordB ordD, 1 <= nth -> Permutation ordB (zrange 0 (h_nnode h)) -> Permutation ordD (zrange 0 (h_nnode h)) ->
    let getB := get_Bij kern (ctx_of pt_dim xpt_dim kdim n_point t Jc) bm (h_Bdata h) regenB in
    let getD := get_Dij kern (ctx_of pt_dim xpt_dim kdim n_point t Jc) dm (h_Ddata h) regenD in
    exists txt bin jm ja txt' r,
      store_to_file bits e6 h f getB getD = Some (Some (txt, bin)) /\
      txt_to_json unbits txt = Some (jm, ja) /\ json_to_txt bits e6 jm ja = Some txt' /\
      read_from_file_1_12 unbits nth false ordB ordD (concat txt') bin = Some r /\
      restored h f (e6 (e6 (sf_tol f))) r /\ lookups_restored h r /\ h_nthread (rf_h r) = nth /\
      (* H2P_matvec on the read handle: the products of the stored matrix *)
      forall sc s x y (xf : Z -> K), schedule_ok (rf_h r) sc -> state_ok (rf_h r) s ->
        (forall j, 0 <= j < h_kms h -> ld x j = Some (xf j)) -> h_kms h <= zlen y ->
        exists s' y', matvec (rf_h r) sc s x y = Some (s', y') /\ state_ok (rf_h r) s' /\ zlen y' = zlen y /\
          (forall i, 0 <= i < h_kms h -> ld y' i = Some (rsum 0 (h_kms h) (fun j => cmul (Hmat h (nthz (h_bwd h) i) (nthz (h_bwd h) j)) (xf j)))) /\
          (forall i, h_kms h <= i -> getz y' i = getz y i).
Proof.
  intros F K kern fuel rnd pt_dim xpt_dim kdim n_point n_thread coord0 mlp mls rbox alpha depth t ps U J Jc js blkB blkD0 blkD1 sc h bm dm bits unbits e6 f BI EB Ef Hx HU Hjs Hb regenB regenD nth ordB ordD Hn HB HD. cbv zeta.
  destruct (file_spec kern _ _ _ _ _ _ _ _ _ _ _ _ _ _ _ _ _ _ _ _ _ _ _ BI h bm dm EB bits unbits e6 f Ef Hx HU Hjs Hb regenB regenD nth ordB ordD Hn HB HD) as (txt & bin & jm & ja & txt' & r & S1 & S2 & S3 & S4 & S5 & S6 & _ & S7 & S8).
  exists txt, bin, jm, ja, txt', r. do 7 (split; [assumption|]). exact S8.
Qed.
Print Assumptions C28_store_then_read_restores_partial.

(** H2P_read_from_file as a whole: its last step calls H2P_calc_node_inadm_lists,
    which expects one box per node, with the single box of H2P_calc_enclosing_box.
    For every stored handle it reads outside this box. *)
Theorem C28_read_step_13_refuted :
  forall (F : num) (K : cring) (kern : list F -> list F -> Z -> Z -> K) fuel rnd pt_dim xpt_dim kdim n_point n_thread (coord0 : mem F)
    max_leaf_points max_leaf_size root_enbox alpha depth t ps U J Jc js blkB blkD0 blkD1 sc h bm dm
    (bits : F -> Z) (unbits : Z -> F) (e6 : F -> F) (f : sfields F),
    build_inputs fuel rnd pt_dim xpt_dim kdim n_point n_thread coord0 max_leaf_points max_leaf_size root_enbox alpha depth t ps U J Jc js blkB blkD0 blkD1 sc ->
    h2_build kern pt_dim xpt_dim kdim n_point n_thread t ps U J Jc blkB blkD0 blkD1 sc = Some (h, bm, dm) ->
    sf_hss f = false /\ sf_xdim f = xpt_dim /\ sf_coord f = r_coord t /\ sf_idx f = r_idx t /\ sf_J f = J ->
    xpt_dim <= pt_dim ->
    (forall i V, getz U i = Some V -> 0 <= dm_nrow V /\ (ps_min_level ps <= lev (r_arrays t) i -> dm_ld V = dm_ncol V)) ->
    (forall i p, 0 <= i < r_n_node t -> In p (js i) -> 0 <= p < n_point) ->
    (forall k v, 0 <= k < xpt_dim * n_point -> ld coord0 k = Some v -> 2 ^ 60 <= bits v < 2 ^ 64 /\ unbits (bits v) = v) ->
    forall regenB regenD nth ordB ordD, 1 <= nth -> Permutation ordB (zrange 0 (h_nnode h)) -> Permutation ordD (zrange 0 (h_nnode h)) ->
    let getB := get_Bij kern (ctx_of pt_dim xpt_dim kdim n_point t Jc) bm (h_Bdata h) regenB in
    let getD := get_Dij kern (ctx_of pt_dim xpt_dim kdim n_point t Jc) dm (h_Ddata h) regenD in
    exists txt bin jm ja txt',
      store_to_file bits e6 h f getB getD = Some (Some (txt, bin)) /\
      txt_to_json unbits txt = Some (jm, ja) /\ json_to_txt bits e6 jm ja = Some txt' /\
      read_from_file unbits nth false ordB ordD (concat txt') bin = None.
Proof.
  intros F K kern fuel rnd pt_dim xpt_dim kdim n_point n_thread coord0 mlp mls rbox alpha depth t ps U J Jc js blkB blkD0 blkD1 sc h bm dm bits unbits e6 f BI EB Ef Hx HU Hjs Hb regenB regenD nth ordB ordD Hn HB HD. cbv zeta.
  destruct (file_spec kern _ _ _ _ _ _ _ _ _ _ _ _ _ _ _ _ _ _ _ _ _ _ _ BI h bm dm EB bits unbits e6 f Ef Hx HU Hjs Hb regenB regenD nth ordB ordD Hn HB HD) as (txt & bin & jm & ja & txt' & r & S1 & S2 & S3 & S4 & S5 & S6 & S7 & _).
  exists txt, bin, jm, ja, txt'. auto.
Qed.
Print Assumptions C28_read_step_13_refuted.

(** Coordinates are printed in hexadecimal without leading zeros, but the script
    needs sixteen digits: a handle with a coordinate 0 (or any positive number
    below 2^-767) is stored, but cannot be converted. *)
Theorem C28_zero_coordinate_refuted :
  forall (F : num) (K : cring) (kern : list F -> list F -> Z -> Z -> K) fuel rnd pt_dim xpt_dim kdim n_point n_thread (coord0 : mem F)
    max_leaf_points max_leaf_size root_enbox alpha depth t ps U J Jc js blkB blkD0 blkD1 sc h bm dm
    (bits : F -> Z) (unbits : Z -> F) (e6 : F -> F) (f : sfields F) regenB regenD,
    build_inputs fuel rnd pt_dim xpt_dim kdim n_point n_thread coord0 max_leaf_points max_leaf_size root_enbox alpha depth t ps U J Jc js blkB blkD0 blkD1 sc ->
    h2_build kern pt_dim xpt_dim kdim n_point n_thread t ps U J Jc blkB blkD0 blkD1 sc = Some (h, bm, dm) ->
    sf_hss f = false /\ sf_xdim f = xpt_dim /\ sf_coord f = r_coord t /\ sf_idx f = r_idx t /\ sf_J f = J ->
    xpt_dim <= pt_dim ->
    (forall i V, getz U i = Some V -> 0 <= dm_nrow V /\ (ps_min_level ps <= lev (r_arrays t) i -> dm_ld V = dm_ncol V)) ->
    (forall i p, 0 <= i < r_n_node t -> In p (js i) -> 0 <= p < n_point) ->
    (exists k v, 0 <= k < xpt_dim * n_point /\ ld coord0 k = Some v /\ bits v < 2 ^ 60) ->
    exists txt bin, store_to_file bits e6 h f (get_Bij kern (ctx_of pt_dim xpt_dim kdim n_point t Jc) bm (h_Bdata h) regenB) (get_Dij kern (ctx_of pt_dim xpt_dim kdim n_point t Jc) dm (h_Ddata h) regenD) = Some (Some (txt, bin)) /\
      txt_to_json unbits txt = None.
Proof. intros; eapply store_zero; eassumption. Qed.
Print Assumptions C28_zero_coordinate_refuted.

(** A point set of higher storage dimension than the tree is refused. *)
Theorem C28_extended_points_refused :
  forall (F : num) (K : cring) (bits : F -> Z) (e6 : F -> F) (h : h2rep F K) (f : sfields F) getB getD,
    h_ptdim h < sf_xdim f -> store_to_file bits e6 h f getB getD = Some None.
Proof. intros F K bits e6 h f getB getD H. unfold store_to_file. destruct (Z.ltb_spec (h_ptdim h) (sf_xdim f)); [reflexivity|lia]. Qed.
Print Assumptions C28_extended_points_refused.

(** ** Non-vacuity: the handle of Ex_Build.v, with a 64-bit code for its coordinates *)
Definition bits5 (q : Qred_num) : Z := 2 ^ 60 + 2 ^ 20 * (QArith_base.Qnum q + 100) + Z.pos (QArith_base.Qden q).
Definition unbits5 (z : Z) : Qred_num := Qmake ((z - 2 ^ 60) / 2 ^ 20 - 100) (Z.to_pos ((z - 2 ^ 60) mod 2 ^ 20)).
Definition f5 : sfields Qred_num := SF false 1 8 1 ((1#1000000)%Q : Qred_num) (r_coord tree5b) (r_idx tree5b) J5.
Lemma file5_fields : sf_hss f5 = false /\ sf_xdim f5 = 1 /\ sf_coord f5 = r_coord tree5b /\ sf_idx f5 = r_idx tree5b /\ sf_J f5 = J5.
Proof. repeat split. Qed.
Lemma file5_U : forall i V, getz U5 i = Some V -> 0 <= dm_nrow V /\ (ps_min_level ps5 <= lev (r_arrays tree5b) i -> dm_ld V = dm_ncol V).
Proof.
  assert (A : forallb (fun V => (0 <=? dm_nrow V) && (dm_ld V =? dm_ncol V)) U5 = true) by (vm_compute; reflexivity).
  intros i V G. rewrite forallb_forall in A. specialize (A V (getz_In _ _ _ G)). apply andb_true_iff in A as (A1 & A2). apply Z.leb_le in A1. apply Z.eqb_eq in A2. auto.
Qed.
Lemma file5_js : forall i p, 0 <= i < r_n_node tree5b -> In p (js5 i) -> 0 <= p < 5.
Proof.
  assert (A : forallb (fun i => forallb (fun p => (0 <=? p) && (p <? 5)) (js5 i)) (zrange 0 9) = true) by (vm_compute; reflexivity).
  intros i p Hi Hp. rewrite forallb_forall in A. change (r_n_node tree5b) with 9 in Hi. specialize (A i (proj2 (In_zrange 0 9 i) Hi)). rewrite forallb_forall in A. specialize (A p Hp). apply andb_true_iff in A as (A1 & A2). apply Z.leb_le in A1. apply Z.ltb_lt in A2. auto.
Qed.
Lemma file5_bits : forall k v, 0 <= k < 1 * 5 -> ld pts5b k = Some v -> 2 ^ 60 <= bits5 v < 2 ^ 64 /\ unbits5 (bits5 v) = v.
Proof.
  intros k v Hk E. assert (C : k = 0 \/ k = 1 \/ k = 2 \/ k = 3 \/ k = 4) by lia.
  destruct C as [->|[->|[->|[->| ->]]]]; cbn in E; injection E as <-; (split; [split; vm_compute; congruence|vm_compute; reflexivity]).
Qed.
Example C28_example : exists txt bin jm ja txt' r,
  store_to_file bits5 (fun x => x) h5 f5 (get_Bij kern5 (ctx_of 1 1 2 5 tree5b Jc5) (snd (fst built5)) (h_Bdata h5) false) (get_Dij kern5 (ctx_of 1 1 2 5 tree5b Jc5) (snd built5) (h_Ddata h5) false) = Some (Some (txt, bin)) /\
  txt_to_json unbits5 txt = Some (jm, ja) /\ json_to_txt bits5 (fun x => x) jm ja = Some txt' /\
  read_from_file_1_12 unbits5 3 false (zrange 0 9) (zrange 0 9) (concat txt') bin = Some r /\ restored h5 f5 (sf_tol f5) r.
Proof.
  destruct (C28_store_then_read_restores_partial Qred_num Zring kern5 _ _ 1 1 2 5 2 pts5b _ _ _ _ _ _ _ _ _ _ _ _ _ _ _ h5 (snd (fst built5)) (snd built5) bits5 unbits5 (fun x => x) f5 inputs5 built5_eq file5_fields ltac:(lia) file5_U file5_js file5_bits
    false false 3 (zrange 0 9) (zrange 0 9) ltac:(lia) (Permutation_refl _) (Permutation_refl _)) as (txt & bin & jm & ja & txt' & r & S1 & S2 & S3 & S4 & S5 & _).
  exists txt, bin, jm, ja, txt', r. auto.
Qed.
(** ... and with the code of 0 being 0. *)
Example C28_example_zero : exists txt bin,
  store_to_file (fun q : Qred_num => if Qeq_bool q 0 then 0 else bits5 q) (fun x => x) h5 f5 (get_Bij kern5 (ctx_of 1 1 2 5 tree5b Jc5) (snd (fst built5)) (h_Bdata h5) false) (get_Dij kern5 (ctx_of 1 1 2 5 tree5b Jc5) (snd built5) (h_Ddata h5) false) = Some (Some (txt, bin)) /\
  txt_to_json unbits5 txt = None.
Proof.
  eapply (C28_zero_coordinate_refuted Qred_num Zring kern5 _ _ 1 1 2 5 2 pts5b); [exact inputs5|exact built5_eq|exact file5_fields|lia|exact file5_U|exact file5_js|].
  exists 1, (0%Q : Qred_num). split; [lia|]. split; [reflexivity|]. vm_compute. reflexivity.
Qed.
