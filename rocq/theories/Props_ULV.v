(** Properties C46 to C51: HSS ULV factorisation and solve. *)
From Coq Require Import ZArith QArith List Lia Bool Permutation Reals Lra.
From Verif Require Import Base Mem Num CRing FNum Conc Model_Utils Spec_Utils Model_Dense Spec_Dense Model_Partition Spec_Tree Spec_Partition Model_Pairs Spec_Pairs Model_Matvec Spec_Matvec Model_Build Spec_Build
  Spec_Lapack Spec_SPD Model_ULV Spec_ULV Proof_Build Proof_BuildUse Proof_ULVAsm Proof_ULVNode Proof_ULVFact Proof_ULVVec Proof_ULVMain Proof_ULVSPD Proof_ULVFail Proof_ULVUse Proof_Lapack Props_Pairs Ex_Matvec Ex_Build Ex_ULV.
Import ListNotations.
Open Scope Z_scope.

(** The thread buffers: one per thread; vectors and matrices whose capacity is
    the size of their storage, whatever they hold. *)
Definition work_bufs {F : num} {K : cring} (h : h2rep F K) (tb : list (@ubuf K)) : Prop := zlen tb = h_nthread h /\
  Forall (fun b => (iv_cap (ub_idx b) = zlen (iv_data (ub_idx b)) /\ 0 <= iv_len (ub_idx b) <= iv_cap (ub_idx b)) /\ dm_ok (ub_m0 b) /\ dm_ok (ub_m1 b) /\ dm_ok (ub_m2 b)) tb.
Definition work_mats {F : num} {K : cring} (h : h2rep F K) (m0s : list (dmat K)) : Prop := zlen m0s = h_nthread h /\ Forall dm_ok m0s.

(** After a factorisation [u], the full solve, for every right-hand side, writes
    to the first N entries of x, and only there, an x with (H + shift I) x = b. *)
Definition solves_system {F : num} {K : cring} (la : lapack K) (chol : bool) (h : h2rep F K) (shift : K) (u : @ulv K) : Prop :=
  forall su sd (px : mem K) m0s (b x : mem K) (bv : Z -> K), sweep_ok h su -> sweep_ok h sd -> zlen px = h_kms h -> work_mats h m0s ->
    (forall i, 0 <= i < h_kms h -> ld b i = Some (bv i)) -> h_kms h <= zlen x ->
  exists px' m0s' x' xv, ulv_solve la chol h true (Some u) 3 su sd px m0s b x = Some (px', m0s', x') /\ zlen px' = h_kms h /\ work_mats h m0s' /\
    zlen x' = zlen x /\ (forall i, 0 <= i < h_kms h -> ld x' i = Some (xv i)) /\ (forall i, h_kms h <= i -> getz x' i = getz x i) /\
    forall i, 0 <= i < h_kms h -> rsum 0 (h_kms h) (fun j => cmul (Suser h shift i j) (xv j)) = bv i.

(** ** C46: LU.  For every HSS representation and every schedule the factorisation
    runs without an invalid access; if it sets the flag, every solve solves. *)
Theorem C46_ULV_LU_factorise_and_solve :
  forall (F : num) (K : cring) (la : lapack K) (h : h2rep F K) getB getD (shift : K) sched tb,
    lapack_ok la -> rep_ok h -> hss_ok h -> gets_ok h getB getD -> sweep_ok h sched -> work_bufs h tb ->
    exists u, ulv_factorize la false h getB getD shift sched tb = Some u /\ (u_ok u = true -> solves_system la false h shift u).
Proof.
  intros F K la h getB getD shift sched tb LA R HS HG Hs [Zt Ht].
  destruct (factorize_spec h R la LA HS getB getD HG false ltac:(discriminate) shift sched tb Hs Zt Ht) as (u & E & _ & HI).
  exists u. split; auto. intros Ho. destruct (HI Ho) as (nf & pos & INV). intros su sd px m0s b x bv Hu Hd Zp Hm Hb Zx. now apply (solve_ok la LA h R HS false shift u nf pos INV).
Qed.
Print Assumptions C46_ULV_LU_factorise_and_solve.

(** ** C47: Cholesky, when the diagonal blocks are symmetric. *)
Theorem C47_ULV_Cholesky_factorise_and_solve :
  forall (F : num) (K : cring) (la : lapack K) (h : h2rep F K) getB getD (shift : K) sched tb,
    lapack_ok la -> rep_ok h -> hss_ok h -> gets_ok h getB getD -> diag_sym h -> sweep_ok h sched -> work_bufs h tb ->
    exists u, ulv_factorize la true h getB getD shift sched tb = Some u /\ (u_ok u = true -> solves_system la true h shift u).
Proof.
  intros F K la h getB getD shift sched tb LA R HS HG HD Hs [Zt Ht].
  destruct (factorize_spec h R la LA HS getB getD HG true (fun _ => HD) shift sched tb Hs Zt Ht) as (u & E & _ & HI).
  exists u. split; auto. intros Ho. destruct (HI Ho) as (nf & pos & INV). intros su sd px m0s b x bv Hu Hd Zp Hm Hb Zx. now apply (solve_ok la LA h R HS true shift u nf pos INV).
Qed.
Print Assumptions C47_ULV_Cholesky_factorise_and_solve.

(** ** C48: the flag, over the reals.  Both factorisations set it when H + shift I
    is positive definite; the Cholesky factorisation only then. *)
Theorem C48_ULV_succeeds_on_positive_definite :
  forall (F : num) (la : lapack Rring) (h : h2rep F Rring) getB getD (shift : R) (chol : bool) sched tb,
    lapack_ok la -> lapack_exact la -> rep_ok h -> hss_ok h -> gets_ok h getB getD -> (chol = true -> diag_sym h) -> sweep_ok h sched -> work_bufs h tb ->
    pos_def (h_kms h) (Suser h shift) ->
    exists u, ulv_factorize la chol h getB getD shift sched tb = Some u /\ u_ok u = true.
Proof. intros F la h getB getD shift chol sched tb LA LE R HS HG HD Hs [Zt Ht] PD. now apply (spd_flag la LA LE h R HS chol shift getB getD HG HD sched tb). Qed.
Print Assumptions C48_ULV_succeeds_on_positive_definite.

Theorem C48_ULV_Cholesky_flag_means_positive_definite :
  forall (F : num) (la : lapack Rring) (h : h2rep F Rring) getB getD (shift : R) sched tb u,
    lapack_ok la -> rep_ok h -> hss_ok h -> gets_ok h getB getD -> diag_sym h -> sweep_ok h sched -> work_bufs h tb ->
    ulv_factorize la true h getB getD shift sched tb = Some u -> u_ok u = true -> pos_def (h_kms h) (Suser h shift).
Proof.
  intros F la h getB getD shift sched tb u LA R HS HG HD Hs [Zt Ht] E Ho.
  destruct (factorize_spec h R la LA HS getB getD HG true (fun _ => HD) shift sched tb Hs Zt Ht) as (u' & E' & _ & HI).
  assert (u' = u) by congruence. subst u'. destruct (HI Ho) as (nf & pos & INV). exact (chol_flag_spd la LA h R HS true shift u nf pos eq_refl INV).
Qed.
Print Assumptions C48_ULV_Cholesky_flag_means_positive_definite.

(** ** C49: the two half solves (op = 1, then op = 2 on its result) give exactly
    what the full solve (op = 3) gives. *)
Theorem C49_ULV_half_solves_compose :
  forall (F : num) (K : cring) (la : lapack K) (h : h2rep F K) getB getD (shift : K) (chol : bool) sched tb u,
    lapack_ok la -> rep_ok h -> hss_ok h -> gets_ok h getB getD -> (chol = true -> diag_sym h) -> sweep_ok h sched -> work_bufs h tb ->
    ulv_factorize la chol h getB getD shift sched tb = Some u -> u_ok u = true ->
    forall su sd (px : mem K) m0s (b x y : mem K) (bv : Z -> K), sweep_ok h su -> sweep_ok h sd -> zlen px = h_kms h -> work_mats h m0s ->
      (forall i, 0 <= i < h_kms h -> ld b i = Some (bv i)) -> h_kms h <= zlen x -> h_kms h <= zlen y ->
    exists p1 m1 y1 p2 m2 x', ulv_solve la chol h true (Some u) 1 su sd px m0s b y = Some (p1, m1, y1) /\
      ulv_solve la chol h true (Some u) 2 su sd p1 m1 y1 x = Some (p2, m2, x') /\
      ulv_solve la chol h true (Some u) 3 su sd px m0s b x = Some (p2, m2, x').
Proof.
  intros F K la h getB getD shift chol sched tb u LA R HS HG HD Hs [Zt Ht] E Ho su sd px m0s b x y bv Hu Hd Zp Hm Hb Zx Zy.
  destruct (factorize_spec h R la LA HS getB getD HG chol HD shift sched tb Hs Zt Ht) as (u' & E' & _ & HI).
  assert (u' = u) by congruence. subst u'. destruct (HI Ho) as (nf & pos & INV). now apply (solve_halves la LA h R HS chol shift u nf pos INV su sd px m0s b bv x y).
Qed.
Print Assumptions C49_ULV_half_solves_compose.

(** ** C50: a solve after a failed factorisation.  It ought to be refused like the
    other invalid calls; it always dereferences NULL. *)
Theorem C50_solve_after_failed_factorisation_refuted :
  forall (F : num) (K : cring) (la : lapack K) (h : h2rep F K) getB getD (shift : K) (chol : bool) sched tb u,
    rep_ok h -> sweep_ok h sched -> ulv_factorize la chol h getB getD shift sched tb = Some u -> u_ok u = false ->
    forall op su sd px m0s b x, sweep_ok h su -> sweep_ok h sd -> 1 <= op <= 3 ->
      ulv_solve la chol h true (Some u) op su sd px m0s b x = None.
Proof.
  intros F K la h getB getD shift chol sched tb u R Hs E Hf op su sd px m0s b x Hu Hd Hop.
  pose proof (failed_root la h R chol getB getD shift sched tb u Hs E Hf) as Hn. now apply (solve_dead la h R).
Qed.
Print Assumptions C50_solve_after_failed_factorisation_refuted.
(** The calls that are refused leave x alone: not HSS, no factorisation, op not 1, 2, 3. *)
Theorem C50_refused_calls :
  forall (F : num) (K : cring) (la : lapack K) (h : h2rep F K) (chol is_hss : bool) u op su sd px m0s b x,
    is_hss = false \/ u = None \/ op < 1 \/ 3 < op -> ulv_solve la chol h is_hss u op su sd px m0s b x = Some (px, m0s, x).
Proof.
  intros F K la h chol is_hss u op su sd px m0s b x H. unfold ulv_solve. destruct is_hss; cbn [negb]; auto. destruct u as [u|]; auto.
  destruct H as [H|[H|[H|H]]]; try discriminate H.
  - destruct (Z.ltb_spec op 1); [reflexivity|lia].
  - destruct (Z.ltb_spec 3 op); [rewrite orb_true_r; reflexivity|lia].
Qed.
Print Assumptions C50_refused_calls.

(** ** C51: from the points to the solution.  An HSS matrix that H2P_build returns,
    with blocks looked up in it (stored or recomputed); a symmetric kernel and
    bases that interpolate exactly: if the factorisation sets its flag, the solve
    returns the solution of (kernel matrix of the user's points + shift I) x = b. *)
Theorem C51_build_factorise_solve :
  forall (F : num) (K : cring) (la : lapack K) (kern : list F -> list F -> Z -> Z -> K) fuel rnd pt_dim xpt_dim kdim n_point n_thread (coord0 : mem F)
    max_leaf_points max_leaf_size root_enbox alpha depth t ps U J Jc js blkB blkD0 blkD1 sc h bm dm,
    let KM := kernel_matrix kern kdim (coords_of xpt_dim n_point coord0) in
    let N := kdim * n_point in
    let ctx := ctx_of pt_dim xpt_dim kdim n_point t Jc in
    build_inputs fuel rnd pt_dim xpt_dim kdim n_point n_thread coord0 max_leaf_points max_leaf_size root_enbox alpha depth t ps U J Jc js blkB blkD0 blkD1 sc ->
    h2_build kern pt_dim xpt_dim kdim n_point n_thread t ps U J Jc blkB blkD0 blkD1 sc = Some (h, bm, dm) ->
    (forall p q a b, kern p q a b = kern q p b a) -> interpolates h js KM -> hss_ok h -> lapack_ok la ->
    forall regenB regenD (shift : K) (chol : bool) sched tb, sweep_ok h sched -> work_bufs h tb ->
    exists u, ulv_factorize la chol h (get_Bij kern ctx bm (h_Bdata h) regenB) (get_Dij kern ctx dm (h_Ddata h) regenD) shift sched tb = Some u /\
      (u_ok u = true -> forall su sd (px : mem K) m0s (b x : mem K) (bv : Z -> K), sweep_ok h su -> sweep_ok h sd -> zlen px = N -> work_mats h m0s ->
        (forall i, 0 <= i < N -> ld b i = Some (bv i)) -> N <= zlen x ->
        exists px' m0s' x' xv, ulv_solve la chol h true (Some u) 3 su sd px m0s b x = Some (px', m0s', x') /\
          (forall i, 0 <= i < N -> ld x' i = Some (xv i)) /\
          forall i, 0 <= i < N -> rsum 0 N (fun j => cmul (cadd (KM i j) (cmul shift (delta i j))) (xv j)) = bv i).
Proof.
  intros F K la kern fuel rnd pt_dim xpt_dim kdim n_point n_thread coord0 mlp mls rbox alpha depth t ps U J Jc js blkB blkD0 blkD1 sc h bm dm KM N ctx BI E Sym HI HS LA regenB regenD shift chol sched tb Hs Hb.
  destruct (Proof_MmUse.build_rows kern _ _ _ _ _ _ _ _ _ _ _ _ _ _ _ _ _ _ _ _ _ _ _ BI _ _ _ E) as (R & _).
  pose proof (build_gets_ok kern _ _ _ _ _ _ _ _ _ _ _ _ _ _ _ _ _ _ _ _ _ _ _ BI _ _ _ E regenB regenD) as HG. fold ctx in HG.
  pose proof (build_diag_sym kern _ _ _ _ _ _ _ _ _ _ _ _ _ _ _ _ _ _ _ _ _ _ _ BI _ _ _ E Sym) as HD.
  destruct (build_Suser kern _ _ _ _ _ _ _ _ _ _ _ _ _ _ _ _ _ _ _ _ _ _ _ BI _ _ _ E shift Sym HI) as (EN & ES). fold KM in ES. fold N in EN.
  assert (X : exists u, ulv_factorize la chol h (get_Bij kern ctx bm (h_Bdata h) regenB) (get_Dij kern ctx dm (h_Ddata h) regenD) shift sched tb = Some u /\ (u_ok u = true -> solves_system la chol h shift u)).
  { destruct chol; [now apply C47_ULV_Cholesky_factorise_and_solve|now apply C46_ULV_LU_factorise_and_solve]. }
  destruct X as (u & Eu & So). exists u. split; auto. intros Ho su sd px m0s b x bv Hu Hd Zp Hm Hbv Zx. rewrite <- EN in *.
  destruct (So Ho su sd px m0s b x bv Hu Hd Zp Hm Hbv Zx) as (px' & m0s' & x' & xv & E1 & _ & _ & _ & E2 & _ & E3).
  exists px', m0s', x', xv. split; auto. split; auto. intros i Hi. rewrite <- (E3 i Hi). apply rsum_ext. intros j Hj. rewrite ES by auto. reflexivity.
Qed.
Print Assumptions C51_build_factorise_solve.

(** ** The hypotheses can be met: a matrix over the reals built from five points, with
    the textbook QR, LU and Cholesky algorithms as LAPACK.  With shift 1 both
    factorisations set the flag, with shift -1 the Cholesky factorisation does
    not. *)
Definition ctxR := ctx_of 1 1 1 5 tree5b Jc5h.
Definition getBR := get_Bij (K := Rring) kern5h ctxR (bm5h) (h_Bdata hR) false.
Definition getDR := get_Dij (K := Rring) kern5h ctxR (dm5h) (h_Ddata hR) false.
Definition tbR : list (@ubuf Rring) := let b := UBuf (iv_init 0) (dm_init 0 0) (dm_init 0 0) (dm_init 0 0) in [b; b].
Lemma repR : rep_ok hR /\ hss_ok hR /\ gets_ok hR getBR getDR /\ diag_sym hR /\ sweep_ok hR lev5h /\ work_bufs hR tbR.
Proof.
  pose proof (inputs5h (K := Rring) IZR) as BI. pose proof (built5h_eq (K := Rring) IZR kern5h) as E.
  split; [exact (proj1 (Proof_MmUse.build_rows kern5h _ _ _ _ _ _ _ _ _ _ _ _ _ _ _ _ _ _ _ _ _ _ _ BI _ _ _ E))|]. split; [apply hss5h|].
  split; [exact (build_gets_ok kern5h _ _ _ _ _ _ _ _ _ _ _ _ _ _ _ _ _ _ _ _ _ _ _ BI _ _ _ E false false)|].
  split; [exact (build_diag_sym kern5h _ _ _ _ _ _ _ _ _ _ _ _ _ _ _ _ _ _ _ _ _ _ _ BI _ _ _ E kern5h_sym)|].
  split; [apply lev5h_ok|]. split; [reflexivity|].
  assert (B : forall b, In b tbR -> b = UBuf (iv_init 0) (dm_init 0 0) (dm_init 0 0) (dm_init 0 0)) by (intros b [<-|[<-|[]]]; reflexivity).
  apply Forall_forall. intros b Hb. rewrite (B b Hb). cbn [ub_idx ub_m0 ub_m1 ub_m2]. split; [cbv; intuition discriminate|]. split; [|split]; cbv; intuition discriminate.
Qed.
Lemma SuserR c i j : 0 <= i < 5 -> 0 <= j < 5 -> Suser hR c i j = (s5 i * s5 j + c * @delta Rring i j)%R.
Proof.
  intros Hi Hj. destruct (build_Suser kern5h _ _ _ _ _ _ _ _ _ _ _ _ _ _ _ _ _ _ _ _ _ _ _ (inputs5h (K := Rring) IZR) _ _ _ (built5h_eq (K := Rring) IZR kern5h) c kern5h_sym interp5h) as (_ & ES).
  refine (eq_trans (ES i j Hi Hj) _). change (KM5h i j + c * @delta Rring i j = s5 i * s5 j + c * @delta Rring i j)%R. now rewrite KM5h_eq.
Qed.
Lemma spdR : pos_def 5 (Suser hR 1%R).
Proof. intros y Hy. rewrite (quad5 _ 1%R); [|intros; apply SuserR; auto]. pose proof (sq5_pos y Hy). pose proof (Rle_0_sqr (sy5 y)). unfold Rsqr in *. lra. Qed.
Lemma not_spdR : ~ pos_def 5 (Suser hR (-1)%R).
Proof.
  intros H. pose (y := fun i : Z => if i =? 0 then 1%R else if i =? 1 then 1%R else 0%R).
  assert (Ny : notzero 5 y) by (exists 0; split; [lia|]; change (1 <> 0)%R; lra). specialize (H y Ny). rewrite (quad5 _ (-1)%R) in H; [|intros; apply SuserR; auto].
  revert H. unfold sy5, sq5, y, s5. cbv -[IZR Rplus Rmult Rlt]. lra.
Qed.
Example C46_C51_example : forall chol : bool, exists u, ulv_factorize Rlapack chol hR getBR getDR 1%R lev5h tbR = Some u /\ u_ok u = true /\ solves_system Rlapack chol hR 1%R u.
Proof.
  intros chol. destruct repR as (R & HS & HG & HD & Hs & Hb).
  destruct (C48_ULV_succeeds_on_positive_definite _ Rlapack hR getBR getDR 1%R chol lev5h tbR Rlapack_ok Rlapack_exact R HS HG (fun _ => HD) Hs Hb spdR) as (u & E & Ho).
  exists u. split; auto. split; auto. destruct chol.
  - destruct (C47_ULV_Cholesky_factorise_and_solve _ _ Rlapack hR getBR getDR 1%R lev5h tbR Rlapack_ok R HS HG HD Hs Hb) as (u' & E' & So). assert (u' = u) by congruence. subst. auto.
  - destruct (C46_ULV_LU_factorise_and_solve _ _ Rlapack hR getBR getDR 1%R lev5h tbR Rlapack_ok R HS HG Hs Hb) as (u' & E' & So). assert (u' = u) by congruence. subst. auto.
Qed.
Example C50_example : exists u, ulv_factorize Rlapack true hR getBR getDR (-1)%R lev5h tbR = Some u /\ u_ok u = false.
Proof.
  destruct repR as (R & HS & HG & HD & Hs & Hb). destruct (C47_ULV_Cholesky_factorise_and_solve _ _ Rlapack hR getBR getDR (-1)%R lev5h tbR Rlapack_ok R HS HG HD Hs Hb) as (u & E & _).
  exists u. split; auto. destruct (u_ok u) eqn:Ho; auto. exfalso. apply not_spdR. exact (C48_ULV_Cholesky_flag_means_positive_definite _ Rlapack hR getBR getDR (-1)%R lev5h tbR u Rlapack_ok R HS HG HD Hs Hb E Ho).
Qed.
