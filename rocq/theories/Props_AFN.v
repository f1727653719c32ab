(** AFN preconditioner: the claims C55-C57. *)
From Coq Require Import ZArith QArith Reals List Lia Lra Bool Permutation.
From Verif Require Import Base Mem Num CRing FNum Spec_Lapack Proof_Lapack Spec_SPD Model_FSAI Spec_FSAI Proof_FSAIKnn Proof_FSAIReal Model_AFN Spec_AFN Proof_FPS Proof_FPSPerm Proof_FPSBad Proof_AFNTop Ex_AFN.
Import ListNotations.
Open Scope Z_scope.

(** C55.  For distinct points, a symmetric kernel with K(X, X) + mu I positive
    definite and an estimated rank of at least max_k < n, the construction
    succeeds for any number of threads (at most n) and any order of its parallel
    regions; applying the preconditioner is then multiplication by a fixed
    symmetric positive definite matrix M, with x and y in the user's order,
    whatever y and the work arrays contain. *)
Theorem C55_afn_spd_operator {F : num} (kern : list F -> list F -> Z -> Z -> Rring) la (big : F) n dim (coord : mem F) X (mu : Rring) nt max_k m est_rank nys o :
  lapack_ok la -> lapack_exact la -> total_lt (nlt (n := F)) -> 0 <= dim -> coords_at coord 0 n n dim X -> kernel_symmetric kern n dim X ->
  pos_def n (shifted_kernel kern dim X mu) -> distinct_points big n dim X ->
  1 <= nt <= n -> 1 <= max_k < n -> max_k <= est_rank -> 1 <= m -> afn_orders nt max_k (n - max_k) o ->
  exists a M, AFN_precond_build kern la Rrsq big nt n dim coord mu max_k m est_rank nys o = Some a /\
    (forall i j, 0 <= i < n -> 0 <= j < n -> M i j = M j i) /\ pos_def n M /\
    forall (x y px py t1 t2 : mem Rring) xv, (forall j, 0 <= j < n -> ld x j = Some (xv j)) -> n <= zlen y ->
      zlen px = n -> zlen py = n -> zlen t1 = n -> zlen t2 = n ->
      exists y' px' py' t1' t2', AFN_precond_apply a x y px py t1 t2 = Some (y', (px', py', t1', t2')) /\
        zlen px' = n /\ zlen py' = n /\ zlen t1' = n /\ zlen t2' = n /\
        (forall i, 0 <= i < n -> ld y' i = Some (@rsum Rring 0 n (fun j => M i j * xv j)%R)) /\ forall c, ~ 0 <= c < n -> ld y' c = ld y c.
Proof.
  intros LA LE HT Hd HX Hs PD Hdi Hnt Hk He Hm Ho.
  destruct (AFN_spec kern la LA LE big HT n dim coord X Hd HX mu Hs PD Hdi nt max_k m est_rank nys o Hnt Hk He Hm Ho) as (a & M & E & _ & Ha & H1 & H2 & _).
  exists a, M. split; [exact E|]. split; [exact H1|]. split; [exact H2|]. intros x y px py t1 t2 xv Hx Hy Z1 Z2 Z3 Z4.
  destruct (Ha x y px py t1 t2 xv Hx Hy Z1 Z2 Z3 Z4) as (y' & p1 & p2 & p3 & p4 & Q & W1 & W2 & W3 & W4 & _ & W5 & W6). exists y', p1, p2, p3, p4. split; [exact Q|]. auto 10.
Qed.
Print Assumptions C55_afn_spd_operator.

(** C56.  When the FSAI neighbour limit covers the n - max_k remaining points, the
    preconditioner solves the system: (K(X, X) + mu I) y = x. *)
Theorem C56_afn_full_is_inverse {F : num} (kern : list F -> list F -> Z -> Z -> Rring) la (big : F) n dim (coord : mem F) X (mu : Rring) nt max_k m est_rank nys o :
  lapack_ok la -> lapack_exact la -> total_lt (nlt (n := F)) -> 0 <= dim -> coords_at coord 0 n n dim X -> kernel_symmetric kern n dim X ->
  pos_def n (shifted_kernel kern dim X mu) -> distinct_points big n dim X ->
  1 <= nt <= n -> 1 <= max_k < n -> max_k <= est_rank -> n - max_k <= m -> afn_orders nt max_k (n - max_k) o ->
  exists a, AFN_precond_build kern la Rrsq big nt n dim coord mu max_k m est_rank nys o = Some a /\
    forall (x y px py t1 t2 : mem Rring) xv, (forall j, 0 <= j < n -> ld x j = Some (xv j)) -> n <= zlen y ->
      zlen px = n -> zlen py = n -> zlen t1 = n -> zlen t2 = n ->
      exists y' w yv, AFN_precond_apply a x y px py t1 t2 = Some (y', w) /\ (forall i, 0 <= i < n -> ld y' i = Some (yv i)) /\
        forall i, 0 <= i < n -> rsum 0 n (fun j => cmul (shifted_kernel kern dim X mu i j) (yv j)) = xv i.
Proof.
  intros LA LE HT Hd HX Hs PD Hdi Hnt Hk He Hm Ho.
  destruct (AFN_spec kern la LA LE big HT n dim coord X Hd HX mu Hs PD Hdi nt max_k m est_rank nys o Hnt Hk He ltac:(lia) Ho) as (a & M & E & _ & Ha & _ & _ & Hf).
  exists a. split; [exact E|]. intros x y px py t1 t2 xv Hx Hy Z1 Z2 Z3 Z4.
  destruct (Ha x y px py t1 t2 xv Hx Hy Z1 Z2 Z3 Z4) as (y' & p1 & p2 & p3 & p4 & Q & _ & _ & _ & _ & _ & W5 & _).
  exists y', (p1, p2, p3, p4), (fun i => @rsum Rring 0 n (fun j => M i j * xv j)%R). split; [exact Q|]. split; [exact W5|].
  intros i Hi. refine (eq_trans (Proof_ULVMath.rsum_assoc (K := Rring) n n (fun k => shifted_kernel kern dim X mu i k) M xv) _).
  refine (eq_trans _ (Proof_ULVMath.rsum_delta_l (K := Rring) n i xv Hi)). apply rsum_ext. intros c Hc. f_equal. exact (Hf Hm i c Hi Hc).
Qed.
Print Assumptions C56_afn_full_is_inverse.

(** C57.  Farthest point sampling of k of n points with nt <= n threads: the result
    is the farthest point sequence and does not depend on the number of threads or
    their order; for distinct points the permutation built from it lists every
    point once, the selected ones first. *)
Theorem C57_fps_farthest {F : num} (big : F) n dim (coord : mem F) X nt ord k idx :
  total_lt (nlt (n := F)) -> 0 <= dim -> coords_at coord 0 n n dim X -> 1 <= nt <= n -> (forall i, any_order nt (ord i)) -> 1 <= k <= zlen idx ->
  exists idx' sel, FPS big nt ord n dim coord k idx = Some idx' /\ (forall i, 0 <= i < k -> ld idx' i = Some (sel i)) /\ farthest_points big n dim X k sel.
Proof.
  intros HT Hd HX Hnt Ho Hk. destruct (FPS_spec big HT n dim coord X Hd HX nt ord Hnt Ho k idx Hk) as (i' & s & E & _ & L & H). eauto.
Qed.
Print Assumptions C57_fps_farthest.

Theorem C57_fps_thread_independent {F : num} (big : F) n dim (coord : mem F) X nt ord nt' ord' k idx idx1 idx2 :
  total_lt (nlt (n := F)) -> 0 <= dim -> coords_at coord 0 n n dim X -> 1 <= nt <= n -> (forall i, any_order nt (ord i)) -> 1 <= nt' <= n -> (forall i, any_order nt' (ord' i)) -> 1 <= k <= zlen idx ->
  FPS big nt ord n dim coord k idx = Some idx1 -> FPS big nt' ord' n dim coord k idx = Some idx2 -> forall i, 0 <= i < k -> ld idx1 i = ld idx2 i.
Proof.
  intros HT Hd HX Hnt Ho Hnt' Ho' Hk E1 E2 i Hi.
  destruct (C57_fps_farthest big n dim coord X nt ord k idx HT Hd HX Hnt Ho Hk) as (i1 & s1 & Q1 & L1 & F1).
  destruct (C57_fps_farthest big n dim coord X nt' ord' k idx HT Hd HX Hnt' Ho' Hk) as (i2 & s2 & Q2 & L2 & F2).
  rewrite E1 in Q1. rewrite E2 in Q2. injection Q1 as <-. injection Q2 as <-. rewrite L1, L2 by auto. f_equal. eapply farthest_unique; eauto.
Qed.
Print Assumptions C57_fps_thread_independent.

Theorem C57_fps_permutation {F : num} (big : F) n dim (coord : mem F) X nt ord k :
  total_lt (nlt (n := F)) -> 0 <= dim -> coords_at coord 0 n n dim X -> distinct_points big n dim X -> 1 <= nt <= n -> (forall i, any_order nt (ord i)) -> 1 <= k <= n ->
  exists idx perm ps, FPS big nt ord n dim coord k (alloc n) = Some idx /\ fps_perm n k idx = Some perm /\ perm_ok n perm ps /\ farthest_points big n dim X k ps.
Proof.
  intros HT Hd HX Hdi Hnt Ho Hk. assert (Za : zlen (alloc (A := Z) n) = n) by (apply zlen_alloc; lia).
  destruct (FPS_spec big HT n dim coord X Hd HX nt ord Hnt Ho k (alloc n) ltac:(lia)) as (idx & sel & E & Zi & L & FP).
  destruct (farthest_distinct big HT n dim X Hdi k sel Hk FP) as (Rs & Is).
  destruct (fps_perm_spec n k idx sel) as (perm & ps & E2 & PO & Hps); auto; try lia.
  exists idx, perm, ps. split; [exact E|]. split; [exact E2|]. split; [exact PO|]. destruct FP as (F0 & F1). split.
  - rewrite Hps by lia. exact F0.
  - intros i Hi. rewrite Hps by lia. destruct (F1 i Hi) as (A & B & C).
    assert (Em : forall j, min_dist big (pt_of dim X) ps (Z.to_nat i) j = min_dist big (pt_of dim X) sel (Z.to_nat i) j) by (intros j; apply min_dist_ext; intros a Ha; apply Hps; lia).
    split; [exact A|]. split; intros j Hj; rewrite !Em; auto.
Qed.
Print Assumptions C57_fps_permutation.

(** Defect: whenever all points coincide and at least two are selected, point 0 is
    selected repeatedly and the loop that completes the permutation writes past
    the end of the array. *)
Theorem C57_coincident_points_refuted {F : num} (big : F) n dim (coord : mem F) X nt ord k :
  total_lt (nlt (n := F)) -> 0 <= dim -> coords_at coord 0 n n dim X -> (forall i j d, X i d = X j d) -> 1 <= nt <= n -> (forall i, any_order nt (ord i)) -> 2 <= k <= n ->
  exists idx, FPS big nt ord n dim coord k (alloc n) = Some idx /\ fps_perm n k idx = None.
Proof.
  intros HT Hd HX Hc Hnt Ho Hk. assert (Za : zlen (alloc (A := Z) n) = n) by (apply zlen_alloc; lia).
  destruct (FPS_spec big HT n dim coord X Hd HX nt ord Hnt Ho k (alloc n) ltac:(lia)) as (idx & sel & E & Zi & L & FP).
  assert (Irr : forall a : F, nlt a a = false). { intros a. destruct (nlt a a) eqn:Ea; auto. pose proof (tl_asym _ HT _ _ Ea). congruence. }
  pose proof (farthest_coincident big n dim X k sel Irr ltac:(lia) ltac:(lia) Hc FP) as H0.
  exists idx. split; [exact E|]. apply (fps_perm_dup n k idx sel); auto; try lia.
  - intros i Hi. rewrite H0 by auto. lia.
  - exists 0, 1. split; [lia|]. split; [lia|]. rewrite !H0 by lia. reflexivity.
Qed.
Print Assumptions C57_coincident_points_refuted.

(** Defect: with more threads than points, a thread without points reads the
    distance array past its end. *)
Theorem C57_more_threads_than_points_refuted : exists (big : Qred_num) nt ord n dim coord X k, coords_at coord 0 n n dim X /\ distinct_points big n dim X /\ (forall i, any_order nt (ord i)) /\ 1 <= k <= n /\
  FPS big nt ord n dim coord k (alloc n) = None.
Proof.
  exists 1000%Q, 5, (fun _ => [0; 1; 2; 3; 4]), 4, 1, ex_coord, ex_X, 2. split; [exact ex_coords|]. split; [exact ex_distinct|]. split; [intros i; apply Permutation_refl|]. split; [lia|]. vm_compute. reflexivity.
Qed.
Print Assumptions C57_more_threads_than_points_refuted.

(** The hypotheses hold for four points on a line, kernel p q, mu = 1, two points
    selected by three threads, and (C55) one FSAI neighbour, (C56) two. *)
Definition ex_ford : fsai_ord := FOrd [1; 0] [0; 1] [1; 0] [0; 1] [1; 0].
Definition ex_aord : afn_ord := AOrd (fun _ => [2; 0; 1]) [1; 2; 0] [0; 1; 2] ex_ford.
Lemma ex_aord_ok : afn_orders 3 2 2 ex_aord.
Proof.
  assert (P2 : any_order 2 [1; 0]) by (unfold any_order; change (zrange 0 2) with [0; 1]; constructor).
  assert (Q2 : any_order 2 [0; 1]) by (unfold any_order; apply Permutation_refl).
  assert (P3 : any_order 3 [0; 1; 2]) by (unfold any_order; apply Permutation_refl).
  assert (Q3 : any_order 3 [2; 0; 1]) by (unfold any_order; change (zrange 0 3) with [0; 1; 2]; apply (Permutation_cons_append [0; 1] 2)).
  assert (R3 : any_order 3 [1; 2; 0]) by (unfold any_order; change (zrange 0 3) with [0; 1; 2]; apply Permutation_sym, (Permutation_cons_append [1; 2] 0)).
  repeat split; auto.
Qed.
Example C55_example : exists a M, AFN_precond_build ex_kern Rlapack Rrsq (1000%Q : Qred_num) 3 4 1 ex_coord 1%R 2 1 7 (fun _ _ _ _ => None) ex_aord = Some a /\ pos_def 4 M.
Proof.
  destruct (C55_afn_spd_operator ex_kern Rlapack (1000%Q : Qred_num) 4 1 ex_coord ex_X 1%R 3 2 1 7 (fun _ _ _ _ => None) ex_aord Rlapack_ok Rlapack_exact Qred_total ltac:(lia) ex_coords ex_symm ex_pd ex_distinct) as (a & M & E & _ & P & _); try lia; [exact ex_aord_ok|eauto].
Qed.
Example C56_example : exists a, AFN_precond_build ex_kern Rlapack Rrsq (1000%Q : Qred_num) 3 4 1 ex_coord 1%R 2 2 7 (fun _ _ _ _ => None) ex_aord = Some a.
Proof.
  destruct (C56_afn_full_is_inverse ex_kern Rlapack (1000%Q : Qred_num) 4 1 ex_coord ex_X 1%R 3 2 2 7 (fun _ _ _ _ => None) ex_aord Rlapack_ok Rlapack_exact Qred_total ltac:(lia) ex_coords ex_symm ex_pd ex_distinct) as (a & E & _); try lia; [exact ex_aord_ok|eauto].
Qed.
(** Sampling two of the four points: the mean is 11/4, so point 2 (at 3), then the
    farthest, point 3 (at 7); the rest is appended. *)
Example C57_example : FPS (1000%Q : Qred_num) 3 (fun _ => [2; 0; 1]) 4 1 ex_coord 2 (alloc 4) = Some [Some 2; Some 3; None; None] /\ fps_perm 4 2 [Some 2; Some 3; None; None] = Some (full [2; 3; 0; 1]).
Proof. split; vm_compute; reflexivity. Qed.
Example C57_coincident_example : exists X, coords_at (full [5; 5; 5]%Q : mem Qred_num) 0 3 3 1 X /\ forall i j d, X i d = X j d.
Proof. exists (fun _ _ => 5%Q). split; auto. intros j d Hj Hd. assert (d = 0) by lia. subst d. assert (Hc : j = 0 \/ j = 1 \/ j = 2) by lia. destruct Hc as [->|[->| ->]]; reflexivity. Qed.
