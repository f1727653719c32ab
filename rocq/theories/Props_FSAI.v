(** FSAI preconditioner: the claims C52-C54. *)
From Coq Require Import ZArith QArith Reals List Lia Lra Bool Permutation.
From Verif Require Import Base Mem Num CRing FNum Spec_Lapack Proof_Lapack Spec_SPD Model_FSAI Spec_FSAI Proof_FSAIKnn Proof_FSAIRow Proof_FSAIApply Proof_FSAIReal Proof_FSAIBuild Ex_AFN.
Import ListNotations.
Open Scope Z_scope.

(** C52.  The exact neighbour search succeeds for every point set, whatever the
    order of the parallel loop, and gives each point i its nearest earlier points
    (all of them when there are fewer than m), with i last. *)
Theorem C52_exact_neighbours {F : num} n dim (coord : mem F) co ldc X m nn displs ord :
  total_lt (nlt (n := F)) -> 0 <= n -> 0 <= dim -> 1 <= m -> coords_at coord co ldc n dim X ->
  zlen nn = n * m -> zlen displs = n + 1 -> any_order n ord ->
  exists nn' displs', FSAI_exact_KNN m n dim coord co ldc nn displs ord = Some (nn', displs') /\ ld displs' 0 = ld displs 0 /\
    forall i, 0 <= i < n -> exists l, row_is m nn' displs' i l /\ nearest_earlier m i (pt_of dim X) l.
Proof.
  intros HT Hn Hd Hm HX Z1 Z2 Ho. destruct (knn_spec n dim coord co ldc X Hd HX m Hm HT Hn nn displs ord Z1 Z2 Ho) as (nn' & d' & E & _ & _ & E0 & H). eauto.
Qed.
Print Assumptions C52_exact_neighbours.

(** C53.  If S = K(X, X) + mu I - P P^T is symmetric positive definite, the
    construction succeeds in any order of its parallel loops; there is a matrix G,
    supported on the nearest earlier neighbours, with (S G^T)(r, i) = 0 for the
    neighbours r <> i of i and unit diagonal of G S G^T; and applying the
    preconditioner to any vector gives G^T G x, changing nothing else in y. *)
Theorem C53_fsai_precond {F : num} (kern : list F -> list F -> Z -> Z -> Rring) la m n dim (coord : mem F) co ldc X k (P : mem Rring) (Pf : Z -> Z -> Rring) (mu : Rring) o :
  lapack_ok la -> lapack_exact la -> total_lt (nlt (n := F)) -> 1 <= m -> 1 <= n -> 0 <= dim -> coords_at coord co ldc n dim X -> 0 <= k ->
  (forall r l, 0 <= r < n -> 0 <= l < k -> ld P (r * k + l) = Some (Pf r l)) -> kernel_symmetric kern n dim X ->
  pos_def n (fsai_target kern dim X k Pf mu) ->
  any_order n (fo_knn o) -> any_order n (fo_row o) -> any_order n (fo_cpy o) -> any_order n (fo_G o) -> any_order n (fo_GT o) ->
  exists g G nb, FSAI_precond_build kern la Rrsq m n dim coord co ldc k P mu o = Some g /\
    (forall i, 0 <= i < n -> nearest_earlier m i (pt_of dim X) (nb i)) /\ fsai_rows n (fsai_target kern dim X k Pf mu) nb G /\
    forall (x y t : mem Rring) xv xo yo t_o, (forall j, 0 <= j < n -> ld x (xo + j) = Some (xv j)) -> 0 <= yo -> yo + n <= zlen y -> 0 <= t_o -> t_o + n <= zlen t ->
      exists y' t', FSAI_precond_apply g n x xo y yo t t_o = Some (y', t') /\ zlen y' = zlen y /\ zlen t' = zlen t /\
        (forall i, 0 <= i < n -> ld y' (yo + i) = Some (rsum 0 n (fun j => cmul (rsum 0 n (fun l => cmul (G l i) (G l j))) (xv j)))) /\
        forall c, ~ yo <= c < yo + n -> ld y' c = ld y c.
Proof.
  intros Hla Hle HT Hm Hn Hd HX Hk HP Hs Hpd O1 O2 O3 O4 O5.
  destruct (FSAI_build_pd kern la m n dim coord co ldc X k P Pf mu o Hla Hle HT Hm Hn Hd HX Hk HP Hs Hpd O1 O2 O3 O4 O5) as (g & G & nb & E & C1 & C2 & Hnb & HG).
  exists g, G, nb. split; [exact E|]. split; [exact Hnb|]. split; [exact HG|].
  intros x y t xv xo yo t_o Hx Hy0 Hy Ht0 Ht.
  destruct (FSAI_apply_spec n g G x y t xo xv yo t_o ltac:(lia) C1 C2 Hx Hy0 Hy Ht0 Ht) as (y' & t' & Ea & Zy & Zt & L).
  exists y', t'. split; [exact Ea|]. split; [exact Zy|]. split; [exact Zt|]. split.
  - intros i Hi. rewrite L, (proj2 (Z.leb_le _ _)), (proj2 (Z.ltb_lt _ _)) by lia. cbn [andb]. f_equal. replace (yo + i - yo) with i by lia.
    apply (Proof_ULVMath.rsum_assoc n n (fun l => G l i) G xv).
  - intros c Hc. rewrite L. destruct (Z.leb_spec yo c), (Z.ltb_spec c (yo + n)); cbn [andb]; auto; lia.
Qed.
Print Assumptions C53_fsai_precond.

(** C54.  With room for all earlier points (m >= n) the preconditioner is the exact
    inverse: S times what it returns is x. *)
Theorem C54_fsai_full_is_inverse {F : num} (kern : list F -> list F -> Z -> Z -> Rring) la m n dim (coord : mem F) co ldc X k (P : mem Rring) (Pf : Z -> Z -> Rring) (mu : Rring) o :
  lapack_ok la -> lapack_exact la -> total_lt (nlt (n := F)) -> n <= m -> 1 <= n -> 0 <= dim -> coords_at coord co ldc n dim X -> 0 <= k ->
  (forall r l, 0 <= r < n -> 0 <= l < k -> ld P (r * k + l) = Some (Pf r l)) -> kernel_symmetric kern n dim X ->
  pos_def n (fsai_target kern dim X k Pf mu) ->
  any_order n (fo_knn o) -> any_order n (fo_row o) -> any_order n (fo_cpy o) -> any_order n (fo_G o) -> any_order n (fo_GT o) ->
  exists g, FSAI_precond_build kern la Rrsq m n dim coord co ldc k P mu o = Some g /\
    forall (x y t : mem Rring) xv, (forall j, 0 <= j < n -> ld x j = Some (xv j)) -> n <= zlen y -> n <= zlen t ->
      exists y' t' yv, FSAI_precond_apply g n x 0 y 0 t 0 = Some (y', t') /\ (forall i, 0 <= i < n -> ld y' i = Some (yv i)) /\
        forall r, 0 <= r < n -> rsum 0 n (fun j => cmul (fsai_target kern dim X k Pf mu r j) (yv j)) = xv r.
Proof.
  intros Hla Hle HT Hm Hn Hd HX Hk HP Hs Hpd O1 O2 O3 O4 O5.
  destruct (C53_fsai_precond kern la m n dim coord co ldc X k P Pf mu o Hla Hle HT ltac:(lia) Hn Hd HX Hk HP Hs Hpd O1 O2 O3 O4 O5) as (g & G & nb & E & Hnb & HG & Ha).
  exists g. split; [exact E|]. intros x y t xv Hx Hy Ht.
  destruct (Ha x y t xv 0 0 0) as (y' & t' & Ea & _ & _ & L & _); try lia. { intros j Hj. rewrite Z.add_0_l. auto. }
  exists y', t', (fun i => rsum 0 n (fun j => cmul (rsum 0 n (fun l => cmul (G l i) (G l j))) (xv j))). split; [exact Ea|]. split; [intros i Hi; specialize (L i Hi); rewrite Z.add_0_l in L; exact L|].
  intros r Hr. refine (eq_trans (Proof_ULVMath.rsum_assoc (K := Rring) n n (fun j => fsai_target kern dim X k Pf mu r j) (fun i j => rsum 0 n (fun l => cmul (G l i) (G l j))) xv) _).
  refine (eq_trans _ (Proof_ULVMath.rsum_delta_l (K := Rring) n r xv Hr)). apply rsum_ext. intros c Hc. f_equal.
  apply (fsai_full_inverse (K := Rring) n (fsai_target kern dim X k Pf mu) nb G); auto.
  - intros a b Ha' Hb'. apply (schur_sym kern n dim X k Pf mu); auto.
  - intros i Hi. apply (nearest_full m n (pt_of dim X)); auto.
Qed.
Print Assumptions C54_fsai_full_is_inverse.

(** The hypotheses hold for four points on a line, kernel p q, mu = 1 and a rank
    one P; two neighbours per point, and the parallel loops in mixed orders. *)
Definition ex_ord : fsai_ord := FOrd ex_dn ex_up ex_dn ex_dn ex_up.
Example C53_example : exists g G nb, FSAI_precond_build ex_kern Rlapack Rrsq 2 4 1 ex_coord 0 4 1 ex_P 1%R ex_ord = Some g /\
  (forall i, 0 <= i < 4 -> nearest_earlier 2 i (pt_of 1 ex_X) (nb i)) /\ fsai_rows 4 (fsai_target ex_kern 1 ex_X 1 ex_Pf 1%R) nb G.
Proof.
  destruct ex_orders as (U & D).
  destruct (C53_fsai_precond ex_kern Rlapack 2 4 1 ex_coord 0 4 ex_X 1 ex_P ex_Pf 1%R ex_ord Rlapack_ok Rlapack_exact Qred_total) as (g & G & nb & E & H1 & H2 & _); auto; try lia.
  - exact ex_coords.
  - exact ex_P_holds.
  - exact ex_symm.
  - exact ex_pd_P.
  - exists g, G, nb. auto.
Qed.
(** The neighbour search itself, computed: lists [0], [0,1], [1,2], [2,3]. *)
Example C52_example : FSAI_exact_KNN (F := Qred_num) 2 4 1 ex_coord 0 4 (alloc 8) (full [0; 0; 0; 0; 0]) ex_dn =
  Some ([Some 0; None; Some 0; Some 1; Some 1; Some 2; Some 2; Some 3], full [0; 1; 2; 2; 2]).
Proof. vm_compute. reflexivity. Qed.
Example C54_example : exists g, FSAI_precond_build ex_kern Rlapack Rrsq 4 4 1 ex_coord 0 4 1 ex_P 1%R ex_ord = Some g /\
  forall (x y t : mem Rring) xv, (forall j, 0 <= j < 4 -> ld x j = Some (xv j)) -> 4 <= zlen y -> 4 <= zlen t ->
    exists y' t' yv, FSAI_precond_apply g 4 x 0 y 0 t 0 = Some (y', t') /\ (forall i, 0 <= i < 4 -> ld y' i = Some (yv i)) /\
      forall r, 0 <= r < 4 -> rsum 0 4 (fun j => cmul (fsai_target ex_kern 1 ex_X 1 ex_Pf 1%R r j) (yv j)) = xv r.
Proof.
  destruct ex_orders as (U & D).
  apply (C54_fsai_full_is_inverse ex_kern Rlapack 4 4 1 ex_coord 0 4 ex_X 1 ex_P ex_Pf 1%R ex_ord Rlapack_ok Rlapack_exact Qred_total); auto; try lia.
  - exact ex_coords.
  - exact ex_P_holds.
  - exact ex_symm.
  - exact ex_pd_P.
Qed.
