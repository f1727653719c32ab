(** The FSAI construction as a whole: exact neighbours, then the factor. *)
From Coq Require Import ZArith QArith Reals List Lia Bool Permutation.
From Verif Require Import Base Mem Num CRing FNum Spec_Lapack Blk Model_FSAI Spec_FSAI Spec_SPD Proof_FSAIKnn Proof_FSAIRow Proof_FSAITop Proof_FSAIReal Proof_FSAIApply.
Import ListNotations.
Open Scope Z_scope.

Lemma row_is_list m nn cnt i l : 0 <= i -> row_is m nn cnt i l ->
  l = map (fun a => match ld nn (i * m + a) with Some v => v | None => 0 end) (zrange 0 (match ld cnt (1 + i) with Some c => c | None => 0 end)).
Proof.
  intros Hi (H1 & H2). rewrite H1. apply getz_ext.
  - pose proof (zlen_nonneg l). rewrite zlen_map, zlen_zrange; lia.
  - intros a. destruct (Z_lt_ge_dec a 0) as [|Ha0]. { rewrite !(proj2 (getz_None _ a)) by lia. auto. }
    destruct (Z_lt_ge_dec a (zlen l)) as [Ha|Ha].
    + rewrite getz_map, getz_zrange by lia. cbn [option_map]. destruct (getz_in l a) as (v & Hv); [lia|]. rewrite Z.add_0_l, H2, Hv by lia. auto.
    + pose proof (zlen_nonneg l). rewrite !(proj2 (getz_None _ a)); auto; [rewrite zlen_map, zlen_zrange|]; lia.
Qed.

Section Build.
Context {F : num} {K : cring}.
Variable kern : list F -> list F -> Z -> Z -> K.
Variable la : lapack K.
Variable rsq : K -> option K.
Hypothesis Hla : lapack_ok la.
Hypothesis Hrsq : forall t s : K, rsq t = Some s -> cmul (cmul s s) t = c1.

Theorem FSAI_build_spec m n dim (coord : mem F) co ldc X n1 (P : mem K) Pf mu o : total_lt (nlt (n := F)) -> 1 <= m -> 1 <= n -> 0 <= dim -> coords_at coord co ldc n dim X -> 0 <= n1 ->
  (forall r l, 0 <= r < n -> 0 <= l < n1 -> ld P (r * n1 + l) = Some (Pf r l)) ->
  (forall r c, 0 <= r < n -> 0 <= c < n -> kern (pt_of dim X r) (pt_of dim X c) 0 0 = kern (pt_of dim X c) (pt_of dim X r) 0 0) ->
  (forall nb, (forall i, 0 <= i < n -> nbr_list m i (nb i)) -> local_ok kern la rsq n dim X n1 Pf mu nb) ->
  any_order n (fo_knn o) -> any_order n (fo_row o) -> any_order n (fo_cpy o) -> any_order n (fo_G o) -> any_order n (fo_GT o) ->
  exists g G nb, FSAI_precond_build kern la rsq m n dim coord co ldc n1 P mu o = Some g /\
    csr_op n (G_rowptr g) (G_colidx g) (G_val g) G /\ csr_op n (GT_rowptr g) (GT_colidx g) (GT_val g) (fun i j => G j i) /\
    (forall i, 0 <= i < n -> nearest_earlier m i (pt_of dim X) (nb i)) /\ fsai_rows n (schur kern dim X n1 Pf mu) nb G.
Proof.
  intros HT Hm Hn Hd HX Hn1 HP Hs Hlo O1 O2 O3 O4 O5. unfold FSAI_precond_build.
  destruct (st_Some (alloc (n + 1)) 0 0) as (d0 & E0). { rewrite zlen_alloc; lia. } rewrite E0. cbn [bind].
  assert (Zd : zlen d0 = n + 1) by (rewrite (st_zlen _ _ _ _ E0), zlen_alloc; lia).
  destruct (knn_spec n dim coord co ldc X Hd HX m Hm HT ltac:(lia) (alloc (n * m)) d0 (fo_knn o)) as (nn & displs & E1 & Z1 & Z2 & L0 & Hrow); auto.
  { rewrite zlen_alloc by nia. auto. }
  rewrite E1. cbn [bind].
  set (nb := fun i => map (fun a => match ld nn (i * m + a) with Some v => v | None => 0 end) (zrange 0 (match ld displs (1 + i) with Some c => c | None => 0 end))).
  assert (Hnb : forall i, 0 <= i < n -> row_is m nn displs i (nb i) /\ nearest_earlier m i (pt_of dim X) (nb i)).
  { intros i Hi. destruct (Hrow i Hi) as (l & R1 & R2). unfold nb. rewrite <- (row_is_list m nn displs i l); auto. lia. }
  destruct (FSAI_factor_spec kern la rsq Hla Hrsq m n dim coord co ldc X n1 P Pf mu Hn Hd HX Hn1 HP Hs nn displs nb o) as (g & G & E2 & C1 & C2 & C3); auto.
  { rewrite L0. now rewrite (ld_st _ _ _ 0 _ E0). }
  { intros i Hi. destruct (Hnb i Hi) as (H1 & H2). split; auto. apply H2. }
  { apply Hlo. intros i Hi. apply (Hnb i Hi). }
  exists g, G, nb. do 4 (split; auto). intros i Hi. apply (Hnb i Hi).
Qed.
End Build.

(** Over the reals a positive definite S suffices. *)
Theorem FSAI_build_pd {F : num} (kern : list F -> list F -> Z -> Z -> Rring) la m n dim (coord : mem F) co ldc X n1 (P : mem Rring) (Pf : Z -> Z -> Rring) (mu : Rring) o :
  lapack_ok la -> lapack_exact la -> total_lt (nlt (n := F)) -> 1 <= m -> 1 <= n -> 0 <= dim -> coords_at coord co ldc n dim X -> 0 <= n1 ->
  (forall r l, 0 <= r < n -> 0 <= l < n1 -> ld P (r * n1 + l) = Some (Pf r l)) ->
  (forall r c, 0 <= r < n -> 0 <= c < n -> kern (pt_of dim X r) (pt_of dim X c) 0 0 = kern (pt_of dim X c) (pt_of dim X r) 0 0) ->
  pos_def n (schur kern dim X n1 Pf mu) ->
  any_order n (fo_knn o) -> any_order n (fo_row o) -> any_order n (fo_cpy o) -> any_order n (fo_G o) -> any_order n (fo_GT o) ->
  exists g G nb, FSAI_precond_build kern la Rrsq m n dim coord co ldc n1 P mu o = Some g /\
    csr_op n (G_rowptr g) (G_colidx g) (G_val g) G /\ csr_op n (GT_rowptr g) (GT_colidx g) (GT_val g) (fun i j => G j i) /\
    (forall i, 0 <= i < n -> nearest_earlier m i (pt_of dim X) (nb i)) /\ fsai_rows n (schur kern dim X n1 Pf mu) nb G.
Proof.
  intros Hla Hle HT Hm Hn Hd HX Hn1 HP Hs Hpd O1 O2 O3 O4 O5.
  apply (FSAI_build_spec (K := Rring)); auto. exact Rrsq_ok.
  intros nb Hnb. apply (local_ok_pd kern la Hle m); auto.
Qed.

(** Neighbour lists of all earlier points when there is room for them. *)
Lemma nearest_full {F : num} m n (pt : Z -> list F) i l : n <= m -> 0 <= i < n -> nearest_earlier m i pt l -> forall j, In j l <-> 0 <= j <= i.
Proof.
  intros Hm Hi ((_ & Hnd & Hr & _) & Hl & _) j. split; auto. intros Hj.
  assert (incl l (zrange 0 (i + 1))) by (intros x Hx; apply In_zrange; specialize (Hr x Hx); lia).
  assert (incl (zrange 0 (i + 1)) l).
  { apply NoDup_length_incl; auto. pose proof (zlen_zrange 0 (i + 1) ltac:(lia)). unfold zlen in *. lia. }
  apply H0. apply In_zrange. lia.
Qed.
