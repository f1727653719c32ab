(** The matrix product kernel and two-level loops over a matrix region. *)
From Coq Require Import ZArith List Lia Bool Permutation.
From Verif Require Import Base Mem Num CRing Conc Model_Utils Model_Dense Spec_Dense Proof_Dense Model_Matvec Proof_Gemv Model_Matmul.
Import ListNotations.
Open Scope Z_scope.

(** Cells of a region have one pair of coordinates. *)
Lemma region_inj n ldc i j i' j' : n <= ldc -> 0 <= j < n -> 0 <= j' < n -> i * ldc + j = i' * ldc + j' -> i = i' /\ j = j'.
Proof. intros H1 H2 H3 E. assert (i = i') by nia. subst. lia. Qed.

(** A two-level loop updating each cell of an m-by-n region once: [f i j] is the
    update. *)
Lemma region_loop {A} (m n co ldc : Z) (body : Z -> Z -> mem A -> option (mem A)) (new : Z -> Z -> A) (C : mem A) :
  fits m n co ldc (zlen C) ->
  (forall i j D, 0 <= i < m -> 0 <= j < n -> zlen D = zlen C -> getz D (co + (i * ldc + j)) = getz C (co + (i * ldc + j)) ->
     exists D', body i j D = Some D' /\ zlen D' = zlen D /\
       forall x, getz D' x = if x =? co + (i * ldc + j) then Some (Some (new i j)) else getz D x) ->
  exists C', zfor 0 m (fun i C => zfor 0 n (fun j C => body i j C) C) C = Some C' /\ zlen C' = zlen C /\
    (forall i j, 0 <= i < m -> 0 <= j < n -> ld C' (co + (i * ldc + j)) = Some (new i j)) /\
    forall x, (forall i j, 0 <= i < m -> 0 <= j < n -> x <> co + (i * ldc + j)) -> getz C' x = getz C x.
Proof.
  intros (F1 & F2 & F3 & F4 & F5) Hb.
  pose (P := fun (i0 : Z) (D : mem A) => zlen D = zlen C /\
    (forall i j, 0 <= i < i0 -> 0 <= j < n -> getz D (co + (i * ldc + j)) = Some (Some (new i j))) /\
    forall x, (forall i j, 0 <= i < i0 -> 0 <= j < n -> x <> co + (i * ldc + j)) -> getz D x = getz C x).
  destruct (zfor_inv P 0 m (fun i C => zfor 0 n (fun j C => body i j C) C) C F1) as (C' & E & P1 & P2 & P3).
  - split; auto. split; [intros; lia|auto].
  - intros i0 D Hi (P1 & P2 & P3).
    pose (Q := fun (j0 : Z) (D' : mem A) => zlen D' = zlen C /\
      (forall i j, 0 <= i < i0 -> 0 <= j < n -> getz D' (co + (i * ldc + j)) = Some (Some (new i j))) /\
      (forall j, 0 <= j < j0 -> getz D' (co + (i0 * ldc + j)) = Some (Some (new i0 j))) /\
      forall x, (forall i j, 0 <= i < i0 -> 0 <= j < n -> x <> co + (i * ldc + j)) -> (forall j, 0 <= j < j0 -> x <> co + (i0 * ldc + j)) -> getz D' x = getz C x).
    destruct (zfor_inv Q 0 n (fun j C => body i0 j C) D F2) as (D' & E & Q1 & Q2 & Q3 & Q4).
    + split; auto. split; auto. split; [intros; lia|auto].
    + intros j0 D' Hj (Q1 & Q2 & Q3 & Q4).
      destruct (Hb i0 j0 D' Hi Hj Q1) as (D2 & E2 & Z2 & G2).
      { apply Q4. - intros i j H1 H2 X. destruct (region_inj n ldc i0 j0 i j F4 Hj H2); lia. - intros j H X. lia. }
      exists D2. split; auto. split; [lia|]. split; [|split].
      * intros i j H1 H2. rewrite G2. destruct (Z.eqb_spec (co + (i * ldc + j)) (co + (i0 * ldc + j0))); [|now apply Q2].
        destruct (region_inj n ldc i j i0 j0 F4 H2 Hj); lia.
      * intros j H1. rewrite G2. destruct (Z.eqb_spec (co + (i0 * ldc + j)) (co + (i0 * ldc + j0))); [|apply Q3; lia]. replace j with j0 by lia. auto.
      * intros x H1 H2. rewrite G2. destruct (Z.eqb_spec x (co + (i0 * ldc + j0))); [exfalso; apply (H2 j0); [lia|auto]|]. apply Q4; auto. intros j Hj'. apply H2. lia.
    + exists D'. split; auto. split; auto. split.
      * intros i j H1 H2. destruct (Z.eq_dec i i0) as [->|]; [now apply Q3|]. apply Q2; auto. lia.
      * intros x H1. apply Q4; [intros i j H2 H3; apply H1; auto; lia|]. intros j H2. apply H1; auto. lia.
  - exists C'. split; auto. split; auto. split.
    + intros i j H1 H2. unfold ld. now rewrite P2.
    + intros x H1. apply P3. auto.
Qed.

Section Gemm.
Context {K : cring}.
Add Ring Kring : (cth K).
Local Open Scope ring_K.

Lemma madd_getz (m : mem K) i v c : ld m i = Some c -> exists m', madd m i v = Some m' /\ zlen m' = zlen m /\
  forall x, getz m' x = if x =? i then Some (Some (c + v)) else getz m x.
Proof.
  intros H. unfold madd. rewrite H. cbn [bind]. destruct (st_Some m i (c + v)) as [m' E]; [eapply ld_range; eauto|].
  exists m'. split; auto. split; [eapply st_zlen; eauto|]. intros x. rewrite (getz_st _ _ _ _ x E).
  destruct (Z.eqb_spec i x); destruct (Z.eqb_spec x i); auto; lia.
Qed.

Lemma gemm_spec (ta tb : bool) m n k (A : mem K) ao lda (B : mem K) bo ldb acc (C : mem K) co ldc (av bv cv : Z -> Z -> K) :
  0 <= k -> fits m n co ldc (zlen C) ->
  (forall i p, 0 <= i < m -> 0 <= p < k -> ld A (ao + (if ta then p * lda + i else i * lda + p))%Z = Some (av i p)) ->
  (forall p j, 0 <= p < k -> 0 <= j < n -> ld B (bo + (if tb then j * ldb + p else p * ldb + j))%Z = Some (bv p j)) ->
  (acc = true -> forall i j, 0 <= i < m -> 0 <= j < n -> ld C (co + (i * ldc + j))%Z = Some (cv i j)) ->
  exists C', gemm ta tb m n k A ao lda B bo ldb acc C co ldc = Some C' /\ zlen C' = zlen C /\
    (forall i j, 0 <= i < m -> 0 <= j < n -> ld C' (co + (i * ldc + j))%Z = Some ((if acc then cv i j else c0) + rsum 0 k (fun p => av i p * bv p j))) /\
    forall x, (forall i j, 0 <= i < m -> 0 <= j < n -> x <> co + (i * ldc + j))%Z -> getz C' x = getz C x.
Proof.
  intros Hk Hf HA HB HC. unfold gemm. destruct (acc && (k =? 0)) eqn:Eq.
  - apply andb_true_iff in Eq as (-> & Ek). apply Z.eqb_eq in Ek. subst k. exists C. split; auto. split; auto. split; auto.
    intros i j Hi Hj. rewrite HC by auto. f_equal. rewrite rsum_empty by lia. ring.
  - apply region_loop; auto. intros i j D Hi Hj Zd Gd.
    rewrite (dot_spec k (fun p => ld A (ao + (if ta then p * lda + i else i * lda + p))%Z) (fun p => ld B (bo + (if tb then j * ldb + p else p * ldb + j))%Z) (av i) (fun p => bv p j)); auto.
    cbn [bind]. destruct acc.
    + destruct (madd_getz D (co + (i * ldc + j))%Z (rsum 0 k (fun p => av i p * bv p j)) (cv i j)) as (D' & E & Z' & G).
      { unfold ld. rewrite Gd. apply HC; auto. }
      exists D'. auto.
    + destruct Hf as (F1 & F2 & F3 & F4 & F5).
      destruct (st_Some D (co + (i * ldc + j))%Z (rsum 0 k (fun p => av i p * bv p j))) as [D' E]; [nia|].
      exists D'. split; auto. split; [eapply st_zlen; eauto|]. intros x. rewrite (getz_st _ _ _ _ x E).
      destruct (Z.eqb_spec (co + (i * ldc + j)) x); destruct (Z.eqb_spec x (co + (i * ldc + j))); auto; try lia. do 2 f_equal. ring.
Qed.
End Gemm.
