(** C63, C64: random sampling (src/H2Pack_utils.c:135-211). *)
From Coq Require Import ZArith List Lia Bool.
From Verif Require Import Base Mem Num CRing Model_Utils Spec_Utils Proof_Utils Model_Dense Spec_Dense Proof_Dense Blk Model_FSAI Spec_FSAI Model_Rand Spec_Rand Proof_Rand Proof_RandMM.
Import ListNotations.
Open Scope Z_scope.

(** C63: whatever rand() returns and however many retries it takes, a call that
    returns has written the first k different values of rand() % n: k different
    indices from 0, ..., n - 1, in the k cells given and nowhere else. *)
Theorem C63_samples_distinct rnd fuel n k (samples : mem Z) so flag p s f q :
  rand_ok rnd -> 0 < n -> 0 <= k -> n <= zlen flag ->
  rand_sample rnd fuel n k samples so flag p = Some (s, f, q) ->
  exists l, first_different (fun r => rnd r mod n) p l q /\ zlen l = k /\ NoDup l /\ (forall x, In x l -> 0 <= x < n) /\
    zlen s = zlen samples /\ (forall j, 0 <= j < k -> ld s (so + j) = getz l j) /\
    forall c, ~ so <= c < so + k -> ld s c = ld samples c.
Proof.
  intros Hr Hn Hk Hf E. destruct (rand_sample_partial rnd Hr _ _ _ _ _ _ _ _ _ _ Hn Hk Hf E) as (l & Zl & Hd & _ & Zs & Ls).
  exists l. split; auto. split; auto. split; [eapply fd_nodup; eauto|]. split.
  { intros x Hx. destruct (fd_in _ _ _ _ _ Hd Hx) as (r & ->). now apply Z.mod_pos_bound. }
  split; auto. split.
  - intros j Hj. rewrite Ls, (proj2 (Z.leb_le _ _)), (proj2 (Z.ltb_lt _ _)) by lia. cbn. f_equal. lia.
  - intros c Hc. rewrite Ls. destruct (Z.leb_spec so c), (Z.ltb_spec c (so + k)); cbn; auto; lia.
Qed.
Print Assumptions C63_samples_distinct.

(** C63: if every remainder keeps occurring, a call with k <= n returns, with a
    result that does not depend on the bound on the retries. *)
Theorem C63_sampling_returns rnd n k (samples : mem Z) so flag p :
  rand_ok rnd -> fair rnd n -> 0 < n -> 0 <= k <= n -> n <= zlen flag -> 0 <= so -> so + k <= zlen samples ->
  exists fuel0 s f q, forall fuel, (fuel0 <= fuel)%nat -> rand_sample rnd fuel n k samples so flag p = Some (s, f, q).
Proof. intros. now apply rand_sample_total. Qed.
Print Assumptions C63_sampling_returns.

(** C63: no index is preferred: renaming the remainders that rand() % n yields
    renames the samples and changes nothing else. *)
Theorem C63_no_preference rnd1 rnd2 pi fuel1 fuel2 n k (samples : mem Z) so flag p s1 f1 q1 s2 f2 q2 :
  rand_ok rnd1 -> rand_ok rnd2 -> 0 < n -> 0 <= k -> n <= zlen flag ->
  (forall a b, 0 <= a < n -> 0 <= b < n -> pi a = pi b -> a = b) ->
  (forall q, rnd2 q mod n = pi (rnd1 q mod n)) ->
  rand_sample rnd1 fuel1 n k samples so flag p = Some (s1, f1, q1) ->
  rand_sample rnd2 fuel2 n k samples so flag p = Some (s2, f2, q2) ->
  q1 = q2 /\ forall j, 0 <= j < k -> exists v, ld s1 (so + j) = Some v /\ ld s2 (so + j) = Some (pi v).
Proof.
  intros Hr1 Hr2 Hn Hk Hf Hp H12 E1 E2.
  destruct (C63_samples_distinct _ _ _ _ _ _ _ _ _ _ _ Hr1 Hn Hk Hf E1) as (l1 & D1 & Z1 & _ & R1 & _ & L1 & _).
  destruct (C63_samples_distinct _ _ _ _ _ _ _ _ _ _ _ Hr2 Hn Hk Hf E2) as (l2 & D2 & Z2 & _ & _ & _ & L2 & _).
  assert (D : first_different (fun r => rnd2 r mod n) p (map pi l1) q1).
  { clear - D1 Hp H12 Hn. induction D1 as [|l q q' D1 IH Hq Hin Hno]; cbn; [constructor|]. rewrite map_app. cbn [map]. rewrite <- H12.
    apply (fd_next (fun r => rnd2 r mod n) p (map pi l) q); auto.
    - intros r Hrr. rewrite H12. apply in_map. auto.
    - rewrite H12. intros Hc. apply in_map_iff in Hc. destruct Hc as (a & Ea & Ha). destruct (fd_in _ _ _ _ _ D1 Ha) as (u & ->).
      apply Hp in Ea; [|now apply Z.mod_pos_bound|now apply Z.mod_pos_bound]. apply Hno. rewrite <- Ea. exact Ha. }
  destruct (fd_fun _ _ _ _ D _ _ D2) as (El & Eq); [rewrite zlen_map; lia|]. split; auto. intros j Hj. rewrite L1, L2 by auto. rewrite <- El, getz_map.
  destruct (getz_in l1 j) as (v & ->); [lia|]. exists v. auto.
Qed.
Print Assumptions C63_no_preference.

(** C63: more samples than indices: no number of retries suffices. *)
Theorem C63_too_many_samples_refuted rnd fuel n k (samples : mem Z) so flag p :
  rand_ok rnd -> 0 < n < k -> n <= zlen flag -> rand_sample rnd fuel n k samples so flag p = None.
Proof.
  intros Hr Hk Hf. destruct (rand_sample rnd fuel n k samples so flag p) as [((s & f) & q)|] eqn:E; auto. exfalso.
  destruct (C63_samples_distinct rnd fuel n k samples so flag p s f q Hr ltac:(lia) ltac:(lia) Hf E) as (l & _ & Zl & Nd & Rl & _).
  pose proof (zlen_le n l Nd Rl ltac:(lia)). lia.
Qed.
Print Assumptions C63_too_many_samples_refuted.

(** The hypotheses are met: a fair sequence, and a call with retries. *)
Example C63_fair : rand_ok (fun q => Z.abs q) /\ fair (fun q => Z.abs q) 5.
Proof.
  split; [intros q; lia|]. intros v p Hv. exists (5 * Z.abs p + v). split; [lia|]. rewrite Z.abs_eq by lia. rewrite Z.add_comm, Z.mul_comm, Z_mod_plus_full. apply Z.mod_small. lia.
Qed.
Example C63_run : rand_sample (fun q => Z.abs q / 2) 3 3 3 (alloc 4) 1 (alloc 3) 0 = Some ([None; Some 0; Some 1; Some 2], full [1; 1; 1], 5).
Proof. reflexivity. Qed.

Section MM.
Context {K : cring}.
Local Open Scope ring_K.

(** C64: the matrix that the generator leaves in the two buffers has, in each of its
    n columns, min(max_nnz_col, k) entries 1 or -1 in different rows and is zero
    elsewhere; the product routine computes y^T = A^T x^T with that matrix, for any
    number of rows of x, in any order, and writes nothing else. *)
Theorem C64_random_product rnd fuel max_nnz_col k n (V : dmat K) (I : int_vec) l p V' I' p' :
  rand_ok rnd -> (0 <= max_nnz_col)%Z -> (0 <= k)%Z -> (0 <= n)%Z -> dm_ok V -> iv_holds I l ->
  gen_rand_sparse_mat_trans rnd fuel max_nnz_col k n V I p = Some (V', I', p') ->
  exists A, sparse_signs k n (Z.min max_nnz_col k) A /\
    forall m (x : mem K) ldx X (y : mem K) ldy ord, any_order m ord -> holds x 0 ldx m k X -> (n <= ldy)%Z -> ((m - 1) * ldy + n <= zlen y)%Z ->
    exists y', calc_sparse_mm_trans ord n V' I' x ldx y ldy = Some y' /\ zlen y' = zlen y /\
      (forall i j, (0 <= i < m)%Z -> (0 <= j < n)%Z -> ld y' (i * ldy + j)%Z = Some (rsum 0 k (fun r => A r j * X i r))) /\
      forall a, (forall i j, (0 <= i < m)%Z -> (0 <= j < n)%Z -> a <> (i * ldy + j)%Z) -> ld y' a = ld y a.
Proof.
  intros Hr Hm Hk Hn HV HI E. pose proof (gen_partial rnd Hr _ _ _ _ _ _ _ _ _ _ _ Hm Hk Hn HV HI E) as HB.
  exists (buf_matrix n (Z.min max_nnz_col k) V' I'). split; [apply buf_signs; auto; lia|]. intros m x ldx X y ldy ord Ho Hx Hl Hz.
  destruct (mm_spec m k n (Z.min max_nnz_col k) V' I' x ldx X y ldy ord ltac:(lia) Hn HB Ho Hx Hl Hz) as (y' & E1 & Z1 & L1 & F1).
  exists y'. split; auto. split; auto. split; auto. intros i j Hi Hj. specialize (L1 i j Hi Hj). rewrite Z.add_0_l in L1. rewrite L1. f_equal. apply rsum_ext. intros r _. apply (Rmul_comm (cth K)).
Qed.

(** C64: if every remainder keeps occurring, the generator returns. *)
Theorem C64_generation_returns rnd max_nnz_col k n (V : dmat K) (I : int_vec) l p :
  rand_ok rnd -> fair rnd k -> (0 <= max_nnz_col)%Z -> (0 < k)%Z -> (0 <= n)%Z -> dm_ok V -> iv_holds I l ->
  exists fuel0 V' I' p', forall fuel, (fuel0 <= fuel)%nat -> gen_rand_sparse_mat_trans rnd fuel max_nnz_col k n V I p = Some (V', I', p').
Proof. intros Hr Fr Hm Hk Hn HV HI. exact (gen_total rnd Hr max_nnz_col k n V I l p Hm Hk Hn HV HI Fr). Qed.
End MM.
Print Assumptions C64_random_product.
Print Assumptions C64_generation_returns.

(** The hypotheses are met: a 3-by-2 matrix with two entries per column. *)
Example C64_run : exists V' I' p', gen_rand_sparse_mat_trans (K := Zring) (fun q => Z.abs q) 9 2 3 2 (dm_init 0 0) (iv_init 1) 0 = Some (V', I', p') /\
  dm_data V' = full [-1; 1; -1; 1] /\ p' = 8 /\ map (ld (iv_data I')) (zrange 0 7) = [Some 0; Some 2; Some 4; Some 1; Some 2; Some 0; Some 1].
Proof. do 3 eexists. split; [reflexivity|]. split; [reflexivity|]. split; reflexivity. Qed.
Example C64_inputs : dm_ok (@dm_init Z 0 0) /\ iv_holds (iv_init 1) [].
Proof. split; [apply dm_init_ok|]. now apply iv_holds_init. Qed.
