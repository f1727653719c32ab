(** Model of the random sampling utilities (src/H2Pack_utils.c:135-211):
    H2P_rand_sample, H2P_gen_rand_sparse_mat_trans, H2P_calc_sparse_mm_trans.

    [rnd q] is the value that the q-th call of rand() returns; [p] counts the calls
    made so far.  A retry loop takes at most [fuel] draws ([None] if that does not
    suffice, as for every error).  Integers do not overflow; sums are taken in
    increasing order. *)
From Coq Require Import ZArith List Lia Bool.
From Verif Require Import Base Mem Num CRing Model_Utils Model_Dense Model_FSAI.
Import ListNotations.
Open Scope Z_scope.

Section Rand.
Variable rnd : Z -> Z.

(** H2Pack_utils.c:144-145: idx = rand() % n until flag[idx] is not 1. *)
Fixpoint rand_unused (fuel : nat) (n : Z) (flag : mem Z) (p : Z) : option (Z * Z) :=
  match fuel with
  | O => None
  | S fuel =>
    idx <- (if n =? 0 then None else Some (Z.rem (rnd p) n));
    f <- ld flag idx;
    if f =? 1 then rand_unused fuel n flag (p + 1) else Some (idx, p + 1)
  end.

(** H2Pack_utils.c:136-151 H2P_rand_sample: [samples] from cell [so]; [flag] are the
    bytes of the work buffer, or of the array allocated here. *)
Definition rand_sample (fuel : nat) (n k : Z) (samples : mem Z) (so : Z) (flag : mem Z) (p : Z) : option (mem Z * mem Z * Z) :=
  flag <- zfor 0 n (fun i f => st f i 0) flag;
  zfor 0 k (fun i (x : mem Z * mem Z * Z) => let '(samples, flag, p) := x in
    '(idx, p) <- rand_unused fuel n flag p;
    samples <- st samples (so + i) idx;
    flag <- st flag idx 1;
    Some (samples, flag, p)) (samples, flag, p).

Context {K : cring}.

(** H2Pack_utils.c:154-180 H2P_gen_rand_sparse_mat_trans; the work buffer is in the
    last k cells of the index array, modelled as 4 k separate bytes. *)
Definition gen_rand_sparse_mat_trans (fuel : nat) (max_nnz_col k n : Z) (A_valbuf : dmat K) (A_idxbuf : int_vec) (p : Z) : option (dmat K * int_vec * Z) :=
  let rand_nnz_col := if max_nnz_col <=? k then max_nnz_col else k in
  let nnz := n * rand_nnz_col in
  let A_valbuf := dm_resize A_valbuf 1 nnz in
  A_idxbuf <- iv_set_capacity A_idxbuf (n + 1 + nnz + k);
  let flag := arr (4 * k) (Some 0) in
  '(val, p) <- zfor 0 nnz (fun i (x : mem K * Z) => let '(val, p) := x in
    val <- st val i (if Z.odd (rnd p) then c1 else copp c1); Some (val, p + 1)) (dm_data A_valbuf, p);
  '(idx, flag, p) <- zfor 0 n (fun i (x : mem Z * mem Z * Z) => let '(idx, flag, p) := x in
    idx <- st idx i (i * rand_nnz_col);
    rand_sample fuel k rand_nnz_col idx (n + 1 + i * rand_nnz_col) flag p) (iv_data A_idxbuf, flag, p);
  idx <- st idx n nnz;
  Some (dm_set_data A_valbuf val, mkIV (iv_cap A_idxbuf) (n + 1 + nnz) idx, p).

(** H2Pack_utils.c:183-211 H2P_calc_sparse_mm_trans: iteration i. *)
Definition sparse_mm_row (n : Z) (val : mem K) (idx : mem Z) (x : mem K) (ldx ldy i : Z) (y : mem K) : option (mem K) :=
  zfor 0 n (fun j y =>
    l0 <- ld idx j;
    l1 <- ld idx (j + 1);
    res <- zfor l0 l1 (fun l res => v <- ld val l; c <- ld idx (n + 1 + l); w <- ld x (i * ldx + c); Some (cadd res (cmul v w))) c0;
    st y (i * ldy + j) res) y.
(** The parallel loop over the rows of x, in the order [ord]; k is not used. *)
Definition calc_sparse_mm_trans (ord : list Z) (n : Z) (A_valbuf : dmat K) (A_idxbuf : int_vec) (x : mem K) (ldx : Z) (y : mem K) (ldy : Z) : option (mem K) :=
  in_order ord (sparse_mm_row n (dm_data A_valbuf) (iv_data A_idxbuf) x ldx ldy) y.
End Rand.
