(** Model of the integer COO/CSR utilities of src/H2Pack_utils.c:244-327. *)
From Coq Require Import ZArith List Lia Bool.
From Verif Require Import Base Mem.
Import ListNotations.
Open Scope Z_scope.

(** H2Pack_utils.c:252  while (key[i] < mid_key) i++;  ([None] also when the
    fuel runs out, i.e. when the loop would not stop within [fuel] rounds). *)
Fixpoint scan_up (fuel : nat) (key : mem Z) (i mid : Z) : option Z :=
  match fuel with
  | O => None
  | S f => k <- ld key i; if k <? mid then scan_up f key (i + 1) mid else Some i
  end.
(** H2Pack_utils.c:253  while (key[j] > mid_key) j--; *)
Fixpoint scan_down (fuel : nat) (key : mem Z) (j mid : Z) : option Z :=
  match fuel with
  | O => None
  | S f => k <- ld key j; if mid <? k then scan_down f key (j - 1) mid else Some j
  end.

(** H2Pack_utils.c:256-257 swap of two cells. *)
Definition mswap {A} (m : mem A) (i j : Z) : option (mem A) :=
  a <- ld m i; b <- ld m j; m1 <- st m i b; st m1 j a.

(** H2Pack_utils.c:250-260 partition loop: returns final i, j and the arrays. *)
Fixpoint part_loop {A} (fuel : nat) (key : mem Z) (val : mem A) (i j mid : Z) : option (mem Z * mem A * Z * Z) :=
  match fuel with
  | O => None
  | S f =>
    if i <=? j then
      i' <- scan_up (S (length key)) key i mid;
      j' <- scan_down (S (length key)) key j mid;
      if i' <=? j' then
        key' <- mswap key i' j';
        val' <- mswap val i' j';
        part_loop f key' val' (i' + 1) (j' - 1) mid
      else part_loop f key val i' j' mid
    else Some (key, val, i, j)
  end.

(** H2Pack_utils.c:245-263 H2P_qsort_int_key_val. *)
Fixpoint qsort_kv {A} (fuel : nat) (key : mem Z) (val : mem A) (l r : Z) : option (mem Z * mem A) :=
  match fuel with
  | O => None
  | S f =>
    mid <- ld key (Z.quot (l + r) 2);
    '(key, val, i, j) <- part_loop (Z.to_nat (r - l + 3)) key val l r mid;
    '(key, val) <- (if i <? r then qsort_kv f key val i r else Some (key, val));
    (if l <? j then qsort_kv f key val l j else Some (key, val))
  end.

(** H2Pack_utils.c:266-291 H2P_int_COO_to_CSR; [ord] is the order in which the
    rows of the last ("omp parallel for") loop are sorted. *)
Definition coo_to_csr {A} (nrow nnz : Z) (row col : list Z) (val : list A) (row_ptr col_idx : mem Z) (val_ : mem A) (ord : list Z)
    : option (mem Z * mem Z * mem A) :=
  rp <- zfor 0 (nrow + 1) (fun i p => st p i 0) row_ptr;
  rp <- zfor 0 nnz (fun i p => r <- getz row i; c <- ld p (r + 1); st p (r + 1) (c + 1)) rp;
  rp <- zfor 2 (nrow + 1) (fun i p => a <- ld p i; b <- ld p (i - 1); st p i (a + b)) rp;
  '(rp, ci, va) <- zfor 0 nnz (fun i (s : mem Z * mem Z * mem A) => let '(p, ci, va) := s in
      r <- getz row i;
      idx <- ld p r;
      c <- getz col i; ci' <- st ci idx c;
      v <- getz val i; va' <- st va idx v;
      p' <- st p r (idx + 1);
      Some (p', ci', va')) (rp, col_idx, val_);
  rp <- zfor 0 nrow (fun k p => let i := nrow - k in a <- ld p (i - 1); st p i a) rp;
  rp <- st rp 0 0;
  '(ci, va) <- fold_left (fun (s : option (mem Z * mem A)) i =>
      '(ci, va) <- s;
      a <- ld rp i; b <- ld rp (i + 1);
      qsort_kv (Z.to_nat (b - 1 - a + 2)) ci va a (b - 1)) ord (Some (ci, va));
  Some (rp, ci, va).

(** H2Pack_utils.c:294-309 H2P_get_int_CSR_elem; state: (found, res). *)
Definition csr_get (row_ptr col_idx val : mem Z) (row col : Z) : option Z :=
  a <- ld row_ptr row; b <- ld row_ptr (row + 1);
  s <- zfor a b (fun i (s : bool * Z) => if fst s then Some s else
         c <- ld col_idx i;
         if c =? col then v <- ld val i; Some (true, v) else Some s) (false, 0);
  Some (snd s).

(** H2Pack_utils.c:312-328 H2P_set_int_CSR_elem (an absent element prints an
    error and changes nothing); state: (found, val). *)
Definition csr_set (row_ptr col_idx val : mem Z) (row col new_val : Z) : option (mem Z) :=
  a <- ld row_ptr row; b <- ld row_ptr (row + 1);
  s <- zfor a b (fun i (s : bool * mem Z) => if fst s then Some s else
         c <- ld col_idx i;
         if c =? col then v' <- st (snd s) i new_val; Some (true, v') else Some s) (false, val);
  Some (snd s).
