(** Specification vocabulary for COO/CSR. *)
From Coq Require Import ZArith List Lia Bool Permutation Sorted.
From Verif Require Import Base Mem.
Import ListNotations.
Open Scope Z_scope.

(** The (key, value) pairs stored in cells lo, ..., hi-1. *)
Definition cells {A} (key : mem Z) (val : mem A) (lo hi : Z) : list (option Z * option A) :=
  map (fun k => (ld key k, ld val k)) (zrange lo hi).

(** Keys of cells lo..hi are initialised and in non-decreasing order. *)
Definition sorted_cells (key : mem Z) (lo hi : Z) : Prop :=
  (forall k, lo <= k < hi -> exists v, ld key k = Some v) /\
  forall k k' a b, lo <= k <= k' -> k' < hi -> ld key k = Some a -> ld key k' = Some b -> a <= b.

(** The input entries of row [r], in input order. *)
Definition coo_row {A} (nnz : Z) (row col : list Z) (val : list A) (r : Z) : list (option Z * option A) :=
  map (fun k => (getz col k, getz val k)) (filter (fun k => nthz row k =? r) (zrange 0 nnz)).

(** [(rp, ci, va)] is the CSR form of the COO input. *)
Definition is_csr {A} (nrow nnz : Z) (row col : list Z) (val : list A) (rp ci : mem Z) (va : mem A) : Prop :=
  zlen rp = nrow + 1 /\ ld rp 0 = Some 0 /\ ld rp nrow = Some nnz /\
  forall r, 0 <= r < nrow -> exists a b, ld rp r = Some a /\ ld rp (r + 1) = Some b /\ 0 <= a <= b /\ b <= nnz /\
    Permutation (cells ci va a b) (coo_row nnz row col val r) /\ sorted_cells ci a b.

(** The first [nnz] COO coordinates are pairwise different. *)
Definition coords_distinct (nnz : Z) (row col : list Z) : Prop :=
  forall k k', 0 <= k < nnz -> 0 <= k' < nnz -> nthz row k = nthz row k' -> nthz col k = nthz col k' -> k = k'.


(** A well-formed COO input. *)
Definition coo_ok (nrow nnz : Z) (row col val : list Z) : Prop :=
  zlen row = nnz /\ zlen col = nnz /\ zlen val = nnz /\
  forall k, 0 <= k < nnz -> 0 <= nthz row k < nrow.
