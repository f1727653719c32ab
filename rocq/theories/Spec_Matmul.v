(** Specification vocabulary for H2P_matmul. *)
From Coq Require Import ZArith List Lia Bool.
From Verif Require Import Base Mem Num CRing Model_Dense Spec_Dense Model_Matvec Spec_Matvec.
Import ListNotations.
Open Scope Z_scope.

(** Where row i of column v lives, for leading dimension [ldm]. *)
Definition mat_cell (col_major : bool) (ldm i v : Z) : Z := if col_major then v * ldm + i else i * ldm + v.

(** A buffer of [n] cells can hold an n_row-by-n_col matrix with leading
    dimension [ldm]. *)
Definition mat_fits (col_major : bool) (n_row n_col ldm n : Z) : Prop :=
  if col_major then n_row <= ldm /\ (0 < n_row -> 0 < n_col -> (n_col - 1) * ldm + n_row <= n)
  else n_col <= ldm /\ (0 < n_row -> 0 < n_col -> (n_row - 1) * ldm + n_col <= n).
