(** Specification vocabulary for the CSRPlus matrix of the examples. *)
From Coq Require Import ZArith List Lia Bool.
From Verif Require Import Base Mem CRing.
Import ListNotations.
Open Scope Z_scope.

(** The arrays hold an n x m matrix in compressed row form: the entries of row i are
    those from p i to p (i + 1), entry t is v t in column c t. *)
Definition csr_rows (rp : list Z) (n : Z) (p : Z -> Z) : Prop :=
  0 <= n /\ zlen rp = n + 1 /\ (forall i, 0 <= i <= n -> getz rp i = Some (p i)) /\ p 0 = 0 /\ forall i, 0 <= i < n -> p i <= p (i + 1).
Definition csr_matrix {K : cring} (rp cols : list Z) (vals : list K) (n m : Z) (p c : Z -> Z) (v : Z -> K) : Prop :=
  csr_rows rp n p /\ forall t, 0 <= t < p n -> getz cols t = Some (c t) /\ 0 <= c t < m /\ getz vals t = Some (v t).

(** Entry (i, j) of that matrix: repeated entries are added. *)
Definition csr_entry {K : cring} (p c : Z -> Z) (v : Z -> K) (i j : Z) : K :=
  rsum (p i) (p (i + 1)) (fun t => if c t =? j then v t else c0).

(** Entry (i, j) of the matrix given by nnz coordinates: repeated entries are added. *)
Definition coo_entry {K : cring} (nnz : Z) (row col : list Z) (val : Z -> K) (i j : Z) : K :=
  rsum 0 nnz (fun k => if (nthz row k =? i) && (nthz col k =? j) then val k else c0).
