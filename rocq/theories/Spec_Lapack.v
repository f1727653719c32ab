(** What is assumed of the LAPACK/BLAS routines that H2Pack_HSS_ULV.c calls
    (LAPACKE_?geqrf, ?ormqr, ?getrf, ?potrf, cblas_?trsm), over exact numbers, as
    documented in LAPACK.  The routines are not in /repo; matrices are given by
    their entries.  Spec_Lapack only states the contract; that routines meeting
    it exist over the reals is proved in Proof_Lapack*.v. *)
From Coq Require Import ZArith List Lia Bool.
From Verif Require Import Base Mem Num CRing.
Import ListNotations.
Open Scope Z_scope.

Section Lapack.
Context {K : cring}.
Local Open Scope ring_K.
Notation matrix := (Z -> Z -> K).

Definition delta (i j : Z) : K := if (i =? j)%Z then c1 else c0.

(** Row-major routines: geqrf m n A gives the packed factor (R above, the
    reflectors below the diagonal) and tau; getrf gives info, the packed factors
    and the pivots (1-based); potrf (lower) gives info and the factor in the
    lower triangle; trsm side=left? lower? trans? unit? m n A B gives X.
    [l_logabs] is DLOG(DABS(x)). *)
Record lapack := Lapack {
  l_geqrf : Z -> Z -> matrix -> matrix * (Z -> K);
  l_getrf : Z -> matrix -> Z * matrix * (Z -> Z);
  l_potrf : Z -> matrix -> Z * matrix;
  l_trsm : bool -> bool -> bool -> bool -> Z -> Z -> matrix -> matrix -> matrix;
  l_logabs : K -> K }.

(** The orthogonal factor of a QR factorisation: Q = H(0) H(1) ... H(k-1),
    H(i) = I - tau(i) v v^T, v(0..i-1) = 0, v(i) = 1, v(i+1..) below the diagonal
    of column i. *)
Definition reflv (A : matrix) (i r : Z) : K := if (r <? i)%Z then c0 else if (r =? i)%Z then c1 else A r i.
Definition refl (A : matrix) (tau : Z -> K) (i r c : Z) : K := delta r c - tau i * reflv A i r * reflv A i c.
Fixpoint qprod (n : Z) (k : nat) (A : matrix) (tau : Z -> K) (r c : Z) : K :=
  match k with
  | O => delta r c
  | S k' => rsum 0 n (fun l => qprod n k' A tau r l * refl A tau (Z.of_nat k') l c)
  end.
Definition qmat (n k : Z) (A : matrix) (tau : Z -> K) : matrix := qprod n (Z.to_nat k) A tau.

(** A triangle of a matrix, and transposition. *)
Definition tri (lower unit : bool) (A : matrix) (i j : Z) : K :=
  if (i =? j)%Z then (if unit then c1 else A i i)
  else if (if lower then (j <? i)%Z else (i <? j)%Z) then A i j else c0.
Definition top (trans : bool) (A : matrix) (i j : Z) : K := if trans then A j i else A i j.

(** Row interchanges 0, 1, ..., n-1: row k with row piv(k)-1. *)
Definition swap_rows (A : matrix) (a b i j : Z) : K := A (if (i =? a)%Z then b else if (i =? b)%Z then a else i) j.
Fixpoint interchange (n : nat) (piv : Z -> Z) (A : matrix) : matrix :=
  match n with O => A | S n' => swap_rows (interchange n' piv A) (Z.of_nat n') (piv (Z.of_nat n') - 1) end.

Definition orthogonal (n : Z) (Q : matrix) : Prop :=
  (forall i j, 0 <= i < n -> 0 <= j < n -> rsum 0 n (fun l => Q l i * Q l j) = delta i j) /\
  (forall i j, 0 <= i < n -> 0 <= j < n -> rsum 0 n (fun l => Q i l * Q j l) = delta i j).

Record lapack_ok (la : lapack) : Prop := {
  (* Q^T A = [R; 0] with Q orthogonal *)
  la_qr : forall m n A, 0 <= n <= m -> let '(P, tau) := l_geqrf la m n A in
    orthogonal m (qmat m n P tau) /\
    forall i j, 0 <= i < m -> 0 <= j < n -> rsum 0 m (fun l => qmat m n P tau l i * A l j) = if (i <=? j)%Z then P i j else c0;
  (* P A = L U, U with nonzero diagonal, unless info is set *)
  la_lu : forall n A, 0 <= n -> let '(info, LU, piv) := l_getrf la n A in
    (forall k, 0 <= k < n -> k + 1 <= piv k <= n)%Z /\
    (info = 0%Z -> (forall i, 0 <= i < n -> LU i i <> c0) /\
       forall i j, 0 <= i < n -> 0 <= j < n ->
         rsum 0 n (fun l => tri true true LU i l * tri false false LU l j) = interchange (Z.to_nat n) piv A i j);
  (* A = L L^T for a symmetric matrix given by its lower triangle, unless info is set *)
  la_chol : forall n A, 0 <= n -> let '(info, L) := l_potrf la n A in
    info = 0%Z -> (forall i, 0 <= i < n -> L i i <> c0) /\
       forall i j, 0 <= i < n -> 0 <= j <= i -> rsum 0 n (fun l => tri true false L i l * tri true false L j l) = A i j;
  (* op(T) X = B, X op(T) = B *)
  la_trsm_left : forall lower trans unit m n A B, 0 <= m -> (unit = false -> forall i, 0 <= i < m -> A i i <> c0) ->
    forall i j, 0 <= i < m -> 0 <= j < n ->
      rsum 0 m (fun l => top trans (tri lower unit A) i l * l_trsm la true lower trans unit m n A B l j) = B i j;
  la_trsm_right : forall lower trans unit m n A B, 0 <= n -> (unit = false -> forall i, 0 <= i < n -> A i i <> c0) ->
    forall i j, 0 <= i < m -> 0 <= j < n ->
      rsum 0 n (fun l => l_trsm la false lower trans unit m n A B i l * top trans (tri lower unit A) l j) = B i j }.
End Lapack.
Arguments lapack : clear implicits.
