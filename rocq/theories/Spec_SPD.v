(** Positive definiteness over the reals, and when LAPACK's factorisations may
    report failure in exact arithmetic: getrf only for a singular matrix (then some
    nonzero y has y^T A y = 0), potrf only for a symmetric matrix that is not
    positive definite. *)
From Coq Require Import ZArith List Lia Bool Reals.
From Verif Require Import Base Mem Num CRing FNum Spec_Lapack.
Open Scope Z_scope.

Definition quad (n : Z) (A : Z -> Z -> R) (y : Z -> R) : R := @rsum Rring 0 n (fun i => @rsum Rring 0 n (fun j => y i * A i j * y j)%R).
Definition notzero (n : Z) (y : Z -> R) : Prop := exists i, 0 <= i < n /\ y i <> 0%R.
Definition pos_def (n : Z) (A : Z -> Z -> R) : Prop := forall y, notzero n y -> (0 < quad n A y)%R.

Record lapack_exact (la : lapack Rring) : Prop := {
  le_lu : forall n A, 0 <= n -> fst (fst (l_getrf la n A)) <> 0 -> exists y, notzero n y /\ quad n A y = 0%R;
  le_chol : forall n A, 0 <= n -> (forall i j, 0 <= i < n -> 0 <= j < n -> A i j = A j i) -> fst (l_potrf la n A) <> 0 -> exists y, notzero n y /\ (quad n A y <= 0)%R }.
