(** Specification vocabulary for the low-rank plus diagonal preconditioner. *)
From Coq Require Import ZArith Reals List Lia Bool.
From Verif Require Import Base Mem Num CRing FNum Spec_Lapack Spec_SPD Spec_Nys.
Open Scope Z_scope.

(** P is the inverse of the symmetric A on the eigenspaces of the eigenvalues that
    are at least [tol] times the largest one, and zero on the others. *)
Definition truncated_inverse (n : Z) (tol : R) (A P : Z -> Z -> R) : Prop :=
  exists V s, eig_ok n A V s /\
    forall i j, 0 <= i < n -> 0 <= j < n -> P i j = @rsum Rring 0 n (fun k => if Rlt_dec (s k) (tol * s (n - 1)%Z) then 0 else V i k * V j k / s k)%R.

(** N = K(X, S) P K(S, X) with the truncated inverse P of K(S, S); the points S are
    sel 0, ..., sel (r - 1) of the n points X. *)
Definition sampled_approx (n r : Z) (tol : R) (Kx : Z -> Z -> R) (sel : Z -> Z) (N : Z -> Z -> R) : Prop :=
  (forall k, 0 <= k < r -> 0 <= sel k < n) /\
  exists P, truncated_inverse r tol (fun k l => Kx (sel k) (sel l)) P /\
    forall i j, 0 <= i < n -> 0 <= j < n -> N i j = @rsum Rring 0 r (fun k => @rsum Rring 0 r (fun l => Kx i (sel k) * P k l * Kx (sel l) j))%R.
