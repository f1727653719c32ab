(** Specification vocabulary for the Nystrom preconditioner. *)
From Coq Require Import ZArith Reals List Lia Bool.
From Verif Require Import Base Mem Num CRing FNum Spec_Lapack Spec_SPD.
Open Scope Z_scope.

Definition symmetric (n : Z) (A : Z -> Z -> R) : Prop := forall i j, 0 <= i < n -> 0 <= j < n -> A i j = A j i.
Definition psd (n : Z) (A : Z -> Z -> R) : Prop := forall y, (0 <= quad n A y)%R.

(** What LAPACK documents of ?syevd, over exact numbers: A V = V diag(s) with V
    orthogonal and s ascending. *)
Definition eig_ok (n : Z) (A V : Z -> Z -> R) (s : Z -> R) : Prop :=
  orthogonal (K := Rring) n V /\
  (forall i k, 0 <= i < n -> 0 <= k < n -> @rsum Rring 0 n (fun j => A i j * V j k)%R = (V i k * s k)%R) /\
  (forall k l, 0 <= k <= l -> l < n -> (s k <= s l)%R).
Definition syevd_ok (n : Z) (syevd : Z -> (Z -> Z -> R) -> (Z -> Z -> R) * (Z -> R)) : Prop :=
  forall A, symmetric n A -> eig_ok n A (fst (syevd n A)) (snd (syevd n A)).

(** N = K(X, S) (K(S, S) + nu I)^-1 K(S, X) for the selected points S = sel 0, ...,
    sel (n1 - 1) of the n points X; Kx is K(X, X). *)
Definition nystrom_approx (n n1 : Z) (Kx : Z -> Z -> R) (sel : Z -> Z) (nu : R) (N : Z -> Z -> R) : Prop :=
  exists W : Z -> Z -> R,
    (forall k c, 0 <= k < n1 -> 0 <= c < n -> @rsum Rring 0 n1 (fun l => (Kx (sel k) (sel l) + nu * @delta Rring k l) * W l c)%R = Kx (sel k) c) /\
    forall r c, 0 <= r < n -> 0 <= c < n -> N r c = @rsum Rring 0 n1 (fun k => Kx r (sel k) * W k c)%R.

(** U diag(lam) U^T is N up to the truncation tolerance: the columns of U are
    orthonormal, except that those of eigenvalues below 100 eps^2 lam_max are zero;
    the eigenvalues ascend. *)
Record eig_approx (n n1 : Z) (eps : R) (N U : Z -> Z -> R) (lam : Z -> R) : Prop := {
  ea_orth : forall k l, 0 <= k < n1 -> 0 <= l < n1 -> k <> l -> @rsum Rring 0 n (fun r => U r k * U r l)%R = 0%R;
  ea_unit : forall k, 0 <= k < n1 -> @rsum Rring 0 n (fun r => U r k * U r k)%R = 1%R \/
    ((forall r, 0 <= r < n -> U r k = 0%R) /\ (lam k < (10 * eps) * (10 * eps) * lam (n1 - 1)%Z)%R);
  ea_asc : forall k l, 0 <= k <= l -> l < n1 -> (0 <= lam k <= lam l)%R;
  ea_err : forall y, (0 <= quad n (fun i j => N i j - @rsum Rring 0 n1 (fun k => U i k * lam k * U j k)) y
    <= IZR n1 * ((10 * eps) * (10 * eps) * lam (n1 - 1)%Z) * @rsum Rring 0 n (fun i => y i * y i))%R }.

(** P is eta times the inverse of U diag(s + mu) U^T + eta (I - U U^T), where
    s = max(lam - nu, 0) and eta = s 0 + mu. *)
Definition nys_inverse (n n1 : Z) (mu nu : R) (U : Z -> Z -> R) (lam : Z -> R) (P : Z -> Z -> R) : Prop :=
  let s := fun k => Rmax (lam k - nu) 0 in let eta := (s 0%Z + mu)%R in
  forall i j, 0 <= i < n -> 0 <= j < n ->
    @rsum Rring 0 n (fun l => P i l * (@rsum Rring 0 n1 (fun k => U l k * (s k + mu) * U j k) + eta * (@delta Rring l j - @rsum Rring 0 n1 (fun k => U l k * U j k))))%R
    = (eta * @delta Rring i j)%R.
