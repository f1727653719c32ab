(** Vectors, matrices and norms for the statements about pcg.  Not a model of
    code. *)
From Coq Require Import ZArith List Reals.
From Verif Require Import Base Mem FNum Spec_ID.
Import ListNotations.
Open Scope R_scope.

(** The array [m] of length [n] holds the vector [x]. *)
Definition array_of (n : Z) (m : mem R) (x : Z -> R) : Prop :=
  zlen m = n /\ forall i, (0 <= i < n)%Z -> ld m i = Some (x i).

Definition to_list (n : Z) (x : Z -> R) : list R := map x (zrange 0 n).
(** A x. *)
Definition mat_vec (n : Z) (A : Z -> Z -> R) (x : Z -> R) : Z -> R := fun i => Rsum 0 n (fun j => A i j * x j).
Definition inner (n : Z) (x y : Z -> R) : R := Rsum 0 n (fun i => x i * y i).
(** || x ||_2. *)
Definition norm (n : Z) (x : Z -> R) : R := sqrt (inner n x x).
(** b - A x. *)
Definition residual (n : Z) (A : Z -> Z -> R) (b x : Z -> R) : Z -> R := fun i => b i - mat_vec n A x i.
(** The callback computes the product with [A]. *)
Definition applies (n : Z) (A : Z -> Z -> R) (op : list R -> list R) : Prop :=
  forall x, op (to_list n x) = to_list n (mat_vec n A x).
(** The callback writes a vector of the length it reads. *)
Definition length_kept (n : Z) (op : list R -> list R) : Prop := forall v, zlen v = n -> zlen (op v) = n.

Definition nonzero (n : Z) (x : Z -> R) : Prop := exists i, (0 <= i < n)%Z /\ x i <> 0.
(** Symmetric positive definite. *)
Definition spd (n : Z) (A : Z -> Z -> R) : Prop :=
  (forall i j, (0 <= i < n)%Z -> (0 <= j < n)%Z -> A i j = A j i) /\
  forall x, nonzero n x -> 0 < inner n x (mat_vec n A x).

(** Square of the energy norm of [x]: the A-inner product of x with itself. *)
Definition energy (n : Z) (A : Z -> Z -> R) (x : Z -> R) : R := inner n x (mat_vec n A x).
