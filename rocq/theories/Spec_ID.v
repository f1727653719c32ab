(** What an interpolative decomposition is.  The rows of an n x m matrix come in
    n / kdim groups of kdim consecutive rows (one group per point, kdim = 1: one
    row per point).  Not a model of code. *)
From Coq Require Import ZArith QArith List Bool Permutation Reals Qreals.
From Verif Require Import Base Mem FNum Model_Utils Model_Dense Model_ID Spec_Utils Spec_Dense.
Import ListNotations.

(** Division always gives a value (IEEE arithmetic). *)
Definition div_total (F : fnum) : Prop := forall a b : F, exists c, fdiv a b = Some c.

(** Row [k] of the skeleton is row [skrow kdim J k] of the matrix. *)
Definition skrow (kdim : Z) (J : list Z) (k : Z) : Z := (nthz J (k / kdim) * kdim + k mod kdim)%Z.

(** Valid skeleton of [npt] points with its n x r interpolation matrix [u]. *)
Definition skeleton_of {F : fnum} (kdim npt : Z) (J : list Z) (u : Z -> Z -> F) : Prop :=
  increasing J /\ (forall x, In x J -> 0 <= x < npt)%Z /\
  (forall k k', 0 <= k < zlen J * kdim -> 0 <= k' < zlen J * kdim ->
     u (skrow kdim J k) k' = if k =? k' then flit 1%Q else flit 0%Q)%Z.

(** Schedules of the two "omp parallel for" loops. *)
Definition schedules (kdim nrow ncol : Z) (ord0 : list Z) (ord : Z -> list Z) : Prop :=
  Permutation ord0 (zrange 0 nrow) /\
  forall i, (0 <= i < Z.min nrow ncol / kdim)%Z ->
    Permutation (ord i) (if kdim =? 1 then zrange 0 (nrow - i - 1) else zrange (i + 1) (nrow / kdim))%Z.

(** The rank asked for, if any. *)
Definition rank_limit {F : fnum} (stp : @stop F) (r : Z) : Prop :=
  match stp with QR_RANK q => (r <= Z.max 0 q)%Z | _ => True end.

(** ** Over the reals *)
Open Scope R_scope.
Definition Rsum (lo hi : Z) (f : Z -> R) : R := fold_right Rplus 0 (map f (zrange lo hi)).

(** Row [i] of the matrix minus its reconstruction from the skeleton rows. *)
Definition resid (kdim : Z) (J : list Z) (a u : Z -> Z -> R) (i l : Z) : R :=
  a i l - Rsum 0 (zlen J * kdim) (fun k => u i k * a (skrow kdim J k) l).

(** Frobenius norm of group [j] of rows of [g] (m columns). *)
Definition grp_norm (kdim m : Z) (g : Z -> Z -> R) (j : Z) : R :=
  sqrt (Rsum 0 kdim (fun t => Rsum 0 m (fun l => g (j * kdim + t)%Z l * g (j * kdim + t)%Z l))).

(** [mu] is the largest group norm (0 if there is no group). *)
Definition max_norm (kdim npt m : Z) (g : Z -> Z -> R) (mu : R) : Prop :=
  (forall j, (0 <= j < npt)%Z -> grp_norm kdim m g j <= mu) /\
  (mu = 0 \/ exists j, (0 <= j < npt)%Z /\ mu = grp_norm kdim m g j).

(** The tolerance the documentation promises, never under rounding level. *)
Definition tolerance (dbl : bool) (stp : @stop Rnum) (kdim m : Z) (mu : R) : R :=
  let eps := Q2R (if dbl then 1 # 10 ^ 15 else 1 # 10 ^ 6) in
  let lo := sqrt (IZR m) * eps in
  match stp with
  | QR_RANK _ => Rmax lo (Q2R (1 # 10 ^ 15)) * mu
  | QR_REL_NRM tol => Rmax lo (tol * sqrt (IZR kdim)) * mu
  | QR_ABS_NRM tol => Rmax lo tol
  end.

(** Residual of row [i] orthogonal to every skeleton row. *)
Definition orthogonal_to_skeleton (kdim m : Z) (J : list Z) (a u : Z -> Z -> R) (i : Z) : Prop :=
  forall k, (0 <= k < zlen J * kdim)%Z -> Rsum 0 m (fun l => resid kdim J a u i l * a (skrow kdim J k) l) = 0.
