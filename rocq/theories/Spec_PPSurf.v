(** Specification vocabulary for proxy points on box surfaces. *)
From Coq Require Import ZArith Reals List Lia Bool.
From Verif Require Import Base Mem Model_Dense.
Import ListNotations.
Open Scope Z_scope.

(** The point P (its d coordinates are P 0, ..., P (d-1)) lies on the surface of the
    box [-a, a]^d. *)
Definition on_box (d : Z) (a : R) (P : Z -> R) : Prop :=
  (exists r, 0 <= r < d /\ (P r = a \/ P r = - a)%R) /\ forall r, 0 <= r < d -> (- a <= P r <= a)%R.

(** The point of the side "coordinate ax = s a" whose other coordinates are on the
    equidistant grid of m inner points: coordinate r is the grid value number c r. *)
Definition grid_point (m ax : Z) (s a : R) (c : Z -> Z) (r : Z) : R :=
  if r =? ax then (s * a)%R else (a * (-1 + 2 * IZR (c r + 1) / IZR (m + 1)))%R.

(** M holds npt points of xpt coordinates (coordinate r of point k in cell r npt + k). *)
Definition point_matrix (M : dmat R) (xpt npt : Z) (P : Z -> Z -> R) : Prop :=
  dm_nrow M = xpt /\ dm_ncol M = npt /\ dm_ld M = npt /\
  forall r k, 0 <= r < xpt -> 0 <= k < npt -> ld (dm_data M) (r * npt + k) = Some (P k r).
