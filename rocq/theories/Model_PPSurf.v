(** Model of H2P_generate_proxy_point_surface (src/H2Pack_gen_proxy_point.c:620-742):
    proxy points on the surfaces of boxes.  Numbers are reals ([None]: a division by
    zero, a cell outside its array or not initialised); a NULL pointer is a cell that
    is not initialised; messages and deallocation are left out. *)
From Coq Require Import ZArith Reals List Lia Bool.
From Verif Require Import Base Mem Model_Dense Model_Nys.
Import ListNotations.
Open Scope Z_scope.

(** H2Pack_config.h:103 ALPHA_H2. *)
Definition alpha_H2 : R := (999999 / 1000000)%R.

(** ceil of the C library. *)
Definition ceil (x : R) : Z := - Int_part (- x).

(** The assignments of the coordinates of point k, such as lines 665-667. *)
Fixpoint put_point (npt k r : Z) (P : list R) (d : mem R) : option (mem R) :=
  match P with [] => Some d | a :: P => d <- st d (r * npt + k) a; put_point npt k (r + 1) P d end.
(** Consecutive points: index + 0, index + 1, ... *)
Fixpoint put_points (npt k : Z) (Ps : list (list R)) (d : mem R) : option (mem R) :=
  match Ps with [] => Some d | P :: Ps => d <- put_point npt k 0 P d; put_points npt (k + 1) Ps d end.

(** H2Pack_gen_proxy_point.c:665-687 and 702-712: the points of one grid position. *)
Definition faces3 (hi hj : R) : list (list R) :=
  [[hi; hj; -1]; [hi; hj; 1]; [hi; -1; hj]; [hi; 1; hj]; [-1; hi; hj]; [1; hi; hj]]%R.
Definition faces2 (hi : R) : list (list R) := [[hi; -1]; [hi; 1]; [-1; hi]; [1; hi]]%R.

(** H2Pack_gen_proxy_point.c:650-692. *)
Definition unit_points3 (m npt : Z) (h : R) (d : mem R) : option (mem R) :=
  s <- zfor 0 m (fun _ (s : mem R * Z * R) => let '(d, index, hi) := s in
    let hi := (hi + h)%R in
    '(d, index, _) <- zfor 0 m (fun _ (s : mem R * Z * R) => let '(d, index, hj) := s in
      let hj := (hj + h)%R in
      d <- put_points npt index (faces3 hi hj) d; Some (d, index + 6, hj)) (d, index, (-1)%R);
    Some (d, index, hi)) (d, 0, (-1)%R);
  Some (fst (fst s)).
(** H2Pack_gen_proxy_point.c:693-716. *)
Definition unit_points2 (m npt : Z) (h : R) (d : mem R) : option (mem R) :=
  s <- zfor 0 m (fun _ (s : mem R * Z * R) => let '(d, index, hi) := s in
    let hi := (hi + h)%R in
    d <- put_points npt index (faces2 hi) d; Some (d, index + 4, hi)) (d, 0, (-1)%R);
  Some (fst (fst s)).

(** H2Pack_gen_proxy_point.c:620-742; [Some None]: *pp_ is not set (lines 625-629). *)
Definition gen_pp_surface (pt_dim xpt_dim min_npt max_level min_level : Z) (max_L : R) : option (option (mem (dmat R))) :=
  if (pt_dim <? 2) || (3 <? pt_dim) then Some None else
  let pp := alloc (max_level + 1) in
  let m := if pt_dim =? 2 then Z.quot (min_npt + 3) 4 else ceil (sqrt (IZR min_npt / 6)) in
  let npt := if pt_dim =? 2 then m * 4 else m * m * 6 in
  h <- Rdiv_opt 2 (IZR (m + 1));
  let unit := alloc (xpt_dim * npt) in
  unit <- (if pt_dim =? 3 then unit_points3 m npt h unit else Some unit);
  unit <- (if pt_dim =? 2 then unit_points2 m npt h unit else Some unit);
  unit <- (if pt_dim <? xpt_dim then zfor 0 npt (fun i d => st d (npt * pt_dim + i) 0%R) unit else Some unit);
  pow <- zfor 0 min_level (fun _ p => Some (p * 2)%R) (1 / 2)%R;
  '(pp, _) <- zfor min_level (max_level + 1) (fun level (s : mem (dmat R) * R) => let '(pp, pow) := s in
    let pow := (pow * 2)%R in
    let M := dm_init xpt_dim npt in
    w <- Rdiv_opt max_L pow;
    let box_width := (w * (1 / 2))%R in
    let adm_width := ((1 + 2 * alpha_H2) * box_width)%R in
    d <- zfor 0 (xpt_dim * npt) (fun i d => v <- ld unit i; st d i (adm_width * v)%R) (dm_data M);
    pp <- st pp level (dm_set_data M d); Some (pp, pow)) (pp, pow);
  Some (Some pp).
