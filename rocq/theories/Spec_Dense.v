(** Specification vocabulary for dense matrices. *)
From Coq Require Import ZArith List Lia Bool.
From Verif Require Import Base Mem Model_Dense.
Import ListNotations.
Open Scope Z_scope.

(** A matrix object whose recorded size is what is allocated. *)
Definition dm_ok {A} (m : dmat A) : Prop := dm_size m = zlen (dm_data m).

(** Region of an [nrow] x [ncol] matrix with leading dimension [ldm] at offset
    [off] fits in an array of [n] cells. *)
Definition fits (nrow ncol off ldm n : Z) : Prop :=
  0 <= nrow /\ 0 <= ncol /\ 0 <= off /\ ncol <= ldm /\
  (0 < nrow -> 0 < ncol -> off + (nrow - 1) * ldm + ncol <= n).

(** Cell [k] belongs to that region. *)
Definition in_region (nrow ncol off ldm k : Z) : Prop :=
  exists i j, 0 <= i < nrow /\ 0 <= j < ncol /\ k = off + i * ldm + j.

(** Matrix [m] is nrow x ncol and its (i,j) entry is [f i j]. *)
Definition dm_holds {A} (m : dmat A) (nrow ncol : Z) (f : Z -> Z -> A) : Prop :=
  dm_ok m /\ dm_nrow m = nrow /\ dm_ncol m = ncol /\ fits nrow ncol 0 (dm_ld m) (zlen (dm_data m)) /\
  forall i j, 0 <= i < nrow -> 0 <= j < ncol -> ld (dm_data m) (i * dm_ld m + j) = Some (f i j).

(** Strictly increasing list of integers. *)
Definition increasing (l : list Z) : Prop :=
  forall a b, 0 <= a < b -> b < zlen l -> nthz l a < nthz l b.

(** Mathematical block diagonal / vertical / horizontal concatenation of a list
    of (nrow, ncol, entries). *)
Fixpoint blkdiag_entry {A} (z : A) (l : list (Z * Z * (Z -> Z -> A))) (i j : Z) : A :=
  match l with
  | [] => z
  | (r, c, f) :: t =>
    if (i <? r) && (j <? c) then f i j
    else if (i <? r) || (j <? c) then z
    else blkdiag_entry z t (i - r) (j - c)
  end.
Fixpoint vertcat_entry {A} (z : A) (l : list (Z * Z * (Z -> Z -> A))) (i j : Z) : A :=
  match l with
  | [] => z
  | (r, c, f) :: t => if i <? r then f i j else vertcat_entry z t (i - r) j
  end.
Fixpoint horzcat_entry {A} (z : A) (l : list (Z * Z * (Z -> Z -> A))) (i j : Z) : A :=
  match l with
  | [] => z
  | (r, c, f) :: t => if j <? c then f i j else horzcat_entry z t i (j - c)
  end.
Definition rows_of {A} (l : list (Z * Z * (Z -> Z -> A))) : Z := fold_right Z.add 0 (map (fun x => fst (fst x)) l).
Definition cols_of {A} (l : list (Z * Z * (Z -> Z -> A))) : Z := fold_right Z.add 0 (map (fun x => snd (fst x)) l).

(** The matrices selected by [idx] from [mats] are described by [l]. *)
Definition selected {A} (mats : list (dmat A)) (idx : list Z) (l : list (Z * Z * (Z -> Z -> A))) : Prop :=
  zlen idx = zlen l /\
  forall k j x, getz idx k = Some j -> getz l k = Some x ->
    exists m, getz mats j = Some m /\ dm_holds m (fst (fst x)) (snd (fst x)) (snd x).

(** Source array holds matrix [f] of [nr] x [nc] with leading dimension [lds]. *)
Definition holds_at {A} (src : mem A) lds nr nc (f : Z -> Z -> A) : Prop :=
  forall i j, 0 <= i < nr -> 0 <= j < nc -> ld src (i * lds + j) = Some (f i j).

