(** Properties C10, C11. *)
From Coq Require Import ZArith List Lia Bool.
From Verif Require Import Base Mem Conc Model_Utils Model_Dense Spec_Dense Proof_Dense Proof_Dense2 Proof_Dense3.
Import ListNotations.
Open Scope Z_scope.

(** C10: copy_matrix copies every entry, changes nothing else, stays in bounds. *)
Theorem C10_copy_matrix : forall A nrow ncol (src : mem A) soff lds dst doff ldd,
  fits nrow ncol soff lds (zlen src) -> fits nrow ncol doff ldd (zlen dst) ->
  exists d, copy_matrix nrow ncol src soff lds dst doff ldd = Some d /\ zlen d = zlen dst /\
    (forall i j, 0 <= i < nrow -> 0 <= j < ncol -> getz d (doff + i * ldd + j) = getz src (soff + i * lds + j)) /\
    (forall k, ~ in_region nrow ncol doff ldd k -> getz d k = getz dst k).
Proof. exact @copy_matrix_spec. Qed.
Print Assumptions C10_copy_matrix.

(** C10: the OpenMP version does the same under every interleaving of its rows. *)
Theorem C10_copy_matrix_parallel : forall A nrow ncol (src : mem A) soff lds dst doff ldd l,
  fits nrow ncol soff lds (zlen src) -> fits nrow ncol doff ldd (zlen dst) ->
  inter (map (copy_row_acts ncol src soff lds doff ldd) (zrange 0 nrow)) l ->
  exists d, run l dst = Some d /\ zlen d = zlen dst /\
    (forall i j, 0 <= i < nrow -> 0 <= j < ncol -> getz d (doff + i * ldd + j) = getz src (soff + i * lds + j)) /\
    (forall k, ~ in_region nrow ncol doff ldd k -> getz d k = getz dst k).
Proof. exact @copy_matrix_omp. Qed.
Print Assumptions C10_copy_matrix_parallel.

(** C10: gathers. *)
Theorem C10_gather_rows : forall A nrow ncol idx (src dst : mem A) lds ldd nr f,
  fits nr ncol 0 lds (zlen src) -> fits nrow ncol 0 ldd (zlen dst) -> holds_at src lds nr ncol f ->
  zlen idx = nrow -> (forall i, In i idx -> 0 <= i < nr) ->
  exists d, gather_matrix_rows nrow ncol idx src lds dst ldd = Some d /\ zlen d = zlen dst /\
    (forall i j, 0 <= i < nrow -> 0 <= j < ncol -> ld d (i * ldd + j) = Some (f (nthz idx i) j)) /\
    (forall k, ~ in_region nrow ncol 0 ldd k -> getz d k = getz dst k).
Proof. exact @gather_rows_spec. Qed.
Print Assumptions C10_gather_rows.

Theorem C10_gather_columns : forall A nrow ncol idx (src dst : mem A) lds ldd nc f,
  fits nrow ncol 0 ldd (zlen dst) -> holds_at src lds nrow nc f ->
  zlen idx = ncol -> (forall i, In i idx -> 0 <= i < nc) ->
  exists d, gather_matrix_cols nrow ncol idx src lds dst ldd = Some d /\ zlen d = zlen dst /\
    (forall i j, 0 <= i < nrow -> 0 <= j < ncol -> ld d (i * ldd + j) = Some (f i (nthz idx j))) /\
    (forall k, ~ in_region nrow ncol 0 ldd k -> getz d k = getz dst k).
Proof. exact @gather_cols_spec. Qed.
Print Assumptions C10_gather_columns.

(** C10: copy / row permutation of matrix objects. *)
Theorem C10_copy : forall A (src dst : dmat A) nrow ncol f,
  dm_holds src nrow ncol f -> dm_ok dst ->
  exists m, dm_copy src dst = Some m /\ dm_holds m nrow ncol f.
Proof. exact @dm_copy_spec. Qed.
Print Assumptions C10_copy.

Theorem C10_permute_rows : forall A (m : dmat A) nrow ncol f p,
  dm_holds m nrow ncol f -> zlen p = nrow -> (forall i, In i p -> 0 <= i < nrow) ->
  exists m', dm_permute_rows m p = Some m' /\ dm_holds m' nrow ncol (fun i j => f (nthz p i) j).
Proof. exact @dm_permute_rows_spec. Qed.
Print Assumptions C10_permute_rows.

(** C10: block diagonal, vertical and horizontal concatenation of the selected
    matrices. *)
Theorem C10_blkdiag : forall A (z : A) mats idx l new_mat, selected mats idx l -> dm_ok new_mat ->
  exists m, dm_blkdiag z mats idx new_mat = Some m /\
    dm_holds m (rows_of l) (cols_of l) (blkdiag_entry z l).
Proof. exact @dm_blkdiag_spec. Qed.
Print Assumptions C10_blkdiag.

Theorem C10_vertcat : forall A (z : A) mats idx l new_mat ncol, selected mats idx l -> dm_ok new_mat ->
  0 < zlen idx -> (forall x, In x l -> snd (fst x) = ncol) ->
  exists m, dm_vertcat mats idx new_mat = Some m /\ dm_holds m (rows_of l) ncol (vertcat_entry z l).
Proof. exact @dm_vertcat_spec. Qed.
Print Assumptions C10_vertcat.

Theorem C10_horzcat : forall A (z : A) mats idx l new_mat nrow, selected mats idx l -> dm_ok new_mat ->
  0 < zlen idx -> (forall x, In x l -> fst (fst x) = nrow) ->
  exists m, dm_horzcat z mats idx new_mat = Some m /\ dm_holds m nrow (cols_of l) (horzcat_entry z l).
Proof. exact @dm_horzcat_spec. Qed.
Print Assumptions C10_horzcat.

(** C10: on a column-count mismatch vertcat leaves the destination alone. *)
Theorem C10_vertcat_mismatch : forall A mats idx (l : list (Z * Z * (Z -> Z -> A))) new_mat x y,
  selected mats idx l -> 0 < zlen idx ->
  In x l -> In y l -> snd (fst x) <> snd (fst y) -> dm_vertcat mats idx new_mat = Some new_mat.
Proof. exact @dm_vertcat_mismatch. Qed.
Print Assumptions C10_vertcat_mismatch.

(** C10: transposition for every thread count and every interleaving. *)
Theorem C10_transpose : forall A n_thread nr nc (src dst : mem A) lds ldd f,
  1 <= n_thread -> 0 <= nr -> holds_at src lds nr nc f -> fits nc nr 0 ldd (zlen dst) ->
  exists ths, transpose_threads n_thread nr nc src lds ldd = Some ths /\
  forall l, inter ths l ->
  exists d, run l dst = Some d /\ zlen d = zlen dst /\
    (forall i j, 0 <= i < nc -> 0 <= j < nr -> ld d (i * ldd + j) = Some (f j i)) /\
    (forall k, ~ in_region nc nr 0 ldd k -> getz d k = getz dst k).
Proof.
  intros A n_thread nr nc src dst lds ldd f Ht Hr Hh Hf.
  destruct (@transpose_threads_defined A n_thread nr nc src lds ldd Ht Hr) as [ths E].
  exists ths. split; auto. intros l Hl. eapply transpose_spec; eauto.
Qed.
Print Assumptions C10_transpose.

(** C11: selections by strictly increasing index lists. *)
Theorem C11_select_rows : forall A (m : dmat A) nrow ncol f idx,
  dm_holds m nrow ncol f -> increasing idx -> (forall i, In i idx -> 0 <= i < nrow) ->
  exists m', dm_select_rows m idx = Some m' /\ dm_holds m' (zlen idx) ncol (fun i j => f (nthz idx i) j).
Proof. exact @dm_select_rows_spec. Qed.
Print Assumptions C11_select_rows.

Theorem C11_select_columns : forall A (m : dmat A) nrow ncol f idx,
  dm_holds m nrow ncol f -> increasing idx -> (forall i, In i idx -> 0 <= i < ncol) ->
  exists m', dm_select_columns m idx = Some m' /\ dm_holds m' nrow (zlen idx) (fun i j => f i (nthz idx j)).
Proof. exact @dm_select_columns_spec. Qed.
Print Assumptions C11_select_columns.

(** Non-vacuity: a 2x3 matrix with leading dimension 4. *)
Definition ex_m : dmat Z :=
  mkDM 2 3 4 7 [Some 1; Some 2; Some 3; None; Some 4; Some 5; Some 6].
Example ex_m_holds : dm_holds ex_m 2 3 (fun i j => 3 * i + j + 1).
Proof.
  unfold dm_holds, dm_ok, fits. simpl. repeat split; try lia; try (cbv; discriminate).
  intros i j Hi Hj. assert (i = 0 \/ i = 1) as [->| ->] by lia;
  assert (j = 0 \/ j = 1 \/ j = 2) as [->|[->| ->]] by lia; reflexivity.
Qed.
Example ex_selected : selected [ex_m; ex_m] [1; 0] [(2, 3, fun i j => 3 * i + j + 1); (2, 3, fun i j => 3 * i + j + 1)].
Proof.
  split; [reflexivity|]. intros k j x Hk Hx. pose proof (getz_range _ _ _ Hk) as R.
  assert (k = 0 \/ k = 1) as [->| ->] by zlia; injection Hk as <-; injection Hx as <-;
  (eexists; split; [reflexivity|apply ex_m_holds]).
Qed.
Example ex_select_columns : exists m', dm_select_columns ex_m [0; 2] = Some m' /\ dm_holds m' 2 2 (fun i j => 3 * i + nthz [0; 2] j + 1).
Proof.
  apply (dm_select_columns_spec ex_m 2 3 (fun i j => 3 * i + j + 1)).
  - apply ex_m_holds.
  - intros a b Hab Hb. assert (a = 0 /\ b = 1) as [-> ->] by zlia. reflexivity.
  - intros i [<-|[<-|[]]]; lia.
Qed.
Example ex_transpose : exists ths d, transpose_threads 2 2 3 (dm_data ex_m) 4 2 = Some ths /\
  run (concat ths) (alloc 6) = Some d /\ d = full [1; 4; 2; 5; 3; 6].
Proof. do 2 eexists. split; [reflexivity|]. split; reflexivity. Qed.

(** C11: for a list that is not increasing the in-place selection destroys data:
    swapping the two rows of a matrix yields two copies of the second row. *)
Theorem C11_arbitrary_order_refuted : exists (m : dmat Z) idx m',
  dm_holds m 2 1 (fun i j => 10 + i) /\ (forall i, In i idx -> 0 <= i < 2) /\ NoDup idx /\
  dm_select_rows m idx = Some m' /\ ~ dm_holds m' 2 1 (fun i j => 10 + nthz idx i).
Proof.
  exists (mkDM 2 1 1 2 [Some 10; Some 11]), [1; 0]. eexists. split; [|split; [|split; [|split; [reflexivity|]]]].
  - unfold dm_holds, dm_ok, fits. simpl. repeat split; try lia; try (cbv; discriminate).
    intros i j Hi Hj. assert (i = 0 \/ i = 1) as [->| ->] by lia; assert (j = 0) by lia; subst; reflexivity.
  - intros i [<-|[<-|[]]]; lia.
  - repeat constructor; simpl; intuition lia.
  - intros (_ & _ & _ & _ & H). specialize (H 1 0 ltac:(lia) ltac:(lia)). cbv in H. discriminate.
Qed.
Print Assumptions C11_arbitrary_order_refuted.
