(** Models of small utilities: src/utils.c (calc_block_spos_len), the workload
    partitioner of src/H2Pack_utils.c and H2P_int_vec of
    src/H2Pack_aux_structs.{h,c}. *)
From Coq Require Import ZArith List Lia Bool.
From Verif Require Import Base Mem.
Import ListNotations.
Open Scope Z_scope.

(** utils.c:26-48 calc_block_spos_len: (blk_spos, blk_len).  Division by zero is
    undefined behaviour; C's / and % truncate. *)
Definition calc_block_spos_len (len nblk iblk : Z) : option (Z * Z) :=
  if (iblk <? 0) || (nblk <? iblk) then Some (-1, 0)
  else if nblk =? 0 then None
  else
    let rem := Z.rem len nblk in
    let bs0 := Z.quot len nblk in
    let bs1 := bs0 + 1 in
    if iblk <? rem then Some (bs1 * iblk, bs1)
    else Some (bs0 * iblk + rem, bs0).

(** H2Pack_aux_structs.h:42-48 struct H2P_int_vec. *)
Record int_vec := mkIV { iv_cap : Z; iv_len : Z; iv_data : mem Z }.

(** H2Pack_aux_structs.c:54-64 H2P_int_vec_init. *)
Definition iv_init (capacity : Z) : int_vec :=
  let c := if capacity <? 0 then 128 else capacity in mkIV c 0 (alloc c).

(** H2Pack_aux_structs.c:77-85 H2P_int_vec_reset. *)
Definition iv_reset (v : int_vec) : int_vec := mkIV 128 0 (alloc 128).

(** H2Pack_aux_structs.h:79-90 H2P_int_vec_set_capacity. *)
Definition iv_set_capacity (v : int_vec) (capacity : Z) : option int_vec :=
  if iv_cap v <? capacity then
    nd <- mcpy (alloc capacity) 0 (iv_data v) 0 (iv_len v);
    Some (mkIV capacity (iv_len v) nd)
  else Some v.

(** H2Pack_aux_structs.h:98-104 H2P_int_vec_push_back. *)
Definition iv_push_back (v : int_vec) (value : Z) : option int_vec :=
  v1 <- (if iv_cap v =? iv_len v then iv_set_capacity v (iv_cap v * 2) else Some v);
  d <- st (iv_data v1) (iv_len v1) value;
  Some (mkIV (iv_cap v1) (iv_len v1 + 1) d).

(** H2Pack_aux_structs.c:88-97 H2P_int_vec_concatenate (dst_vec, src_vec
    distinct objects). *)
Definition iv_concatenate (dst src : int_vec) : option int_vec :=
  let s_len := iv_len src in
  let d_len := iv_len dst in
  let new_length := s_len + d_len in
  d1 <- (if iv_cap dst <? new_length then iv_set_capacity dst new_length else Some dst);
  nd <- mcpy (iv_data d1) d_len (iv_data src) 0 s_len;
  Some (mkIV (iv_cap d1) new_length nd).

(** H2Pack_aux_structs.c:100-106 H2P_int_vec_gather (three distinct objects). *)
Definition iv_gather (src idx dst : int_vec) : option int_vec :=
  d1 <- iv_set_capacity dst (iv_len idx);
  nd <- zfor 0 (iv_len idx) (fun i d =>
          ii <- ld (iv_data idx) i;
          v  <- ld (iv_data src) ii;
          st d i v) (iv_data d1);
  Some (mkIV (iv_cap d1) (iv_len idx) nd).

(** H2Pack_utils.c:455-483 H2P_partition_workload.  State of the main loop:
    (curr_blk_size, idx, data).  size_t values are unbounded here. *)
Definition partition_workload (n_work : Z) (work_sizes : list Z) (total_size n_block : Z)
    (displs : int_vec) : option int_vec :=
  v <- iv_set_capacity displs (n_block + 1);
  d0 <- st (iv_data v) 0 0;
  d1 <- zfor 1 (iv_cap v) (fun i d => st d i n_work) d0;
  if n_block =? 0 then None else
  let blk_size := Z.quot total_size n_block + 1 in
  '(curr, idx, d2) <-
    zfor 0 n_work (fun i s => let '(curr, idx, d) := s in
      w <- getz work_sizes i;
      let curr := curr + w in
      if blk_size <=? curr then
        d' <- st d idx (i + 1);
        Some (0, idx + 1, d')
      else Some (curr, idx, d)) (0, 1, d1);
  if 0 <? curr then
    d3 <- st d2 idx n_work;
    Some (mkIV (iv_cap v) (idx + 1) d3)
  else Some (mkIV (iv_cap v) idx d2).
