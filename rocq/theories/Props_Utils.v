(** Properties C07, C08, C09. *)
From Coq Require Import ZArith List Lia Bool.
From Verif Require Import Base Mem Model_Utils Spec_Utils Proof_Utils.
Import ListNotations.
Open Scope Z_scope.

(** C07: the nblk ranges stay inside [0,len), cover it, do not overlap, come in
    order and differ in length by at most one. *)
Theorem C07_blocks_tile : forall len nblk, 0 <= len -> 0 < nblk ->
  (forall i, 0 <= i < nblk -> exists s l, calc_block_spos_len len nblk i = Some (s, l) /\
      0 <= s /\ 0 <= l /\ s + l <= len) /\
  (forall x, 0 <= x < len -> exists i s l, 0 <= i < nblk /\
      calc_block_spos_len len nblk i = Some (s, l) /\ s <= x < s + l) /\
  (forall i j s l s' l', 0 <= i < j -> j < nblk ->
      calc_block_spos_len len nblk i = Some (s, l) ->
      calc_block_spos_len len nblk j = Some (s', l') -> s + l <= s' /\ l' <= l <= l' + 1).
Proof. exact cb_tiles. Qed.
Print Assumptions C07_blocks_tile.

(** C07: indices outside 0..nblk are rejected with (-1, 0). *)
Theorem C07_rejects_out_of_range : forall len nblk i,
  i < 0 \/ nblk < i -> calc_block_spos_len len nblk i = Some (-1, 0).
Proof. exact cb_rejects. Qed.
Print Assumptions C07_rejects_out_of_range.

(** C07, a defect: block index nblk, which does not exist, is not rejected and
    yields a range outside [0,len) (the test is [iblk > nblk]). *)
Theorem C07_rejects_nblk_refuted :
  exists len nblk s l, 0 < nblk /\ calc_block_spos_len len nblk nblk = Some (s, l) /\ s = len /\ 0 < l.
Proof. exists 4, 2, 4, 2. repeat split; reflexivity. Qed.
Print Assumptions C07_rejects_nblk_refuted.

Example C07_ex : map (calc_block_spos_len 7 3) [0; 1; 2] = [Some (0, 3); Some (3, 2); Some (5, 2)].
Proof. reflexivity. Qed.

(** C08: for nonnegative sizes adding up to total_size, and any destination
    vector, the call succeeds (no out-of-bounds write) and delivers boundaries
    from 0, strictly increasing, at most n_block+1 of them; everything after the
    last boundary has size 0; each block has positive size and is under
    total/n_block+1 without its last item; each block but the last reaches that
    size. *)
Theorem C08_partition_workload : forall n sizes total n_block displs dl,
  iv_holds displs dl -> zlen sizes = n -> (forall i, 0 <= i < n -> 0 <= nthz sizes i) ->
  total = work sizes 0 n -> 1 <= n_block ->
  exists v b, partition_workload n sizes total n_block displs = Some v /\ iv_holds v b /\
    incr_from0 b /\ zlen b <= n_block + 1 /\
    nthz b (zlen b - 1) <= n /\
    (forall i, nthz b (zlen b - 1) <= i < n -> nthz sizes i = 0) /\
    block_sizes_ok sizes (total / n_block + 1) b /\
    (forall k, 0 <= k -> k + 2 < zlen b ->
       total / n_block + 1 <= work sizes (nthz b k) (nthz b (k + 1))).
Proof. exact partition_workload_spec. Qed.
Print Assumptions C08_partition_workload.

(** C08, the stronger reading "the blocks cover all work items" is false:
    trailing zero-cost items are in no block. *)
Theorem C08_covers_all_items_refuted : exists n sizes n_block v,
  zlen sizes = n /\ (forall i, 0 <= i < n -> 0 <= nthz sizes i) /\ 1 <= n_block /\
  partition_workload n sizes (work sizes 0 n) n_block (iv_init 8) = Some v /\
  iv_holds v [0; 1] /\ 1 < n.
Proof.
  exists 3, [6; 0; 0], 2. eexists. split; [reflexivity|]. split.
  { intros i Hi. assert (i = 0 \/ i = 1 \/ i = 2) as [->|[->| ->]] by lia; cbv; discriminate. }
  split; [lia|]. split; [reflexivity|]. split; [|lia].
  unfold iv_holds. simpl. repeat split; try (cbv; discriminate).
  intros k Hk. assert (k = 0 \/ k = 1) as [->| ->] by zlia; reflexivity.
Qed.
Print Assumptions C08_covers_all_items_refuted.

Example C08_ex : exists v, partition_workload 5 [3; 3; 1; 2; 3] 12 3 (iv_init 4) = Some v /\
  iv_data v = full [0; 2; 5; 5] /\ iv_len v = 3.
Proof. eexists. split; [reflexivity|]. split; reflexivity. Qed.

(** C09: every history of operations starting from any initialised vector of
    positive capacity succeeds and leaves exactly the sequence the operations
    describe. *)
Theorem C09_history_refines_sequence : forall os v l, iv_holds v l -> 0 < iv_cap v ->
  (forall o, In o os -> op_ok o) ->
  exists v', iv_run v os = Some v' /\ iv_holds v' (fold_left seq_apply os l) /\ 0 < iv_cap v'.
Proof. exact iv_run_refines. Qed.
Print Assumptions C09_history_refines_sequence.

(** C09: a fresh vector (capacity >= 0, or negative meaning the default) is
    empty and valid. *)
Theorem C09_init : forall c, iv_holds (iv_init c) [] /\ (c <> 0 -> 0 < iv_cap (iv_init c)).
Proof.
  intros c. destruct (Z_lt_le_dec c 0).
  - split; [now apply iv_holds_init_neg|]. unfold iv_init. destruct (Z.ltb_spec c 0); simpl; lia.
  - split; [now apply iv_holds_init|]. unfold iv_init. destruct (Z.ltb_spec c 0); simpl; lia.
Qed.
Print Assumptions C09_init.

(** C09: gather puts src[idx[i]] at position i of the destination. *)
Theorem C09_gather : forall src l idx il dst dl,
  iv_holds src l -> iv_holds idx il -> iv_holds dst dl ->
  (forall i, In i il -> 0 <= i < zlen l) ->
  exists v', iv_gather src idx dst = Some v' /\ iv_holds v' (map (nthz l) il).
Proof. exact iv_gather_spec. Qed.
Print Assumptions C09_gather.

(** C09, a defect: a vector initialised with capacity 0 is not usable: the first
    push_back doubles 0 and writes out of bounds.  (The header says capacity <= 0
    selects the default.) *)
Theorem C09_capacity_zero_refuted : exists x,
  iv_holds (iv_init 0) [] /\ iv_push_back (iv_init 0) x = None.
Proof. exists 5. split; [apply iv_holds_init; lia|reflexivity]. Qed.
Print Assumptions C09_capacity_zero_refuted.

Example C09_ex : exists v, iv_run (iv_init 1) [OpPush 4; OpPush 5; OpPush 6; OpSetCap 9; OpPush 7] = Some v /\
  iv_holds v [4; 5; 6; 7].
Proof.
  destruct (iv_run_refines [OpPush 4; OpPush 5; OpPush 6; OpSetCap 9; OpPush 7] (iv_init 1) []) as (v & E & H & _).
  - apply iv_holds_init; lia.
  - simpl; lia.
  - intros o [<-|[<-|[<-|[<-|[<-|[]]]]]]; exact I.
  - exists v. auto.
Qed.
