(** Specification vocabulary for the small utilities. *)
From Coq Require Import ZArith List Lia Bool.
From Verif Require Import Base Mem Model_Utils.
Import ListNotations.
Open Scope Z_scope.

(** The vector holds exactly the sequence [l]. *)
Definition iv_holds (v : int_vec) (l : list Z) : Prop :=
  iv_cap v = zlen (iv_data v) /\ iv_len v = zlen l /\ zlen l <= iv_cap v /\
  forall k, 0 <= k < zlen l -> ld (iv_data v) k = getz l k.

Definition zsum (l : list Z) : Z := fold_right Z.add 0 l.

(** f lo + f (lo+1) + ... + f (hi-1). *)
Definition zsumf (f : Z -> Z) (lo hi : Z) : Z := zsum (map f (zrange lo hi)).

(** Total size of the work items lo, ..., hi-1. *)
Definition work (sizes : list Z) (lo hi : Z) : Z := zsumf (nthz sizes) lo hi.

(** Operations on vectors and the sequence operations they stand for. *)
Inductive iv_op := OpPush (x : Z) | OpSetCap (c : Z) | OpReset | OpConcat (v : int_vec) (l : list Z).

Definition iv_apply (v : int_vec) (o : iv_op) : option int_vec :=
  match o with
  | OpPush x => iv_push_back v x
  | OpSetCap c => iv_set_capacity v c
  | OpReset => Some (iv_reset v)
  | OpConcat w _ => iv_concatenate v w
  end.
Definition seq_apply (l : list Z) (o : iv_op) : list Z :=
  match o with
  | OpPush x => l ++ [x]
  | OpSetCap _ => l
  | OpReset => []
  | OpConcat _ m => l ++ m
  end.
Fixpoint iv_run (v : int_vec) (os : list iv_op) : option int_vec :=
  match os with [] => Some v | o :: os' => v' <- iv_apply v o; iv_run v' os' end.

(** Operands of concatenations are themselves valid vectors. *)
Definition op_ok (o : iv_op) : Prop :=
  match o with OpConcat w m => iv_holds w m | _ => True end.

(** Block boundaries: start at 0 and strictly increase. *)
Definition incr_from0 (b : list Z) : Prop :=
  getz b 0 = Some 0 /\ forall k, 0 <= k -> k + 1 < zlen b -> nthz b k < nthz b (k + 1).

(** Every block [b_k, b_(k+1)) has positive cost, and dropping its last item
    brings the cost under [bs]. *)
Definition block_sizes_ok (sizes : list Z) (bs : Z) (b : list Z) : Prop :=
  forall k, 0 <= k -> k + 1 < zlen b ->
    0 < work sizes (nthz b k) (nthz b (k + 1)) /\
    work sizes (nthz b k) (nthz b (k + 1) - 1) < bs.
