(** Model of src/DAG_task_queue.c (whole file) and of the structure declared in
    src/DAG_task_queue.h:4-15. *)
From Coq Require Import ZArith List Lia Bool.
From Verif Require Import Base.
Import ListNotations.
Open Scope Z_scope.

(** ** The immutable part of [struct DAG_task_queue]
    (DAG_task_queue.h:6,7,10,11,12): written by init, never changed later. *)
Record graph := mkGraph {
  g_n        : Z;          (* max_task_id *)
  g_num_task : Z;          (* num_task *)
  g_src      : list Z;     (* DAG_src_ptr, max_task_id + 1 entries *)
  g_dst      : list Z;     (* DAG_dst_idx, num_dep entries *)
  g_indeg    : list Z      (* indeg, max_task_id entries *)
}.

(** ** The mutable part (DAG_task_queue.h:8,9,13,14). *)
Record queue := mkQueue {
  q_head  : Z;             (* task_head *)
  q_tail  : Z;             (* task_tail *)
  q_indeg : list Z;        (* curr_indeg, max_task_id entries *)
  q_queue : list Z         (* task_queue, max_task_id entries *)
}.

(** DAG_task_queue.c:118-133, DAG_task_queue_reset: one loop over all task ids.
    The fields of the argument queue only provide the previously allocated
    arrays; out of bounds accesses give [None].  The NULL check of line 120 is
    not modelled (a model queue always exists). *)
Definition tq_reset (g : graph) (q : queue) : option queue :=
  zfor 0 (g_n g) (fun i q =>
    d   <- getz (g_indeg g) i;
    ci  <- setz (q_indeg q) i d;
    tq  <- setz (q_queue q) i (-1);
    if d =? 0 then
      tq' <- setz tq (q_tail q) i;
      Some (mkQueue (q_head q) (q_tail q + 1) ci tq')
    else Some (mkQueue (q_head q) (q_tail q) ci tq))
  (mkQueue 0 0 (q_indeg q) (q_queue q)).

(** DAG_task_queue.c:42-50: the counting loops of DAG_task_queue_init.  State:
    (num_task, indeg). *)
Definition tq_count (n : Z) (src dst : list Z) : option (Z * list Z) :=
  zfor 0 n (fun i st =>
    s <- getz src i;
    e <- getz src (i + 1);
    zfor s e (fun j '(nt, indeg) =>
      d <- getz dst j;
      v <- getz indeg d;
      indeg' <- setz indeg d (v + 1);
      Some ((if d =? i then nt - 1 else nt), indeg')) st)
  (n, arr n 0).

(** DAG_task_queue.c:12-56, DAG_task_queue_init.  [None]: an access outside an
    array.  [Some None]: the early return of line 36 (num_dep does not match),
    which leaves the caller's queue pointer unset.  The freshly malloc'ed
    arrays [junk1], [junk2] (curr_indeg, task_queue) have arbitrary contents.
    Allocation failure is not modelled. *)
Definition tq_init (n num_dep : Z) (src dst junk1 junk2 : list Z)
  : option (option (graph * queue)) :=
  m <- getz src n;
  if negb (num_dep =? m) then Some None else
  '(nt, indeg) <- tq_count n src dst;
  let g := mkGraph n nt src dst indeg in
  q <- tq_reset g (mkQueue 0 0 junk1 junk2);
  Some (Some (g, q)).

(** ** Concurrent execution

    Control state of one thread: outside any call, or inside
    DAG_task_queue_get_task after its fetch_add (DAG_task_queue.c:80-91), or
    inside DAG_task_queue_finish_task (DAG_task_queue.c:97-115) at edge [j]. *)
Inductive tstate :=
  | Idle
  | Load (h : Z)                    (* line 85/89: about to load task_queue[h] *)
  | Fin (t j : Z)                   (* line 100: about to test j < DAG_src_ptr[t+1] *)
  | Push (t j d : Z)                (* line 110: about to fetch_add task_tail for d *)
  | Store (t j d k : Z).            (* line 111: about to store d into task_queue[k] *)

(** Observable events: what the callers of the API see. *)
Inductive event :=
  | Got (i : nat) (t : Z)           (* get_task returned task t to thread i *)
  | GotNone (i : nat)               (* get_task returned -1 to thread i *)
  | FinCall (i : nat) (t : Z)       (* thread i called finish_task(t) *)
  | FinRet (i : nat) (t : Z).       (* that call returned *)

(** Whole system: the queue, the threads (any number: thread ids are [nat]), the
    tasks handed out and not yet passed to finish_task, and the history of
    events, newest first. *)
Record sys := mkSys {
  s_q     : queue;
  s_thr   : nat -> tstate;
  s_held  : list Z;
  s_trace : list event
}.

Definition set_thr (f : nat -> tstate) (i : nat) (t : tstate) : nat -> tstate :=
  fun k => if Nat.eqb k i then t else f k.

Inductive act :=
  | CallGet                         (* an idle thread calls get_task *)
  | CallFin (t : Z)                 (* an idle thread calls finish_task(t) *)
  | Step.                           (* a thread inside a call performs its next atomic step *)

Inductive outcome := Next (s : sys) | NotEnabled | Ub.

(** One atomic step of thread [i].  Each memory operation on shared state of
    the C code is one step: the fetch_add of task_head (line 80), the load of
    the slot (lines 85, 89; a load of -1 stays in the spin loop), the
    sub_fetch of curr_indeg[dst] (line 105), the fetch_add of task_tail (line
    110) and the store of the slot (line 111).  DAG_src_ptr and DAG_dst_idx
    are never written after init, so reading them needs no step of its own.
    Client protocol: finish_task(t) is only called for a task that was handed
    out and not yet finished ([s_held]); the caller may be any thread.
    Counters are unbounded integers. *)
Definition step (g : graph) (s : sys) (i : nat) (a : act) : outcome :=
  let q := s_q s in
  match s_thr s i, a with
  | Idle, CallGet =>
      let q' := mkQueue (q_head q + 1) (q_tail q) (q_indeg q) (q_queue q) in
      if g_num_task g <=? q_head q
      then Next (mkSys q' (s_thr s) (s_held s) (GotNone i :: s_trace s))
      else Next (mkSys q' (set_thr (s_thr s) i (Load (q_head q))) (s_held s) (s_trace s))
  | Load h, Step =>
      match getz (q_queue q) h with
      | None => Ub
      | Some v =>
          if v =? -1 then Next s
          else Next (mkSys q (set_thr (s_thr s) i Idle) (v :: s_held s) (Got i v :: s_trace s))
      end
  | Idle, CallFin t =>
      if in_dec Z.eq_dec t (s_held s) then
        match getz (g_src g) t with
        | None => Ub
        | Some j => Next (mkSys q (set_thr (s_thr s) i (Fin t j))
                            (remove Z.eq_dec t (s_held s)) (FinCall i t :: s_trace s))
        end
      else NotEnabled
  | Fin t j, Step =>
      match getz (g_src g) (t + 1) with
      | None => Ub
      | Some e =>
          if j <? e then
            match getz (g_dst g) j with
            | None => Ub
            | Some d =>
              match getz (q_indeg q) d with
              | None => Ub
              | Some v =>
                match setz (q_indeg q) d (v - 1) with
                | None => Ub
                | Some ci =>
                  let q' := mkQueue (q_head q) (q_tail q) ci (q_queue q) in
                  Next (mkSys q'
                          (set_thr (s_thr s) i (if v - 1 =? 0 then Push t j d else Fin t (j + 1)))
                          (s_held s) (s_trace s))
                end
              end
            end
          else Next (mkSys q (set_thr (s_thr s) i Idle) (s_held s) (FinRet i t :: s_trace s))
      end
  | Push t j d, Step =>
      let q' := mkQueue (q_head q) (q_tail q + 1) (q_indeg q) (q_queue q) in
      Next (mkSys q' (set_thr (s_thr s) i (Store t j d (q_tail q))) (s_held s) (s_trace s))
  | Store t j d k, Step =>
      match setz (q_queue q) k d with
      | None => Ub
      | Some tq => Next (mkSys (mkQueue (q_head q) (q_tail q) (q_indeg q) tq)
                           (set_thr (s_thr s) i (Fin t (j + 1))) (s_held s) (s_trace s))
      end
  | _, _ => NotEnabled
  end.

(** Start of a parallel region: all threads idle, nothing handed out. *)
Definition start (q : queue) : sys := mkSys q (fun _ => Idle) [] [].

(** States reachable by any interleaving of any number of threads. *)
Inductive reach (g : graph) (q0 : queue) : sys -> Prop :=
  | reach_start : reach g q0 (start q0)
  | reach_step  : forall s i a s', reach g q0 s -> step g s i a = Next s' -> reach g q0 s'.
