(** Specification vocabulary for the task queue, independent of the queue's
    implementation: dependency graphs in CSR form and what the history of API
    events must look like. *)
From Coq Require Import ZArith List Lia Bool.
From Verif Require Import Base Model_DagQueue.
Import ListNotations.
Open Scope Z_scope.

(** [edge_at n src dst i j d]: entry [j] of CSR row [i] (of [n] rows) is [d]. *)
Definition edge_at (n : Z) (src dst : list Z) (i j d : Z) : Prop :=
  0 <= i < n /\
  (exists s e, getz src i = Some s /\ getz src (i + 1) = Some e /\ s <= j < e) /\
  getz dst j = Some d.

(** Task [d] relies on task [p]. *)
Definition relies_on (n : Z) (src dst : list Z) (d p : Z) : Prop :=
  exists j, edge_at n src dst p j d.

(** Task [i] is to be skipped. *)
Definition skipped (n : Z) (src dst : list Z) (i : Z) : Prop := relies_on n src dst i i.

(** A CSR dependency matrix as the header asks for: [n] rows, row pointers
    from 0 to the number of entries, every entry a task id, and at most one
    self entry per row. *)
Record wf_dag (n : Z) (src dst : list Z) : Prop := {
  wf_n     : 0 <= n;
  wf_srcn  : zlen src = n + 1;
  wf_src0  : getz src 0 = Some 0;
  wf_srce  : getz src n = Some (zlen dst);
  wf_mono  : forall i s e, 0 <= i < n -> getz src i = Some s -> getz src (i + 1) = Some e -> s <= e;
  wf_dst   : forall j d, getz dst j = Some d -> 0 <= d < n;
  wf_self  : forall i j j', edge_at n src dst i j i -> edge_at n src dst i j' i -> j = j'
}.

(** Tasks handed out in a history. *)
Fixpoint gots (tr : list event) : list Z :=
  match tr with
  | [] => []
  | Got _ t :: tr' => t :: gots tr'
  | _ :: tr' => gots tr'
  end.

(** [task_count n src dst m]: there are exactly [m] tasks that are not skipped. *)
Definition task_list (n : Z) (src dst : list Z) (l : list Z) : Prop :=
  NoDup l /\ forall t, In t l <-> 0 <= t < n /\ ~ skipped n src dst t.

(** Tasks passed to finish_task, and tasks whose finish_task call returned. *)
Fixpoint fins (tr : list event) : list Z :=
  match tr with
  | [] => []
  | FinCall _ t :: tr' => t :: fins tr'
  | _ :: tr' => fins tr'
  end.
Fixpoint rets (tr : list event) : list Z :=
  match tr with
  | [] => []
  | FinRet _ t :: tr' => t :: rets tr'
  | _ :: tr' => rets tr'
  end.

(** A dependency graph the queue can drain: without self entries it is acyclic
    (a rank function exists), and no real task relies on a skipped one. *)
Definition drainable (n : Z) (src dst : list Z) : Prop :=
  (exists rank : Z -> nat, forall d p, relies_on n src dst d p -> p <> d -> (rank p < rank d)%nat) /\
  (forall d p, relies_on n src dst d p -> skipped n src dst p -> skipped n src dst d).

(** A step that neither re-reads an unavailable slot nor returns -1. *)
Definition productive (g : graph) (s : sys) (i : nat) : bool :=
  match s_thr s i with
  | Idle => true
  | Load h => match getz (q_queue (s_q s)) h with Some v => negb (v =? -1) | None => true end
  | _ => true
  end.

(** Executions with the number of productive steps. A call of get_task that
    returns -1 immediately is not counted. *)
Inductive exec (g : graph) (q0 : queue) : Z -> sys -> Prop :=
  | exec_start : exec g q0 0 (start q0)
  | exec_step  : forall c s i a s',
      exec g q0 c s -> step g s i a = Next s' ->
      exec g q0 (if productive g s i && negb (match s_trace s' with GotNone _ :: _ => (zlen (s_trace s) <? zlen (s_trace s')) | _ => false end)
                 then c + 1 else c) s'.

(** [g], [q] are what DAG_task_queue_init returns for a dependency matrix,
    whatever was in the freshly allocated arrays. *)
Definition initialised (n : Z) (src dst : list Z) (g : graph) (q : queue) : Prop :=
  exists j1 j2, zlen j1 = n /\ zlen j2 = n /\
    tq_init n (zlen dst) src dst j1 j2 = Some (Some (g, q)).

(** Thread [i] is inside DAG_task_queue_get_task. *)
Definition in_get (s : sys) (i : nat) : Prop := exists h, s_thr s i = Load h.
(** Thread [i] is inside DAG_task_queue_finish_task. *)
Definition in_finish (s : sys) (i : nat) : Prop :=
  match s_thr s i with Fin _ _ | Push _ _ _ | Store _ _ _ _ => True | _ => False end.

(** Running a list of (thread, action) steps, for examples. *)
Fixpoint run (g : graph) (s : sys) (l : list (nat * act)) : option sys :=
  match l with
  | [] => Some s
  | (i, a) :: l' => match step g s i a with Next s' => run g s' l' | _ => None end
  end.

(** The queue's observable state can be reset at any time. *)
Definition queue_arrays (g : graph) (q : queue) : Prop :=
  zlen (q_indeg q) = g_n g /\ zlen (q_queue q) = g_n g.
