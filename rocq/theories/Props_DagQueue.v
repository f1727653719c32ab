(** Properties C01-C05 of the task queue (src/DAG_task_queue.c).  [reach g q s]:
    [s] is reachable from the start of a parallel region by some interleaving of
    the atomic steps of any number of threads (Model_DagQueue.v). *)
From Coq Require Import ZArith List Lia Bool Permutation.
From Verif Require Import Base Model_DagQueue Spec_DagQueue Proof_DagQueueTop.
Import ListNotations.
Open Scope Z_scope.

(** C01.  At every point of every history, when get_task has returned task [t],
    finish_task had been called before for every task [t] relies on. *)
Theorem C01_prerequisites_finished_first :
  forall n src dst g q s post i t pre p,
    wf_dag n src dst -> initialised n src dst g q -> reach g q s ->
    s_trace s = post ++ Got i t :: pre ->
    relies_on n src dst t p ->
    In p (fins pre).
Proof. exact top_order. Qed.
Print Assumptions C01_prerequisites_finished_first.

(** C02.  No task is handed out twice, only real, non-skipped tasks are. *)
Theorem C02_each_task_at_most_once :
  forall n src dst g q s,
    wf_dag n src dst -> initialised n src dst g q -> reach g q s ->
    NoDup (gots (s_trace s)) /\
    (forall t, In t (gots (s_trace s)) -> 0 <= t < n /\ ~ skipped n src dst t).
Proof. exact top_once. Qed.
Print Assumptions C02_each_task_at_most_once.

(** C02.  Once some get_task has returned -1, every task has either been
    returned or is reserved for a get_task call already in progress. *)
Theorem C02_minus_one_only_when_all_claimed :
  forall n src dst g q s i l,
    wf_dag n src dst -> initialised n src dst g q -> reach g q s ->
    task_list n src dst l -> In (GotNone i) (s_trace s) ->
    exists ths, NoDup ths /\ (forall i, In i ths -> in_get s i) /\
      zlen (gots (s_trace s)) + zlen ths = zlen l.
Proof. exact top_none. Qed.
Print Assumptions C02_minus_one_only_when_all_claimed.

(** C02.  If additionally no get_task call is in progress, the tasks handed out
    are exactly the non-skipped tasks. *)
Theorem C02_all_tasks_handed_out :
  forall n src dst g q s i l,
    wf_dag n src dst -> initialised n src dst g q -> reach g q s ->
    task_list n src dst l -> In (GotNone i) (s_trace s) -> (forall k, ~ in_get s k) ->
    Permutation (gots (s_trace s)) l.
Proof. exact top_complete. Qed.
Print Assumptions C02_all_tasks_handed_out.

(** C03.  Initialisation succeeds (all accesses in bounds), no step of any
    thread in any reachable state accesses memory out of bounds ... *)
Theorem C03_init_in_bounds :
  forall n src dst j1 j2,
    wf_dag n src dst -> zlen j1 = n -> zlen j2 = n ->
    exists g q, tq_init n (zlen dst) src dst j1 j2 = Some (Some (g, q)).
Proof. exact top_init. Qed.
Print Assumptions C03_init_in_bounds.

Theorem C03_steps_in_bounds :
  forall n src dst g q s i a,
    wf_dag n src dst -> initialised n src dst g q -> reach g q s ->
    step g s i a <> Ub.
Proof. exact top_safe. Qed.
Print Assumptions C03_steps_in_bounds.

(** ... and a queue slot about to be stored to is still empty. *)
Theorem C03_slot_written_once :
  forall n src dst g q s i t j d k,
    wf_dag n src dst -> initialised n src dst g q -> reach g q s ->
    s_thr s i = Store t j d k -> getz (q_queue (s_q s)) k = Some (-1).
Proof. exact top_slot_fresh. Qed.
Print Assumptions C03_slot_written_once.

(** C04.  No deadlock: as long as some task's finish_task has not returned,
    either a thread is inside finish_task (which never waits), or a task is
    held by the client, or some waiting get_task can return a task now, or any
    idle thread calling get_task gets one without waiting. *)
Theorem C04_no_deadlock :
  forall n src dst g q s l,
    wf_dag n src dst -> drainable n src dst -> initialised n src dst g q -> reach g q s ->
    task_list n src dst l -> (exists t, In t l /\ ~ In t (rets (s_trace s))) ->
    (exists i, in_finish s i) \/
    (exists t, In t (s_held s)) \/
    (exists i t s', in_get s i /\ step g s i Step = Next s' /\ s_trace s' = Got i t :: s_trace s) \/
    (forall i, s_thr s i = Idle -> exists t s1 s2,
       step g s i CallGet = Next s1 /\ step g s1 i Step = Next s2 /\ s_trace s2 = Got i t :: s_trace s).
Proof. exact top_progress. Qed.
Print Assumptions C04_no_deadlock.

(** C04.  No livelock: in every execution the number of steps that are neither
    re-reads of an unavailable slot nor -1 returns is bounded. *)
Theorem C04_bounded_work :
  forall n src dst g q c s l,
    wf_dag n src dst -> initialised n src dst g q -> exec g q c s ->
    task_list n src dst l -> c <= 5 * zlen l + n + zlen dst.
Proof. exact top_bounded. Qed.
Print Assumptions C04_bounded_work.

(** C05.  Resetting after any history gives back the initial queue. *)
Theorem C05_reset_is_init :
  forall n src dst g q s,
    wf_dag n src dst -> initialised n src dst g q -> reach g q s ->
    tq_reset g (s_q s) = Some q.
Proof. exact top_reset. Qed.
Print Assumptions C05_reset_is_init.

(** *** The hypotheses are satisfiable: five tasks, 2 relies on 0 and 1, 3
    relies on 2, task 4 is skipped. *)
Definition ex_src : list Z := [0; 1; 2; 3; 3; 4].
Definition ex_dst : list Z := [2; 2; 3; 4].

Example ex_wf : wf_dag 5 ex_src ex_dst.
Proof.
  assert (Hc : forall i, 0 <= i < 5 -> i = 0 \/ i = 1 \/ i = 2 \/ i = 3 \/ i = 4) by (intros; lia).
  constructor; try reflexivity; try lia.
  - intros i s e Hi Hs He. destruct (Hc i Hi) as [->|[->|[->|[->| ->]]]];
      vm_compute in Hs, He; injection Hs as <-; injection He as <-; lia.
  - intros j d Hj. pose proof (getz_range _ _ _ Hj) as Hr. change (zlen ex_dst) with 4 in Hr.
    assert (j = 0 \/ j = 1 \/ j = 2 \/ j = 3) as [->|[->|[->| ->]]] by lia; vm_compute in Hj; injection Hj as <-; lia.
  - intros i j j' [Hi [[s [e [Hs [He Hj]]]] _]] [_ [[s' [e' [Hs' [He' Hj']]]] _]].
    destruct (Hc i Hi) as [->|[->|[->|[->| ->]]]];
      vm_compute in Hs, He, Hs', He'; injection Hs as <-; injection He as <-; injection Hs' as <-; injection He' as <-; lia.
Qed.

Definition ex_g : graph := mkGraph 5 4 ex_src ex_dst [0; 0; 2; 1; 1].
Definition ex_q : queue := mkQueue 0 2 [0; 0; 2; 1; 1] [0; 1; -1; -1; -1].

Example ex_init : initialised 5 ex_src ex_dst ex_g ex_q.
Proof. exists [7;7;7;7;7], [9;9;9;9;9]. vm_compute. auto. Qed.

Example ex_drainable : drainable 5 ex_src ex_dst.
Proof.
  assert (Hc : forall d p, relies_on 5 ex_src ex_dst d p ->
            (p = 0 /\ d = 2) \/ (p = 1 /\ d = 2) \/ (p = 2 /\ d = 3) \/ (p = 4 /\ d = 4)).
  { intros d p [j [Hp [[s [e [Hs [He Hj]]]] Hd]]].
    assert (p = 0 \/ p = 1 \/ p = 2 \/ p = 3 \/ p = 4) as [->|[->|[->|[->| ->]]]] by lia;
      vm_compute in Hs, He; injection Hs as <-; injection He as <-.
    - assert (j = 0) as -> by lia. vm_compute in Hd. injection Hd as <-. auto.
    - assert (j = 1) as -> by lia. vm_compute in Hd. injection Hd as <-. auto.
    - assert (j = 2) as -> by lia. vm_compute in Hd. injection Hd as <-. auto.
    - lia.
    - assert (j = 3) as -> by lia. vm_compute in Hd. injection Hd as <-. auto. }
  split.
  - exists Z.to_nat. intros d p H Hn. apply Hc in H. lia.
  - intros d p H Hs. apply Hc in H. destruct H as [[-> ->]|[[-> ->]|[[-> ->]|[-> ->]]]]; auto;
      apply Hc in Hs; lia.
Qed.

(** Two threads interleaved; thread 1 waits for task 2 while thread 0 finishes. *)
Definition ex_run : list (nat * act) :=
  [(0%nat, CallGet); (1%nat, CallGet); (1%nat, Step); (0%nat, Step);
   (1%nat, CallFin 1); (1%nat, Step); (1%nat, Step); (1%nat, CallGet); (1%nat, Step);
   (0%nat, CallFin 0); (0%nat, Step); (1%nat, Step); (0%nat, Step); (1%nat, Step); (0%nat, Step); (1%nat, Step);
   (0%nat, Step); (1%nat, CallFin 2); (1%nat, Step); (1%nat, Step); (1%nat, Step); (1%nat, Step);
   (0%nat, CallGet); (0%nat, Step); (1%nat, CallGet)].

Example ex_reach : exists s, reach ex_g ex_q s /\ gots (s_trace s) = [3; 2; 0; 1] /\ In (GotNone 1%nat) (s_trace s).
Proof.
  destruct (run ex_g (start ex_q) ex_run) as [s|] eqn:E; [|vm_compute in E; discriminate].
  exists s. split; [eapply run_reach; [apply reach_start|exact E]|].
  vm_compute in E. injection E as <-. vm_compute. auto.
Qed.

(** The queue rejects a row-pointer array that does not match num_dep, and an
    out-of-range destination is an out-of-bounds access in init. *)
Example ex_mismatch : tq_init 5 3 ex_src ex_dst [0;0;0;0;0] [0;0;0;0;0] = Some None.
Proof. reflexivity. Qed.
Example ex_oob : tq_init 1 1 [0; 1] [-1] [0] [0] = None.
Proof. reflexivity. Qed.
