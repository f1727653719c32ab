(** Assembling the invariant lemmas into statements about [tq_init]. *)
From Coq Require Import ZArith List Lia Bool Permutation.
From Verif Require Import Base Model_DagQueue Spec_DagQueue Proof_DagQueue Proof_DagQueueInv Proof_DagQueueLive.
Import ListNotations.
Open Scope Z_scope.

Lemma tq_init_spec n src dst j1 j2 :
  wf_dag n src dst -> zlen j1 = n -> zlen j2 = n ->
  exists indeg tq,
    zlen indeg = n /\ (forall d, 0 <= d < n -> getz indeg d = Some (indeg_of dst d (zlen dst))) /\
    zlen tq = n /\
    (forall k, 0 <= k < n -> getz tq k = Some (match getz (zeros indeg n) k with Some v => v | None => -1 end)) /\
    tq_init n (zlen dst) src dst j1 j2 =
      Some (Some (mkGraph n (zlen (tasks n src dst)) src dst indeg,
                  mkQueue 0 (zlen (zeros indeg n)) indeg tq)).
Proof.
  intros WF H1 H2. destruct (tq_count_spec n src dst WF) as [indeg [E [L F]]].
  pose proof (n_nonneg n src dst WF).
  destruct (tq_reset_spec (mkGraph n (zlen (tasks n src dst)) src dst indeg) (mkQueue 0 0 j1 j2))
    as [tq [E' [L' F']]]; auto.
  exists indeg, tq. split; [auto|]. split; [auto|]. split; [exact L'|]. split; [exact F'|].
  unfold tq_init. rewrite (wf_srce _ _ _ WF). cbn [bind]. rewrite Z.eqb_refl. cbn [negb].
  rewrite E. cbn [bind]. rewrite E'. reflexivity.
Qed.

Ltac use_init H WF :=
  let j1 := fresh "j1" in let j2 := fresh "j2" in
  let L1 := fresh in let L2 := fresh in let E := fresh in
  destruct H as [j1 [j2 [L1 [L2 E]]]];
  let indeg := fresh "indeg" in let tq := fresh "tq" in
  let E' := fresh in
  destruct (tq_init_spec _ _ _ j1 j2 WF L1 L2) as [indeg [tq [Hil [Hind [Hql [Hq E']]]]]];
  rewrite E' in E; injection E as <- <-.

Lemma top_safe n src dst g q s i a :
  wf_dag n src dst -> initialised n src dst g q -> reach g q s -> step g s i a <> Ub.
Proof.
  intros WF Hi Hr. use_init Hi WF.
  destruct (inv_reach n src dst WF indeg Hil Hind (mkQueue 0 (zlen (zeros indeg n)) indeg tq) eq_refl eq_refl eq_refl Hql Hq s Hr) as [ord [dn I]].
  now destruct (inv_step n src dst WF indeg s ord dn i a I).
Qed.

Lemma top_slot_fresh n src dst g q s i t j d k :
  wf_dag n src dst -> initialised n src dst g q -> reach g q s ->
  s_thr s i = Store t j d k -> getz (q_queue (s_q s)) k = Some (-1).
Proof.
  intros WF Hi Hr Hs. use_init Hi WF.
  destruct (inv_reach n src dst WF indeg Hil Hind (mkQueue 0 (zlen (zeros indeg n)) indeg tq) eq_refl eq_refl eq_refl Hql Hq s Hr) as [ord [dn I]].
  now destruct (i_store _ _ _ _ _ _ I _ _ _ _ _ Hs).
Qed.

Lemma top_order n src dst g q s post i t pre p :
  wf_dag n src dst -> initialised n src dst g q -> reach g q s ->
  s_trace s = post ++ Got i t :: pre -> relies_on n src dst t p -> In p (fins pre).
Proof.
  intros WF Hi Hr Ht Hp. use_init Hi WF.
  destruct (inv_reach n src dst WF indeg Hil Hind (mkQueue 0 (zlen (zeros indeg n)) indeg tq) eq_refl eq_refl eq_refl Hql Hq s Hr) as [ord [dn I]].
  apply was_fin_fins. eapply (i_order _ _ _ _ _ _ I); eauto.
Qed.

Lemma top_once n src dst g q s :
  wf_dag n src dst -> initialised n src dst g q -> reach g q s ->
  NoDup (gots (s_trace s)) /\
  (forall t, In t (gots (s_trace s)) -> 0 <= t < n /\ ~ skipped n src dst t).
Proof.
  intros WF Hi Hr. use_init Hi WF.
  destruct (inv_reach n src dst WF indeg Hil Hind (mkQueue 0 (zlen (zeros indeg n)) indeg tq) eq_refl eq_refl eq_refl Hql Hq s Hr) as [ord [dn I]].
  split; [apply (i_once _ _ _ _ _ _ I)|]. intros t Ht. apply was_got_gots in Ht.
  destruct (i_got _ _ _ _ _ _ I t Ht) as [k [A _]]. apply getz_In in A.
  destruct (i_ordr _ _ _ _ _ _ I t A) as [? [_ ?]]. auto.
Qed.

Lemma task_list_len n src dst l : wf_dag n src dst -> task_list n src dst l -> zlen l = zlen (tasks n src dst).
Proof.
  intros WF [Hnd Hl]. destruct (tasks_spec n src dst WF) as [Hnd' Hl'].
  assert (Permutation l (tasks n src dst)).
  { apply NoDup_Permutation; auto. intros x. rewrite Hl, Hl'. tauto. }
  unfold zlen. now rewrite (Permutation_length H).
Qed.

Lemma top_none n src dst g q s i l :
  wf_dag n src dst -> initialised n src dst g q -> reach g q s ->
  task_list n src dst l -> In (GotNone i) (s_trace s) ->
  exists ths, NoDup ths /\ (forall i, In i ths -> in_get s i) /\
    zlen (gots (s_trace s)) + zlen ths = zlen l.
Proof.
  intros WF Hi Hr Hl Hn. rewrite (task_list_len n src dst l WF Hl). use_init Hi WF.
  eapply (none_accounted n src dst indeg WF Hil Hind (mkQueue 0 (zlen (zeros indeg n)) indeg tq) eq_refl eq_refl eq_refl Hql Hq s i); eauto.
Qed.

Lemma top_complete n src dst g q s i l :
  wf_dag n src dst -> initialised n src dst g q -> reach g q s ->
  task_list n src dst l -> In (GotNone i) (s_trace s) -> (forall k, ~ in_get s k) ->
  Permutation (gots (s_trace s)) l.
Proof.
  intros WF Hi Hr Hl Hn Hq. destruct (top_none n src dst g q s i l WF Hi Hr Hl Hn) as [ths [A [B C]]].
  assert (ths = []) by (destruct ths as [|k ths]; auto; exfalso; apply (Hq k), B; now left). subst ths.
  destruct (top_once n src dst g q s WF Hi Hr) as [D E]. destruct Hl as [Hl1 Hl2].
  apply NoDup_Permutation_bis; auto.
  - unfold zlen in C; cbn [length] in C. lia.
  - intros t Ht. apply Hl2. now apply E.
Qed.

Lemma top_reset n src dst g q s :
  wf_dag n src dst -> initialised n src dst g q -> reach g q s ->
  tq_reset g (s_q s) = Some q.
Proof.
  intros WF Hi Hr. use_init Hi WF.
  destruct (inv_reach n src dst WF indeg Hil Hind (mkQueue 0 (zlen (zeros indeg n)) indeg tq) eq_refl eq_refl eq_refl Hql Hq s Hr) as [ord [dn I]].
  pose proof (n_nonneg n src dst WF).
  destruct (tq_reset_spec (mkGraph n (zlen (tasks n src dst)) src dst indeg) (s_q s)) as [tq' [E' [L' F']]]; auto.
  - apply (i_clen _ _ _ _ _ _ I).
  - apply (i_qlen _ _ _ _ _ _ I).
  - rewrite E'. simpl in *. do 2 f_equal. apply getz_ext; [lia|]. intros k Hk. rewrite F', Hq; auto; lia.
Qed.

Lemma top_progress n src dst g q s l :
  wf_dag n src dst -> drainable n src dst -> initialised n src dst g q -> reach g q s ->
  task_list n src dst l -> (exists t, In t l /\ ~ In t (rets (s_trace s))) ->
  (exists i, in_finish s i) \/
  (exists t, In t (s_held s)) \/
  (exists i t s', in_get s i /\ step g s i Step = Next s' /\ s_trace s' = Got i t :: s_trace s) \/
  (forall i, s_thr s i = Idle -> exists t s1 s2,
     step g s i CallGet = Next s1 /\ step g s1 i Step = Next s2 /\ s_trace s2 = Got i t :: s_trace s).
Proof.
  intros WF Hd Hi Hr Hl [t [Ht Hnt]]. use_init Hi WF.
  destruct (no_deadlock n src dst indeg WF Hil Hind (mkQueue 0 (zlen (zeros indeg n)) indeg tq) eq_refl eq_refl eq_refl Hql Hq s Hd Hr) as [K|[K|[K|K]]].
  - exists t. split; auto. apply (proj2 (tasks_spec n src dst WF)). now apply Hl.
  - left. destruct K as [i [t' [jn W]]]. exists i. unfold in_finish. inversion W; auto.
  - auto.
  - right; right; left. destruct K as [i [h [v [K1 [K2 K3]]]]]. exists i, v.
    eexists. split; [exists h; auto|]. unfold step. rewrite K1, K2.
    destruct (Z.eqb_spec v (-1)); [congruence|]. split; reflexivity.
  - right; right; right. destruct K as [K1 [v [K2 K3]]]. intros i Hidle. exists v.
    unfold step at 1. rewrite Hidle. cbn [g_num_task].
    destruct (Z.leb_spec (zlen (tasks n src dst)) (q_head (s_q s))); [lia|].
    eexists. eexists. split; [reflexivity|]. unfold step. cbn [s_thr s_q q_queue q_head].
    rewrite set_thr_same, K2. destruct (Z.eqb_spec v (-1)); [congruence|]. split; reflexivity.
Qed.

Lemma top_bounded n src dst g q c s l :
  wf_dag n src dst -> initialised n src dst g q -> exec g q c s ->
  task_list n src dst l -> c <= 5 * zlen l + n + zlen dst.
Proof.
  intros WF Hi He Hl. rewrite (task_list_len n src dst l WF Hl). use_init Hi WF.
  eapply (exec_bound n src dst indeg WF Hil Hind (mkQueue 0 (zlen (zeros indeg n)) indeg tq) eq_refl eq_refl eq_refl Hql Hq); eauto.
Qed.

Lemma top_init n src dst j1 j2 :
  wf_dag n src dst -> zlen j1 = n -> zlen j2 = n ->
  exists g q, tq_init n (zlen dst) src dst j1 j2 = Some (Some (g, q)).
Proof.
  intros WF H1 H2. destruct (tq_init_spec n src dst j1 j2 WF H1 H2) as [indeg [tq [_ [_ [_ [_ E]]]]]]. eauto.
Qed.

Lemma run_reach g q0 l : forall s s', reach g q0 s -> run g s l = Some s' -> reach g q0 s'.
Proof.
  induction l as [|[i a] l IH]; simpl; intros s s' Hr E; [injection E as <-; auto|].
  destruct (step g s i a) eqn:Es; try discriminate. eapply IH; [|eauto]. econstructor; eauto.
Qed.
