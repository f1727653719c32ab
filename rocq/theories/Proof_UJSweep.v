(** Proofs for Model_UJ.v: the sweep in any order the task queue allows. *)
From Coq Require Import ZArith QArith List Lia Bool Permutation.
From Verif Require Import Base Mem Num FNum Conc Model_Utils Spec_Utils Proof_Utils Model_Dense Spec_Dense Proof_Dense Model_Partition Spec_Tree Spec_Pairs Spec_Matvec
  Model_Build Spec_Build Proof_Build Model_ID Spec_ID Model_UJ Spec_UJ Proof_UJ Proof_UJNode
  Model_DagQueue Spec_DagQueue Proof_DagQueue Proof_DagQueueInv Proof_DagQueueLive Proof_DagQueueTop Proof_UpwardDag.
Import ListNotations.
Open Scope Z_scope.

(** ** Histories of the queue *)
Lemma step_trace g s i a s' : step g s i a = Next s' -> s_trace s' = s_trace s \/
  exists e, s_trace s' = e :: s_trace s /\ forall j t, e = FinCall j t -> In t (s_held s).
Proof.
  unfold step. intros H. destruct (s_thr s i), a; try discriminate H.
  - destruct (g_num_task g <=? q_head (s_q s)); injection H as <-; cbn; auto. right. eexists. split; [reflexivity|discriminate].
  - destruct (in_dec Z.eq_dec t (s_held s)) as [Hin|]; [|discriminate]. destruct (getz (g_src g) t); [|discriminate]. injection H as <-. cbn. right. eexists. split; [reflexivity|]. intros j t' [= _ <-]. auto.
  - destruct (getz (q_queue (s_q s)) h); [|discriminate]. destruct (z =? -1); injection H as <-; cbn; auto. right. eexists. split; [reflexivity|discriminate].
  - destruct (getz (g_src g) (t + 1)) as [e|]; [|discriminate]. destruct (j <? e).
    + destruct (getz (g_dst g) j); [|discriminate]. destruct (getz (q_indeg (s_q s)) z); [|discriminate]. destruct (setz (q_indeg (s_q s)) z (z0 - 1)); [|discriminate]. injection H as <-. cbn. auto.
    + injection H as <-. cbn. right. eexists. split; [reflexivity|discriminate].
  - injection H as <-. cbn. auto.
  - destruct (setz (q_queue (s_q s)) k d); [|discriminate]. injection H as <-. cbn. auto.
Qed.

Lemma top_held n src dst g q s : wf_dag n src dst -> initialised n src dst g q -> reach g q s ->
  forall p, In p (s_held s) <-> In p (gots (s_trace s)) /\ ~ In p (fins (s_trace s)).
Proof.
  intros WF Hi Hr. use_init Hi WF.
  destruct (inv_reach n src dst WF indeg Hil Hind (mkQueue 0 (zlen (zeros indeg n)) indeg tq) eq_refl eq_refl eq_refl Hql Hq s Hr) as [ord [dn I]].
  intros p. rewrite (i_held _ _ _ _ _ _ I), was_got_gots, was_fin_fins. tauto.
Qed.

Lemma fins_hist n src dst g q s : wf_dag n src dst -> initialised n src dst g q -> reach g q s ->
  NoDup (fins (s_trace s)) /\ forall post i t pre, s_trace s = post ++ FinCall i t :: pre -> In t (gots pre).
Proof.
  intros WF Hi Hr. induction Hr as [|s i a s' Hr [IH1 IH2] Es].
  - split; [constructor|]. intros [|? ?] i t pre H; discriminate H.
  - destruct (step_trace _ _ _ _ _ Es) as [->|(e & -> & He)]; [auto|]. split.
    + destruct e; cbn; auto. constructor; auto. intros X. specialize (He _ _ eq_refl). apply (top_held _ _ _ _ _ _ WF Hi Hr) in He. tauto.
    + intros [|e' post] j t pre H; cbn in H; injection H as He' Htr; [|eauto]. rewrite <- Htr. specialize (He _ _ He'). apply (top_held _ _ _ _ _ _ WF Hi Hr) in He. tauto.
Qed.

Lemma finish_order_fins tr : map snd (finish_order tr) = rev (fins tr).
Proof. induction tr as [|e tr IH]; auto. destruct e; cbn; auto. rewrite map_app, IH. reflexivity. Qed.

Lemma finish_order_split tr : forall pre x post, finish_order tr = pre ++ x :: post -> exists post' i pre', tr = post' ++ FinCall i (snd x) :: pre' /\ pre = finish_order pre'.
Proof.
  induction tr as [|e tr IH]; intros pre x post H; [destruct pre; discriminate H|].
  destruct e as [? ?|?|k t|? ?]; cbn in H; try (destruct (IH _ _ _ H) as (p1 & j & p2 & -> & ->); eexists (cons _ p1), j, p2; split; reflexivity).
  destruct (list_eq_dec (fun u v : Z * Z => ltac:(decide equality; apply Z.eq_dec)) post []) as [->|Hne].
  - apply app_inj_tail in H as [<- <-]. exists [], k, tr. auto.
  - destruct (exists_last Hne) as (post0 & y & ->). rewrite app_comm_cons, app_assoc in H. apply app_inj_tail in H as [H _].
    destruct (IH _ _ _ H) as (p1 & j & p2 & -> & ->). exists (FinCall k t :: p1), j, p2. auto.
Qed.

Lemma gots_split tr t : In t (gots tr) -> exists post i pre, tr = post ++ Got i t :: pre.
Proof.
  induction tr as [|e tr IH]; [contradiction|]. destruct e as [k u|?|? ?|? ?]; cbn; intros H; try (destruct (IH H) as (p & j & r & ->); eexists (cons _ p), j, r; reflexivity).
  destruct H as [->|H]; [exists [], k, tr; auto|]. destruct (IH H) as (p & j & r & ->). exists (Got k u :: p), j, r. reflexivity.
Qed.
Lemma fins_app l m : fins (l ++ m) = fins l ++ fins m.
Proof. induction l as [|e l IH]; auto. destruct e; cbn; rewrite ?IH; auto. Qed.

(** What a schedule of the queue is worth: every task once, after the tasks it
    relies on. *)
Lemma queue_schedule_ok n nth src dst evs : wf_dag n src dst -> queue_schedule n nth src dst evs ->
  NoDup (map snd evs) /\ (forall t, In t (map snd evs) <-> 0 <= t < n /\ ~ skipped n src dst t) /\
  (forall t i, In (t, i) evs -> 0 <= t < nth) /\
  forall pre x post, evs = pre ++ x :: post -> forall p, relies_on n src dst (snd x) p -> In p (map snd pre).
Proof.
  intros WF (g & q & s & Hi & Hr & (i0 & Hnone) & Hget & Hheld & -> & Hth). destruct (fins_hist _ _ _ _ _ _ WF Hi Hr) as [N1 N2].
  destruct (top_once _ _ _ _ _ _ WF Hi Hr) as [_ Honce]. pose proof (top_held _ _ _ _ _ _ WF Hi Hr) as Hh. rewrite Hheld in Hh.
  rewrite finish_order_fins. split; [apply NoDup_rev; auto|]. split.
  - intros t. rewrite <- in_rev. split.
    + intros Ht. apply Honce. assert (Hs : exists post i pre, s_trace s = post ++ FinCall i t :: pre).
      { clear - Ht. induction (s_trace s) as [|e tr IH]; [contradiction|]. destruct e as [? ?|?|k u|? ?]; cbn in Ht; try (destruct (IH Ht) as (p & j & r & ->); eexists (cons _ p), j, r; reflexivity).
        destruct Ht as [->|Ht]; [exists [], k, tr; auto|]. destruct (IH Ht) as (p & j & r & ->). exists (FinCall k u :: p), j, r. reflexivity. }
      destruct Hs as (post & i & pre & Es). rewrite Es. assert (G : forall l m, gots (l ++ m) = gots l ++ gots m) by (clear; induction l as [|e l IH]; intros; auto; destruct e; cbn; rewrite ?IH; auto).
      rewrite G. apply in_or_app. right. cbn. eapply N2; eauto.
    + intros Ht. pose proof (top_complete _ _ _ _ _ _ i0 _ WF Hi Hr (tasks_spec n src dst WF) Hnone Hget) as Pm.
      assert (In t (gots (s_trace s))). { eapply Permutation_in; [apply Permutation_sym; exact Pm|]. apply tasks_spec; auto. }
      destruct (in_dec Z.eq_dec t (fins (s_trace s))); auto. exfalso. apply (Hh t). auto.
  - split; auto. intros pre x post Es p Hp. destruct (finish_order_split _ _ _ _ Es) as (post' & i & pre' & Et & ->).
    rewrite finish_order_fins, <- in_rev. pose proof (N2 _ _ _ _ Et) as Hg. apply gots_split in Hg as (p1 & j & p2 & ->).
    rewrite fins_app. apply in_or_app. right. cbn. rewrite app_comm_cons, app_assoc in Et. eapply top_order; [exact WF|exact Hi|exact Hr|exact Et|exact Hp].
Qed.

Section Sweep.
Context {F : num} {E : fnum}.
Variable kern : list F -> list F -> Z -> Z -> E.
Variable c : uctx F E.
Variables n_node max_level n_leaf minlevel n_thread : Z.
Hypothesis UI : uj_input c n_node max_level n_leaf minlevel.
Variable Q : Z -> list Z -> list Z -> (Z -> Z -> E) -> Prop.
Variable may_fail : Prop.
Hypothesis Hid : id_delivers kern c n_node minlevel Q may_fail.

Notation a := (c_t c).
Notation act := (fun ev : Z * Z => uj_node kern c (fst ev) (snd ev)).

(** Children first, every compressed node at most once. *)
Definition bottom_up (dn : list Z) (evs : list (Z * Z)) : Prop :=
  forall pre x post, evs = pre ++ x :: post -> 0 <= fst x < n_thread /\ 0 <= snd x < n_node /\ minlevel <= lev a (snd x) /\
    ~ In (snd x) (map snd pre) /\ ~ In (snd x) dn /\ forall k, 0 <= k < nch a (snd x) -> In (chd a (c_ptdim c) (snd x) k) (map snd pre ++ dn).

Lemma sweep evs : forall dn js s, uj_inv c n_node minlevel n_thread Q dn js s -> (forall j, In j dn -> js j <> []) -> bottom_up dn evs ->
  (Conc.run (map act evs) s = None /\ may_fail) \/
  (exists s' js', Conc.run (map act evs) s = Some s' /\ uj_inv c n_node minlevel n_thread Q (rev (map snd evs) ++ dn) js' s' /\
     (forall j, In j (rev (map snd evs) ++ dn) -> js' j <> [])) \/
  (exists pre post s' js' i, evs = pre ++ post /\ Conc.run (map act pre) s = Some s' /\ uj_inv c n_node minlevel n_thread Q (rev (map snd pre) ++ dn) js' s' /\ In i (map snd pre) /\ js' i = []).
Proof.
  induction evs as [|x evs IH]; intros dn js s I Hne Hb.
  - right. left. exists s, js. auto.
  - destruct (Hb [] x evs eq_refl) as (H1 & H2 & H3 & _ & H5 & H6). cbn in H6.
    destruct (step_ok kern c n_node max_level n_leaf minlevel n_thread UI Q may_fail Hid dn js s (fst x) (snd x) I H1 H2 H3 H5 H6 Hne) as [(Es & Hf)|(s1 & js1 & Es & I1 & Hjs)]; [left; cbn; rewrite Es; auto|].
    destruct (list_eq_dec Z.eq_dec (js1 (snd x)) []) as [Ez|Hx].
    + right. right. exists [x], evs, s1, js1, (snd x). cbn. rewrite Es. cbn. auto 10.
    + destruct (IH (snd x :: dn) js1 s1 I1) as [(E' & Hf)|[(s' & js' & E' & I' & N')|(pre & post & s' & js' & i & -> & E' & I' & Hi & Ei)]].
      * intros j [<-|Hj]; auto. rewrite Hjs by auto. auto.
      * intros pre y post ->. destruct (Hb (x :: pre) y post eq_refl) as (B1 & B2 & B3 & B4 & B5 & B6). cbn in B4, B6. split; auto. split; auto. split; auto. split; [tauto|]. split; [cbn; intuition congruence|].
        intros k Hk. specialize (B6 k Hk). cbn in B6. destruct B6 as [B6|B6]; [apply in_or_app; right; now left|]. apply in_app_or in B6 as [B6|B6]; apply in_or_app; [left|right; right]; auto.
      * left. cbn. rewrite Es. cbn. auto.
      * right. left. exists s', js'. cbn [map Conc.run rev]. rewrite Es. cbn [bind]. rewrite <- app_assoc. auto.
      * right. right. exists (x :: pre), post, s', js', i. cbn [map Conc.run rev]. rewrite Es. cbn [bind]. rewrite <- app_assoc. split; [reflexivity|]. split; auto. split; auto. split; [now right|auto].
Qed.

(** The sweep as a whole: either all bases, or somewhere an empty skeleton. *)
Definition uj_result (evs : list (Z * Z)) (tb : list (tbuf F E)) : Prop :=
  (h2_UJ_proxy kern c n_node tb evs = None /\ may_fail) \/
  (exists U J Jc js, h2_UJ_proxy kern c n_node tb evs = Some (U, J, Jc) /\
     skeletons_ok (c_ptdim c) (c_dim c) (c_kdim c) (c_npoint c) n_node minlevel (c_coord c) a U J Jc js /\
     (forall i, 0 <= i < n_node -> lev a i < minlevel -> js i = []) /\
     forall i V, getz U i = Some V -> minlevel <= lev a i -> basis_of c js i V Q) \/
  (exists pre post s v i, evs = pre ++ post /\ Conc.run (map act pre) (UST (arr n_node None) (arr n_node None) (arr n_node None) tb) = Some s /\
     In i (map snd pre) /\ getz (u_J s) i = Some (Some v) /\ iv_len v = 0 /\ exists js, js i = [] /\ forall j, In j (map snd pre) -> 0 <= j < n_node /\ minlevel <= lev a j /\ (exists V, basis_of c js j V Q) /\
       forall k, 0 <= k < nch a j -> In (chd a (c_ptdim c) j k) (map snd pre)).

Lemma basis_len js i V : js i <> [] -> basis_of c js i V Q -> exists (sk : list Z) u, zlen (js i) = zlen sk /\ 1 <= zlen sk /\
  dm_holds V (zlen (node_pts a (c_ptdim c) js i) * c_kdim c) (zlen sk * c_kdim c) u.
Proof.
  intros Hne (sk & u & E1 & H1 & _). exists sk, u. rewrite E1, zlen_map. split; auto. split; auto. destruct sk; [rewrite E1 in Hne; now destruct Hne|]. rewrite zlen_cons. zlia.
Qed.

Lemma uj_result_ok evs tb : zlen tb = n_thread -> (forall t b, getz tb t = Some b -> tbuf_ok b) -> bottom_up [] evs ->
  (forall i, 0 <= i < n_node -> minlevel <= lev a i -> In i (map snd evs)) -> uj_result evs tb.
Proof.
  intros Ztb Htb Hb Hall. destruct UI as [(D1 & D2 & D3) CT _ _ _]. assert (Hn : 1 <= n_node) by (destruct CT as [(X & _) _ _ _ _ _ _ _ _ _]; auto).
  assert (Harr : forall A (x : A) i, 0 <= i < n_node -> getz (arr n_node x) i = Some x) by (intros; apply getz_arr; auto).
  destruct (sweep evs [] (fun _ => []) (UST (arr n_node None) (arr n_node None) (arr n_node None) tb)) as [(Es & Hf)|[(s & js & Es & I & Hne)|(pre & post & s & js & i & -> & Es & I & Hi & Ei)]]; auto.
  - constructor; cbn [u_U u_J u_Jc u_tb].
    + rewrite !zlen_arr by lia. auto.
    + auto.
    + intros i [].
    + intros i Hi _. rewrite !Harr by auto. auto.
  - left. split; auto. unfold h2_UJ_proxy. rewrite Es. reflexivity.
  - right. left. rewrite app_nil_r in *. destruct I as [(L1 & L2 & L3 & L4) _ Hdn Htodo]. exists (map unset_mat (u_U s)), (map unset_vec (u_J s)), (map unset_mat (u_Jc s)), js.
    split; [unfold h2_UJ_proxy; rewrite Es; reflexivity|].
    assert (Hin : forall i, In i (rev (map snd evs)) <-> 0 <= i < n_node /\ minlevel <= lev a i).
    { intros i. split; [intros Hi; apply Hdn in Hi; tauto|]. intros []. apply -> in_rev. auto. }
    assert (Hlo : forall i, 0 <= i < n_node -> lev a i < minlevel -> ~ In i (rev (map snd evs))) by (intros i Hi Hl X; apply Hin in X; lia).
    assert (Hjs : forall i, 0 <= i < n_node -> lev a i < minlevel -> js i = []) by (intros i Hi Hl; apply Htodo; auto).
    split; [|split; [auto|]].
    + constructor.
      * rewrite !zlen_map. auto.
      * intros i v Hv. rewrite getz_map in Hv. destruct (getz (u_J s) i) as [o|] eqn:Eo; [|discriminate Hv]. injection Hv as <-. pose proof (getz_range _ _ _ Eo).
        destruct (Z_lt_le_dec (lev a i) minlevel) as [Hl|Hl].
        -- destruct (Htodo i ltac:(lia) (Hlo i ltac:(lia) Hl)) as (_ & Gj & _ & ->). rewrite Eo in Gj. injection Gj as ->. cbn. apply iv_holds_init. lia.
        -- destruct (Hdn i ltac:(apply Hin; lia)) as (_ & _ & (V & v & m & G1 & G2 & G3 & G4 & _) & _). rewrite Eo in G2. injection G2 as ->. exact G4.
      * intros i v Hv. rewrite getz_map in Hv. destruct (getz (u_Jc s) i) as [o|] eqn:Eo; [|discriminate Hv]. injection Hv as <-. pose proof (getz_range _ _ _ Eo).
        destruct (Z_lt_le_dec (lev a i) minlevel) as [Hl|Hl].
        -- destruct (Htodo i ltac:(lia) (Hlo i ltac:(lia) Hl)) as (_ & _ & Gj & ->). rewrite Eo in Gj. injection Gj as ->. cbn. split; auto. intros d k p _ Hk. apply getz_range in Hk. zlia.
        -- destruct (Hdn i ltac:(apply Hin; lia)) as (_ & _ & (V & v & m & G1 & G2 & G3 & _ & (_ & _ & M3 & M4 & _ & M6) & _) & Ho & _). rewrite Eo in G3. injection G3 as ->. cbn. split; auto. rewrite M3. intros d k p Hd Hk.
           pose proof (getz_range _ _ _ Hk). rewrite M6 by lia. rewrite (nthz_eq _ _ _ Hk). symmetry. apply (coord_val c n_node max_level n_leaf minlevel UI); auto.
           apply (owns_range c n_node max_level n_leaf minlevel UI i); [lia|]. apply Ho. eapply getz_In; eauto.
      * intros i p Hi Hl Hp. destruct (Hdn i ltac:(apply Hin; lia)) as (_ & _ & _ & Ho & _). auto.
      * intros i V HV. rewrite getz_map in HV. destruct (getz (u_U s) i) as [o|] eqn:Eo; [|discriminate HV]. injection HV as <-. pose proof (getz_range _ _ _ Eo). split; intros Hl.
        -- destruct (Htodo i ltac:(lia) (Hlo i ltac:(lia) Hl)) as (Gj & _). rewrite Eo in Gj. injection Gj as ->. reflexivity.
        -- assert (Hi : In i (rev (map snd evs))) by (apply Hin; lia). destruct (Hdn i Hi) as (_ & _ & (V & v & m & G1 & _ & _ & _ & _ & Bs) & _). rewrite Eo in G1. injection G1 as ->. cbn [unset_mat].
           destruct (basis_len js i V (Hne i Hi) Bs) as (sk & u & Ez & H1 & (_ & Enr & Enc & Fit & Hh)). rewrite Ez, Enr, Enc. split; auto. split; [lia|]. split; [|split].
           ++ rewrite Z.mul_comm. f_equal. unfold node_pts. destruct (Z.eqb_spec (nch a i) 0).
              ** destruct (node_facts c n_node max_level n_leaf minlevel UI i ltac:(lia)) as (s1 & h & nc & _ & _ & B & _). rewrite zlen_zrange; lia.
              ** destruct (node_facts c n_node max_level n_leaf minlevel UI i ltac:(lia)) as (s1 & h & nc & _ & _ & _ & _ & _ & En & B & _). apply zlen_flat_map. lia.
           ++ exact Fit.
           ++ intros r q Hr Hq. rewrite Hh by auto. eauto.
    + intros i V HV Hl. rewrite getz_map in HV. destruct (getz (u_U s) i) as [o|] eqn:Eo; [|discriminate HV]. injection HV as <-. pose proof (getz_range _ _ _ Eo).
      destruct (Hdn i ltac:(apply Hin; lia)) as (_ & _ & (V & v & m & G1 & _ & _ & _ & _ & Bs) & _). rewrite Eo in G1. injection G1 as ->. exact Bs.
  - right. right. rewrite app_nil_r in I. destruct I as [_ _ Hdn _]. destruct (Hdn i) as (_ & _ & (V & v & m & _ & G2 & _ & (_ & Hv & _) & _ & Bs) & _); [apply -> in_rev; auto|].
    exists pre, post, s, v, i. split; auto. split; auto. split; auto. split; auto. split; [rewrite Hv, Ei; reflexivity|]. exists js. split; auto.
    intros j Hj. apply in_rev in Hj. destruct (Hdn j Hj) as (G1 & G3 & (V1 & v1 & m1 & _ & _ & _ & _ & _ & Bs1) & _ & G4). split; auto. split; auto. split; [eauto|]. intros k Hk. apply in_rev. auto.
Qed.

(** Schedules of the queue go bottom up. *)
Lemma queue_bottom_up src dst evs : upward_dag n_node minlevel (a_level a) (a_parent a) = Some (src, dst) -> queue_schedule n_node n_thread src dst evs ->
  bottom_up [] evs /\ forall i, 0 <= i < n_node -> minlevel <= lev a i -> In i (map snd evs).
Proof.
  intros Ed Hs. destruct UI as [(D1 & D2 & D3) CT _ _ _].
  destruct (upward_dag_spec _ _ _ _ _ _ CT minlevel D3) as (src' & dst' & E' & W & _ & R & S). rewrite Ed in E'. injection E' as <- <-.
  assert (Elev : forall i, 0 <= i < n_node -> ld (a_level a) i = Some (lev a i)) by (intros i Hi; destruct (node_facts c n_node max_level n_leaf minlevel UI i Hi) as (s & h & nc & (_ & _ & N3 & _) & _); auto).
  destruct (queue_schedule_ok _ _ _ _ _ W Hs) as (Q1 & Q2 & Q3 & Q4). split.
  - intros pre x post Ee. assert (Hx : In (snd x) (map snd evs)) by (rewrite Ee, map_app; apply in_or_app; right; now left).
    pose proof Hx as Hx'. apply Q2 in Hx' as [Hr Hsk]. assert (Hl : minlevel <= lev a (snd x)). { destruct (Z_lt_le_dec (lev a (snd x)) minlevel); auto. exfalso. apply Hsk. apply (S _ _ Hr (Elev _ Hr)). auto. }
    split; [|split; [auto|split; [auto|split; [|split; [auto|]]]]].
    + apply (Q3 (fst x) (snd x)). rewrite <- surjective_pairing, Ee. apply in_or_app. right. now left.
    + rewrite Ee, map_app in Q1. cbn in Q1. apply NoDup_remove_2 in Q1. intros X. apply Q1. apply in_or_app. auto.
    + intros k Hk. rewrite app_nil_r. apply (Q4 pre x post Ee). assert (Hnc : nch a (snd x) <> 0) by lia.
      destruct (child_facts c n_node max_level n_leaf minlevel UI (snd x) Hr Hnc k Hk) as (_ & Hc & El & Ep). apply (R _ (lev a (snd x) + 1)); auto; try lia. rewrite <- El. apply Elev. lia.
  - intros i Hi Hl. apply Q2. split; auto. intros X. apply (S _ _ Hi (Elev _ Hi)) in X. lia.
Qed.
End Sweep.
