(** Progress and termination of the concurrent task queue. *)
From Coq Require Import ZArith List Lia Bool Permutation.
From Verif Require Import Base Model_DagQueue Spec_DagQueue Proof_DagQueue Proof_DagQueueInv.
Import ListNotations.
Open Scope Z_scope.

Lemma was_fin_fins tr t : was_fin tr t <-> In t (fins tr).
Proof.
  unfold was_fin. induction tr as [|e tr IH]; simpl; [split; [intros [? []]|intros []]|].
  destruct e; simpl; rewrite <- IH; split; try (intros [i' [H|H]]; try discriminate; eauto; fail);
    try (intros [i' H]; eauto; fail).
  - intros [i' [H|H]]; [inversion H; auto|eauto].
  - intros [<-|[i' H]]; eauto.
Qed.

Section Live.
Variables (n : Z) (src dst : list Z) (indeg : list Z).
Hypothesis WF : wf_dag n src dst.
Hypothesis Hil : zlen indeg = n.
Hypothesis Hindeg : forall d, 0 <= d < n -> getz indeg d = Some (indeg_of dst d (zlen dst)).
Let m := zlen dst.
Let nt := zlen (tasks n src dst).
Let g := mkGraph n nt src dst indeg.
Notation Inv := (Inv n src dst).

Record J (s : sys) : Prop := {
  j_fins : NoDup (fins (s_trace s));
  j_rets : NoDup (rets (s_trace s));
  j_incl : forall t, In t (rets (s_trace s)) -> In t (fins (s_trace s));
  j_ret  : forall t, In t (fins (s_trace s)) ->
             (exists i jn, works (s_thr s i) t jn) \/ In t (rets (s_trace s));
  j_nw   : forall t i jn, In t (rets (s_trace s)) -> ~ works (s_thr s i) t jn
}.

(** Number of productive steps performed so far. *)
Definition phi (s : sys) (ord : list Z) (dn : Z -> bool) : Z :=
  Z.min (q_head (s_q s)) nt + zlen (gots (s_trace s)) + zlen (fins (s_trace s)) +
  zcount dn (zrange 0 m) + zlen ord + zcount (fun v => negb (v =? -1)) (q_queue (s_q s)) +
  zlen (rets (s_trace s)).

Lemma J_frame s s' i :
  J s -> s_thr s i = s_thr s i ->
  (forall t jn, ~ works (s_thr s i) t jn) -> (forall t jn, ~ works (s_thr s' i) t jn) ->
  (forall k, k <> i -> s_thr s' k = s_thr s k) ->
  fins (s_trace s') = fins (s_trace s) -> rets (s_trace s') = rets (s_trace s) -> J s'.
Proof.
  intros [A B C D E] _ W W' T F R. constructor; rewrite ?F, ?R; auto.
  - intros t Ht. destruct (D t Ht) as [[k [jn H]]|]; auto. left. exists k, jn.
    destruct (Nat.eq_dec k i) as [->|]; [exfalso; eapply W; eauto|]. now rewrite T.
  - intros t k jn Ht H. destruct (Nat.eq_dec k i) as [->|]; [eapply W'; eauto|].
    rewrite T in H by auto. eapply E; eauto.
Qed.

(** Continuing the same finish call. *)
Lemma J_cont s s' i t0 jn0 jn1 :
  J s -> works (s_thr s i) t0 jn0 -> works (s_thr s' i) t0 jn1 ->
  (forall k, k <> i -> s_thr s' k = s_thr s k) -> s_trace s' = s_trace s -> J s'.
Proof.
  intros [A B C D E] W W' T F. constructor; rewrite ?F; auto.
  - intros t Ht. destruct (D t Ht) as [[k [jn H]]|]; auto. left.
    destruct (Nat.eq_dec k i) as [->|].
    + destruct (works_fun _ _ _ _ _ H W) as [-> _]. eauto.
    + exists k, jn. now rewrite T.
  - intros t k jn Ht H. destruct (Nat.eq_dec k i) as [->|].
    + destruct (works_fun _ _ _ _ _ H W') as [-> _]. eapply E; eauto.
    + rewrite T in H by auto. eapply E; eauto.
Qed.

Lemma filter_upd_count (l : list Z) k d :
  getz l k = Some (-1) -> d <> -1 ->
  zcount (fun v => negb (v =? -1)) (upd l (Z.to_nat k) d) = zcount (fun v => negb (v =? -1)) l + 1.
Proof.
  intros Hk Hd. unfold getz in Hk. destruct (0 <=? k); [|discriminate].
  revert Hk. generalize (Z.to_nat k) as j. induction l; intros [|j] H; simpl in *; try discriminate.
  - inversion H; subst. rewrite !zcount_cons. simpl. destruct (Z.eqb_spec d (-1)); [congruence|]. simpl.
    change (-1 =? -1) with true. simpl. lia.
  - rewrite !zcount_cons. rewrite IHl by auto. lia.
Qed.

Lemma dn_count dn j : 0 <= j < m -> dn j = false ->
  zcount (dn_add dn j) (zrange 0 m) = zcount dn (zrange 0 m) + 1.
Proof.
  intros Hj Hd. assert (zcount dn (zrange 0 m) = zcount (dn_add dn j) (zrange 0 m) - 1); [|lia].
  apply zcount_flip with (x := j); auto.
  - apply NoDup_zrange.
  - now apply In_zrange.
  - unfold dn_add. now rewrite Z.eqb_refl.
  - intros y Hy. unfold dn_add. destruct (Z.eqb_spec y j); [congruence|]. reflexivity.
Qed.

Definition counted (s s' : sys) (i : nat) : bool :=
  productive g s i && negb (match s_trace s' with GotNone _ :: _ => (zlen (s_trace s) <? zlen (s_trace s')) | _ => false end).

Lemma counted_same_trace s s' i : productive g s i = true -> s_trace s' = s_trace s -> counted s s' i = true.
Proof.
  intros Hp Ht. unfold counted. rewrite Hp, Ht, Z.ltb_irrefl. destruct (s_trace s) as [|[]]; reflexivity.
Qed.

Lemma live_step s ord dn i a s' :
  Inv s ord dn -> J s -> step g s i a = Next s' ->
  J s' /\ exists ord' dn', Inv s' ord' dn' /\
    phi s' ord' dn' = phi s ord dn + (if counted s s' i then 1 else 0).
Proof.
  intros I JJ. unfold step.
  destruct (s_thr s i) as [|h|t j|t j d|t j d k] eqn:Hi; destruct a; try discriminate.
  - (* CallGet *)
    pose proof (inv_callget n src dst s ord dn i I Hi) as H. cbv zeta in H. cbn [g g_num_task]. fold nt in H.
    destruct (Z.leb_spec nt (q_head (s_q s))) as [Hle|Hlt]; intros E; injection E as <-.
    + split.
      * apply J_frame with s i; auto; simpl; intros; try rewrite Hi; intro W; inversion W.
      * exists ord, dn. split; auto. unfold counted, phi; simpl.
        destruct (Z.ltb_spec (zlen (s_trace s)) (zlen (GotNone i :: s_trace s))); [|zlia].
        rewrite andb_false_r. lia.
    + split.
      * apply J_frame with s i; auto; simpl; intros; rewrite ?Hi, ?set_thr_same; try (intro W; inversion W; fail).
        now rewrite set_thr_other.
      * exists ord, dn. split; auto. rewrite counted_same_trace; auto; [|unfold productive; now rewrite Hi].
        unfold phi; simpl. lia.
  - (* CallFin *)
    destruct (in_dec Z.eq_dec t (s_held s)) as [Hin|]; [|discriminate].
    destruct (inv_callfin n src dst WF s ord dn i t I Hi Hin) as [Ht HI].
    cbn [g g_src]. rewrite (src_get n src dst WF) by lia. intros E; injection E as <-.
    assert (Hnf : ~ In t (fins (s_trace s))).
    { rewrite <- was_fin_fins. apply (i_held _ _ _ _ _ _ I) in Hin. tauto. }
    split.
    + destruct JJ as [A B C D E]. constructor; simpl; auto.
      * constructor; auto.
      * intros t' [<-|Ht'].
        -- left. exists i, (nthz src t). rewrite set_thr_same. constructor.
        -- destruct (D t' Ht') as [[k [jn H]]|]; auto. left. exists k, jn.
           destruct (Nat.eq_dec k i) as [->|]; [rewrite Hi in H; inversion H|]. now rewrite set_thr_other.
      * intros t' k jn Ht' W. destruct (Nat.eq_dec k i) as [->|].
        -- rewrite set_thr_same in W. inversion W; subst. auto.
        -- rewrite set_thr_other in W by auto. eapply E; eauto.
    + exists ord, dn. split; auto. unfold counted, phi, productive; simpl. rewrite Hi. simpl.
      rewrite zlen_cons. lia.
  - (* Load *)
    destruct (getz (q_queue (s_q s)) h) as [v|] eqn:Hv; [|discriminate].
    destruct (Z.eqb_spec v (-1)) as [->|Hne]; intros E; injection E as <-.
    + split; auto. exists ord, dn. split; auto. unfold counted, productive. rewrite Hi, Hv. simpl. 
      change (-1 =? -1) with true. simpl. lia.
    + split.
      * apply J_frame with s i; auto; simpl; intros; rewrite ?Hi, ?set_thr_same; try (intro W; inversion W; fail).
        now rewrite set_thr_other.
      * exists ord, dn. split; [eapply inv_loaded; eauto|].
        unfold counted, phi, productive; simpl. rewrite Hi, Hv.
        destruct (Z.eqb_spec v (-1)); [congruence|]. simpl. rewrite zlen_cons. lia.
  - (* Fin *)
    destruct (i_work _ _ _ _ _ _ I i t j) as [Hf [Hjr [Ht Hdn]]]. { rewrite Hi; constructor. }
    cbn [g g_src g_dst]. rewrite (src_get n src dst WF) by lia.
    destruct (Z.ltb_spec j (nthz src (t + 1))) as [Hlt|Hge].
    + destruct (inv_finstep n src dst WF s ord dn i t j I Hi Hlt) as [Hj [Hc HI]].
      rewrite (dst_get dst) by auto. rewrite Hc.
      destruct (setz (q_indeg (s_q s)) (nthz dst j) (remn dst dn (nthz dst j) - 1)) as [ci|] eqn:Hci; [|discriminate].
      intros E; injection E as <-. split.
      * apply J_cont with s i t j (j + 1); auto; simpl.
        -- rewrite Hi; constructor.
        -- rewrite set_thr_same. destruct (_ =? 0); constructor.
        -- intros. now rewrite set_thr_other.
      * exists ord, (dn_add dn j). split; [apply HI; auto|].
        rewrite counted_same_trace; auto; [|unfold productive; now rewrite Hi].
        unfold phi; simpl. rewrite dn_count; auto; [lia|].
        rewrite Hdn; [apply Z.ltb_irrefl|]. split; auto; lia.
    + intros E; injection E as <-. split.
      * assert (W0 : works (s_thr s i) t j) by (rewrite Hi; constructor).
        destruct JJ as [A B C D E]. constructor; simpl; auto.
        -- constructor; auto. intros Hr. eapply E; eauto.
        -- intros t' [<-|Ht']; auto. now apply was_fin_fins.
        -- intros t' Ht'. destruct (D t' Ht') as [[k [jn H]]|]; auto.
           destruct (Nat.eq_dec k i) as [->|].
           ++ destruct (works_fun _ _ _ _ _ H W0) as [-> _]; auto.
           ++ left. exists k, jn. now rewrite set_thr_other.
        -- intros t' k jn Ht' W. destruct (Nat.eq_dec k i) as [->|Hne].
           ++ rewrite set_thr_same in W. inversion W.
           ++ rewrite set_thr_other in W by auto. destruct Ht' as [<-|Ht']; [|eapply E; eauto].
              apply Hne. eapply (i_worku _ _ _ _ _ _ I); eauto.
      * exists ord, dn. split; [eapply inv_finret; eauto|].
        unfold counted, phi, productive; simpl. rewrite Hi. simpl. rewrite zlen_cons. lia.
  - (* Push *)
    destruct (inv_push n src dst WF s ord dn i t j d I Hi) as [_ HI].
    intros E; injection E as <-. split.
    + apply J_cont with s i t (j + 1) (j + 1); auto; simpl.
      * rewrite Hi; constructor.
      * rewrite set_thr_same. constructor.
      * intros. now rewrite set_thr_other.
    + exists (ord ++ [d]), dn. split; auto.
      rewrite counted_same_trace; auto; [|unfold productive; now rewrite Hi].
      unfold phi; simpl. rewrite zlen_app. zlia.
  - (* Store *)
    destruct (i_store _ _ _ _ _ _ I _ _ _ _ _ Hi) as [Hk Hq].
    destruct (setz (q_queue (s_q s)) k d) as [tq|] eqn:Htq; [|discriminate].
    intros E; injection E as <-. split.
    + apply J_cont with s i t (j + 1) (j + 1); auto; simpl.
      * rewrite Hi; constructor.
      * rewrite set_thr_same. constructor.
      * intros. now rewrite set_thr_other.
    + exists ord, dn. split; [eapply inv_stored; eauto|].
      rewrite counted_same_trace; auto; [|unfold productive; now rewrite Hi].
      assert (0 <= d < n) by (apply (i_ordr _ _ _ _ _ _ I); eapply getz_In; eauto).
      unfold phi; simpl. rewrite (setz_eq _ _ _ _ Htq), filter_upd_count; auto; lia.
Qed.

Variable q0 : queue.
Hypothesis Hq0h : q_head q0 = 0.
Hypothesis Hq0t : q_tail q0 = zlen (zeros indeg n).
Hypothesis Hq0i : q_indeg q0 = indeg.
Hypothesis Hq0l : zlen (q_queue q0) = n.
Hypothesis Hq0q : forall k, 0 <= k < n ->
  getz (q_queue q0) k = Some (match getz (zeros indeg n) k with Some v => v | None => -1 end).

Lemma J_start : J (start q0).
Proof. constructor; simpl; try constructor; try tauto. Qed.

Lemma live_reach s : reach g q0 s -> J s /\ exists ord dn, Inv s ord dn.
Proof.
  induction 1.
  - split; [apply J_start|]. exists (zeros indeg n), (fun _ => false). eapply inv_start; eauto.
  - destruct IHreach as [JJ [ord [dn I]]]. destruct (live_step _ _ _ _ _ _ I JJ H0) as [J' [o [d [I' _]]]]. eauto.
Qed.

Lemma NoDup_incl_zlen {A} (l l' : list A) : NoDup l -> incl l l' -> zlen l <= zlen l'.
Proof. intros. unfold zlen. apply inj_le. now apply NoDup_incl_length. Qed.

Lemma zcount_le {A} (f : A -> bool) l : zcount f l <= zlen l.
Proof. induction l; [rewrite zcount_nil; apply zlen_nonneg|]. rewrite zcount_cons, zlen_cons. destruct (f a); lia. Qed.

Lemma phi_bound s ord dn : Inv s ord dn -> J s -> phi s ord dn <= 5 * nt + n + m.
Proof.
  intros I JJ. unfold phi.
  assert (Hgt : forall t, In t (gots (s_trace s)) -> In t (tasks n src dst)).
  { intros t Ht. apply was_got_gots in Ht. destruct (i_got _ _ _ _ _ _ I t Ht) as [k [A _]].
    eapply ord_in_tasks; eauto. eapply getz_In; eauto. }
  assert (Hft : forall t, In t (fins (s_trace s)) -> In t (tasks n src dst)).
  { intros t Ht. apply Hgt, was_got_gots, (i_fingot _ _ _ _ _ _ I), was_fin_fins; auto. }
  pose proof (NoDup_incl_zlen (gots (s_trace s)) (tasks n src dst) (i_once _ _ _ _ _ _ I) Hgt).
  pose proof (NoDup_incl_zlen (fins (s_trace s)) (tasks n src dst) (j_fins _ JJ) Hft).
  pose proof (NoDup_incl_zlen (rets (s_trace s)) (tasks n src dst) (j_rets _ JJ) (fun t H => Hft t (j_incl _ JJ t H))).
  pose proof (zcount_le dn (zrange 0 m)). rewrite zlen_zrange in H2 by (unfold m; apply zlen_nonneg).
  pose proof (ord_len n src dst WF s ord dn I).
  pose proof (zcount_le (fun v => negb (v =? -1)) (q_queue (s_q s))). rewrite (i_qlen _ _ _ _ _ _ I) in H4.
  unfold nt. lia.
Qed.

Lemma live_exec c s : exec g q0 c s ->
  J s /\ exists ord dn, Inv s ord dn /\ c <= phi s ord dn.
Proof.
  induction 1.
  - split; [apply J_start|]. exists (zeros indeg n), (fun _ => false). split; [eapply inv_start; eauto|].
    unfold phi. simpl. rewrite Hq0h.
    pose proof (zcount_nonneg (fun _ => false) (zrange 0 m)). pose proof (zlen_nonneg (zeros indeg n)).
    pose proof (zcount_nonneg (fun v => negb (v =? -1)) (q_queue q0)).
    pose proof (zlen_nonneg (tasks n src dst)). unfold nt. zlia.
  - destruct IHexec as [JJ [ord [dn [I Hc]]]].
    destruct (live_step _ _ _ _ _ _ I JJ H0) as [J' [o [d [I' Hp]]]]. split; auto. exists o, d. split; auto.
    unfold counted in Hp. destruct (_ && _); lia.
Qed.

Lemma exec_bound c s : exec g q0 c s -> c <= 5 * nt + n + m.
Proof. intros H. destruct (live_exec c s H) as [JJ [ord [dn [I Hc]]]]. pose proof (phi_bound s ord dn I JJ). lia. Qed.

(** *** Deadlock freedom *)


Lemma min_in_list (rank : Z -> nat) (l : list Z) :
  l <> [] -> exists t0, In t0 l /\ forall t', In t' l -> (rank t0 <= rank t')%nat.
Proof.
  induction l as [|a l IH]; [congruence|]. intros _. destruct l as [|b l].
  - exists a. split; [now left|]. intros t' [->|[]]; auto.
  - destruct IH as [t0 [H0 H1]]; [discriminate|].
    destruct (le_lt_dec (rank a) (rank t0)).
    + exists a. split; [now left|]. intros t' [<-|Ht]; auto. specialize (H1 t' Ht). lia.
    + exists t0. split; [now right|]. intros t' [<-|Ht]; auto. lia.
Qed.

Definition busy_finish (ts : tstate) : Prop := exists t jn, works ts t jn.

Lemma no_deadlock s :
  drainable n src dst -> reach g q0 s ->
  (exists t, In t (tasks n src dst) /\ ~ In t (rets (s_trace s))) ->
  (exists i, busy_finish (s_thr s i)) \/
  (exists t, In t (s_held s)) \/
  (exists i h v, s_thr s i = Load h /\ getz (q_queue (s_q s)) h = Some v /\ v <> -1) \/
  (q_head (s_q s) < nt /\ exists v, getz (q_queue (s_q s)) (q_head (s_q s)) = Some v /\ v <> -1).
Proof.
  intros [[rank Hrank] Hskip] Hr [t1 [Ht1 Hn1]].
  destruct (live_reach s Hr) as [JJ [ord [dn I]]].
  set (l := filter (fun t => if in_dec Z.eq_dec t (rets (s_trace s)) then false else true) (tasks n src dst)).
  assert (Hl : forall t, In t l <-> In t (tasks n src dst) /\ ~ In t (rets (s_trace s))).
  { intros t. unfold l. rewrite filter_In. destruct (in_dec Z.eq_dec t (rets (s_trace s))); intuition congruence. }
  destruct (min_in_list rank l) as [t [Ht Hmin]].
  { intros E. assert (In t1 l) by (apply Hl; auto). rewrite E in H. easy. }
  apply Hl in Ht. destruct Ht as [Ht Hnt].
  destruct (tasks_spec n src dst WF) as [_ Hts]. pose proof (proj1 (Hts t) Ht) as [Htr Htns].
  (* all predecessors have completed *)
  assert (Hz : remn dst dn t = 0).
  { apply zcount_zero. intros j Hj. apply In_zrange in Hj. destruct (Z.eqb_spec (nthz dst j) t); [|reflexivity].
    simpl. destruct (row_exists n src dst WF j Hj) as [p Hp].
    assert (Hrel : relies_on n src dst t p) by (exists j; apply (edge_row n src dst WF); auto).
    assert (Hpt : p <> t) by (intros ->; apply Htns; exact Hrel).
    assert (Hpk : In p (tasks n src dst)).
    { apply Hts. split; [apply Hp|]. intros Hs. apply Htns. eapply Hskip; eauto. }
    assert (Hpr : In p (rets (s_trace s))).
    { destruct (in_dec Z.eq_dec p (rets (s_trace s))); auto. exfalso.
      specialize (Hrank _ _ Hrel Hpt). specialize (Hmin p (proj2 (Hl p) (conj Hpk n0))). lia. }
    rewrite (i_nowork _ _ _ _ _ _ I p j); auto.
    - apply was_fin_fins. now apply (j_incl _ JJ).
    - intros i jn. now apply (j_nw _ JJ). }
  destruct (i_zero _ _ _ _ _ _ I t Htr Hz) as [Ho|[i [t' [j' H]]]].
  2: { left. exists i, t', (j' + 1). rewrite H. constructor. }
  apply In_getz in Ho. destruct Ho as [k Hk]. pose proof (getz_range _ _ _ Hk) as Hkr.
  pose proof (ord_len n src dst WF s ord dn I) as Hol. fold nt in Hol.
  destruct (Z.lt_ge_cases k (q_head (s_q s))) as [Hkh|Hkh].
  - (* slot already claimed *)
    destruct (i_slot _ _ _ _ _ _ I k ltac:(lia)) as [[i H]|[p [Hp Hg]]]; [fold nt; lia| |].
    + destruct (i_q' _ _ _ _ _ _ I k t Hk) as [Hq|[i' [t' [j' H']]]].
      * right; right; left. exists i, k, t. repeat split; auto; lia.
      * left. exists i', t', (j' + 1). rewrite H'. constructor.
    + assert (p = t) by congruence. subst p.
      destruct (in_dec Z.eq_dec t (fins (s_trace s))) as [Hf|Hf].
      * destruct (j_ret _ JJ t Hf) as [[i [jn H]]|]; [|contradiction]. left. exists i, t, jn. auto.
      * right; left. exists t. apply (i_held _ _ _ _ _ _ I). split; auto. now rewrite was_fin_fins.
  - (* the slot at the head is below the tail *)
    pose proof (i_head _ _ _ _ _ _ I).
    destruct (getz_in ord (q_head (s_q s))) as [d Hd]; [lia|].
    assert (0 <= d < n) by (apply (i_ordr _ _ _ _ _ _ I); eapply getz_In; eauto).
    destruct (i_q' _ _ _ _ _ _ I _ d Hd) as [Hq|[i' [t' [j' H']]]].
    + right; right; right. split; [lia|]. exists d. split; auto; lia.
    + left. exists i', t', (j' + 1). rewrite H'. constructor.
Qed.

(** *** Completeness of get_task = -1 *)

Lemma slots_accounted s ord dn :
  Inv s ord dn -> forall K, (Z.of_nat K <= q_head (s_q s)) -> Z.of_nat K <= nt ->
  exists (ths : list nat) (gl : list Z),
    NoDup ths /\ (forall i, In i ths -> exists h, s_thr s i = Load h /\ h < Z.of_nat K) /\
    NoDup gl /\ (forall p, In p gl -> In p (gots (s_trace s)) /\ exists k, getz ord k = Some p /\ k < Z.of_nat K) /\
    zlen ths + zlen gl = Z.of_nat K.
Proof.
  intros I. induction K as [|K IH]; intros HK HKn.
  - exists [], []. repeat split; try constructor; try easy.
  - destruct IH as [ths [gl [A [B [C [D E]]]]]]; try lia.
    destruct (i_slot _ _ _ _ _ _ I (Z.of_nat K) ltac:(lia)) as [[i H]|[p [Hp Hg]]]; [fold nt; lia| |].
    + exists (i :: ths), gl. repeat split; auto.
      * constructor; auto. intros Hc. destruct (B i Hc) as [h [E1 E2]]. rewrite H in E1. inversion E1. lia.
      * intros i' [<-|Hi]; [exists (Z.of_nat K); split; auto; lia|].
        destruct (B i' Hi) as [h [E1 E2]]. exists h; split; auto; lia.
      * now apply D.
      * destruct (D p H0) as [_ [k [E1 E2]]]. exists k; split; auto; lia.
      * rewrite zlen_cons. lia.
    + exists ths, (p :: gl). repeat split; auto.
      * intros i' Hi. destruct (B i' Hi) as [h [E1 E2]]. exists h; split; auto; lia.
      * constructor; auto. intros Hc. destruct (D p Hc) as [_ [k [E1 E2]]].
        assert (k = Z.of_nat K) by exact (NoDup_getz_inj ord _ _ p (i_nodup _ _ _ _ _ _ I) E1 Hp). lia.
      * destruct H as [<-|H]; [now apply was_got_gots|]. now apply D.
      * destruct H as [<-|H]; [exists (Z.of_nat K); split; auto; lia|].
        destruct (D p0 H) as [_ [k [E1 E2]]]. exists k; split; auto; lia.
      * rewrite zlen_cons. lia.
Qed.

Lemma none_accounted s i :
  reach g q0 s -> In (GotNone i) (s_trace s) ->
  exists ths : list nat, NoDup ths /\ (forall i, In i ths -> exists h, s_thr s i = Load h) /\
    zlen (gots (s_trace s)) + zlen ths = nt.
Proof.
  intros Hr Hin. destruct (live_reach s Hr) as [JJ [ord [dn I]]].
  pose proof (i_none _ _ _ _ _ _ I i Hin) as Hh. fold nt in Hh.
  assert (0 <= nt) by (unfold nt; apply zlen_nonneg).
  destruct (slots_accounted s ord dn I (Z.to_nat nt)) as [ths [gl [A [B [C [D E]]]]]]; try lia.
  exists ths. split; [auto|]. split; [intros k Hk; destruct (B k Hk) as [h [? _]]; eauto|].
  assert (zlen gl <= zlen (gots (s_trace s))).
  { apply NoDup_incl_zlen; auto. intros p Hp. now apply D. }
  assert (zlen (gots (s_trace s)) <= zlen gl); [|lia].
  apply NoDup_incl_zlen; [apply (i_once _ _ _ _ _ _ I)|]. intros p Hp.
  apply was_got_gots in Hp. destruct (i_got _ _ _ _ _ _ I p Hp) as [k [E1 [E2 E3]]].
  (* p's slot is below nt, hence accounted for by gl *)
  destruct (in_dec Z.eq_dec p gl) as [|Hno]; auto. exfalso.
  assert (Hle : zlen (map (fun p => p) (p :: gl)) + zlen ths <= nt).
  { rewrite map_id.
    (* injection of (p :: gl) and ths into slots *)
    assert (Hsl : forall x, In x (p :: gl) -> exists k, getz ord k = Some x /\ (forall i, s_thr s i <> Load k)).
    { intros x [<-|Hx]; [eauto|]. destruct (D x Hx) as [Hx1 _]. apply was_got_gots in Hx1.
      destruct (i_got _ _ _ _ _ _ I x Hx1) as [k' [F1 [_ F3]]]. eauto. }
    pose (slot := fun x => match find (fun k => match getz ord k with Some y => y =? x | None => false end) (zrange 0 nt) with Some k => k | None => 0 end).
    pose proof (ord_len n src dst WF s ord dn I) as Hol. fold nt in Hol.
    assert (Hslot : forall x, In x (p :: gl) -> getz ord (slot x) = Some x /\ (forall i, s_thr s i <> Load (slot x)) /\ 0 <= slot x < nt).
    { intros x Hx. destruct (Hsl x Hx) as [k' [F1 F2]].
      assert (slot x = k').
      { unfold slot. destruct (find _ _) as [k2|] eqn:Ef.
        - apply find_some in Ef. destruct Ef as [_ Ef]. destruct (getz ord k2) as [y|] eqn:Ey; [|discriminate].
          apply Z.eqb_eq in Ef. subst y. exact (NoDup_getz_inj ord _ _ x (i_nodup _ _ _ _ _ _ I) Ey F1).
        - exfalso. pose proof (getz_range _ _ _ F1).
          assert (Hk' : In k' (zrange 0 nt)) by (apply In_zrange; lia).
          pose proof (find_none _ _ Ef k' Hk') as Hc. simpl in Hc. rewrite F1 in Hc. rewrite Z.eqb_refl in Hc. discriminate. }
      rewrite H1. pose proof (getz_range _ _ _ F1). repeat split; auto; lia. }
    pose (hs := fun i => match s_thr s i with Load h => h | _ => 0 end).
    assert (Hhs : forall i, In i ths -> s_thr s i = Load (hs i) /\ 0 <= hs i < nt).
    { intros k0 Hk0. destruct (B k0 Hk0) as [h [Eh _]]. unfold hs. rewrite Eh. split; auto.
      destruct (i_load _ _ _ _ _ _ I k0 h Eh). fold nt in H2. lia. }
    assert (Hnd : NoDup (map slot (p :: gl) ++ map hs ths)).
    { assert (N1 : NoDup (map slot (p :: gl))).
      { 
        assert (Hnp : NoDup (p :: gl)) by (constructor; auto).
        revert Hslot Hnp. generalize (p :: gl). induction l; simpl; intros Hs Hn; [constructor|].
        inversion Hn; subst. constructor; [|apply IHl; auto].
        intros Hc. apply in_map_iff in Hc. destruct Hc as [y [Ey Hy]].
        destruct (Hs a) as [Fa _]; auto. destruct (Hs y) as [Fy _]; auto. rewrite Ey in Fy.
        assert (a = y) by congruence. subst; contradiction. }
      assert (N2 : NoDup (map hs ths)).
      { revert A Hhs. generalize ths. induction ths0; simpl; intros Hn Hs; [constructor|].
        inversion Hn; subst. constructor; [|apply IHths0; auto].
        intros Hc. apply in_map_iff in Hc. destruct Hc as [y [Ey Hy]].
        destruct (Hs a) as [Fa _]; auto. destruct (Hs y) as [Fy _]; auto. rewrite Ey in Fy.
        assert (a = y) by (eapply (i_loadu _ _ _ _ _ _ I); eauto). subst; contradiction. }
      revert N1 N2. assert (Hdis : forall x, In x (map slot (p :: gl)) -> ~ In x (map hs ths)).
      { intros x Hx Hx'. apply in_map_iff in Hx, Hx'. destruct Hx as [y [<- Hy]]. destruct Hx' as [z [Ez Hz']].
        destruct (Hslot y Hy) as [_ [F _]]. destruct (Hhs z Hz') as [F' _]. rewrite Ez in F'. now apply (F z). }
      revert Hdis. generalize (map slot (p :: gl)) (map hs ths). induction l; simpl; intros l0 Hd N1 N2; auto.
      inversion N1; subst. constructor; [|apply IHl; auto].
      intros Hc. apply in_app_or in Hc. destruct Hc; auto. eapply Hd; eauto. }
    assert (Hincl : incl (map slot (p :: gl) ++ map hs ths) (zrange 0 nt)).
    { intros x Hx. apply In_zrange. apply in_app_or in Hx. destruct Hx as [Hx|Hx]; apply in_map_iff in Hx; destruct Hx as [y [<- Hy]].
      - now apply Hslot.
      - now apply Hhs. }
    pose proof (NoDup_incl_zlen _ _ Hnd Hincl). rewrite zlen_zrange in H1 by lia.
    rewrite zlen_app, !zlen_map in H1. lia. }
  rewrite map_id, zlen_cons in Hle. lia.
Qed.

End Live.
