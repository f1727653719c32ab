(** Inductive invariant of the concurrent task queue. *)
From Coq Require Import ZArith List Lia Bool Permutation.
From Verif Require Import Base Model_DagQueue Spec_DagQueue Proof_DagQueue.
Import ListNotations.
Open Scope Z_scope.

(** The thread state is in a finish call for [t] with edges before [jn] done. *)
Inductive works : tstate -> Z -> Z -> Prop :=
  | w_fin : forall t j, works (Fin t j) t j
  | w_push : forall t j d, works (Push t j d) t (j + 1)
  | w_store : forall t j d k, works (Store t j d k) t (j + 1).

Definition was_got (tr : list event) (t : Z) := exists i, In (Got i t) tr.
Definition was_fin (tr : list event) (t : Z) := exists i, In (FinCall i t) tr.

Lemma was_got_gots tr t : was_got tr t <-> In t (gots tr).
Proof.
  unfold was_got. induction tr as [|e tr IH]; simpl; [split; [intros [? []]|intros []]|].
  destruct e; simpl; rewrite <- IH; split; try (intros [i' [H|H]]; try discriminate; eauto; fail).
  - intros [i' [H|H]]; [inversion H; auto|eauto].
  - intros [<-|[i' H]]; eauto.
  - intros [i' H]; eauto.
  - intros [i' H]; eauto.
  - intros [i' H]; eauto.
Qed.

Lemma set_thr_same f i t : set_thr f i t i = t.
Proof. unfold set_thr. now rewrite Nat.eqb_refl. Qed.
Lemma set_thr_other f i t k : k <> i -> set_thr f i t k = f k.
Proof. unfold set_thr. intros. destruct (Nat.eqb_spec k i); congruence. Qed.

Lemma works_fun ts t jn t' jn' : works ts t jn -> works ts t' jn' -> t = t' /\ jn = jn'.
Proof. intros H H'; inversion H; subst; inversion H'; subst; auto. Qed.

Lemma NoDup_getz_inj {A} (l : list A) i j x : NoDup l -> getz l i = Some x -> getz l j = Some x -> i = j.
Proof.
  intros Hnd Hi Hj. pose proof (getz_range _ _ _ Hi). pose proof (getz_range _ _ _ Hj).
  unfold getz in *. destruct (Z.leb_spec 0 i); [|lia]. destruct (Z.leb_spec 0 j); [|lia].
  rewrite NoDup_nth_error in Hnd. assert (Z.to_nat i = Z.to_nat j); [|lia].
  apply Hnd; [unfold zlen in *; lia|congruence].
Qed.

Lemma remove_NoDup l (x : Z) : NoDup l -> NoDup (remove Z.eq_dec x l).
Proof.
  induction l; simpl; intros H; [constructor|]. inversion H; subst.
  destruct (Z.eq_dec x a); auto. constructor; auto. intros Hc. apply in_remove in Hc. tauto.
Qed.

Lemma was_got_cons e tr t : was_got (e :: tr) t <-> (exists i, e = Got i t) \/ was_got tr t.
Proof. unfold was_got; simpl. split; [intros [i [H|H]]; eauto|intros [[i H]|[i H]]; eauto]. Qed.
Lemma was_fin_cons e tr t : was_fin (e :: tr) t <-> (exists i, e = FinCall i t) \/ was_fin tr t.
Proof. unfold was_fin; simpl. split; [intros [i [H|H]]; eauto|intros [[i H]|[i H]]; eauto]. Qed.

Lemma order_cons_notgot e tr (P : list event -> Z -> Prop) :
  (forall i t, e <> Got i t) ->
  (forall post i t pre, tr = post ++ Got i t :: pre -> P pre t) ->
  forall post i t pre, e :: tr = post ++ Got i t :: pre -> P pre t.
Proof.
  intros He Ht post i t pre E. destruct post as [|e' post]; simpl in E; inversion E; subst.
  - exfalso; eapply He; eauto.
  - eapply Ht; eauto.
Qed.

Section Inv.
Variables (n : Z) (src dst : list Z).
Hypothesis WF : wf_dag n src dst.

Let m := zlen dst.
Let nt := zlen (tasks n src dst).

(** Edges into [d] whose decrement has not been performed. *)
Definition remn (dn : Z -> bool) (d : Z) : Z :=
  zcount (fun j => (nthz dst j =? d) && negb (dn j)) (zrange 0 m).

Definition self (d : Z) := skipped n src dst d.
Let rw := row n src.

Record Inv (s : sys) (ord : list Z) (dn : Z -> bool) : Prop := {
  i_head   : 0 <= q_head (s_q s);
  i_tail   : q_tail (s_q s) = zlen ord;
  i_qlen   : zlen (q_queue (s_q s)) = n;
  i_clen   : zlen (q_indeg (s_q s)) = n;
  i_nodup  : NoDup ord;
  i_ordr   : forall d, In d ord -> 0 <= d < n /\ remn dn d = 0 /\ ~ self d;
  i_curr   : forall d, 0 <= d < n -> getz (q_indeg (s_q s)) d = Some (remn dn d);
  i_zero   : forall d, 0 <= d < n -> remn dn d = 0 ->
               In d ord \/ exists i t j, s_thr s i = Push t j d;
  i_push   : forall i t j d, s_thr s i = Push t j d ->
               0 <= d < n /\ ~ In d ord /\ remn dn d = 0 /\ ~ self d;
  i_pushu  : forall i i' t t' j j' d, s_thr s i = Push t j d -> s_thr s i' = Push t' j' d -> i = i';
  i_store  : forall i t j d k, s_thr s i = Store t j d k ->
               getz ord k = Some d /\ getz (q_queue (s_q s)) k = Some (-1);
  i_storeu : forall i i' t t' j j' d d' k,
               s_thr s i = Store t j d k -> s_thr s i' = Store t' j' d' k -> i = i';
  i_q      : forall k v, getz (q_queue (s_q s)) k = Some v -> v <> -1 -> getz ord k = Some v;
  i_q'     : forall k d, getz ord k = Some d ->
               getz (q_queue (s_q s)) k = Some d \/ exists i t j, s_thr s i = Store t j d k;
  i_load   : forall i h, s_thr s i = Load h -> 0 <= h < q_head (s_q s) /\ h < nt;
  i_loadu  : forall i i' h, s_thr s i = Load h -> s_thr s i' = Load h -> i = i';
  i_got    : forall p, was_got (s_trace s) p ->
               exists k, getz ord k = Some p /\ k < q_head (s_q s) /\ forall i, s_thr s i <> Load k;
  i_slot   : forall k, 0 <= k < q_head (s_q s) -> k < nt ->
               (exists i, s_thr s i = Load k) \/
               (exists p, getz ord k = Some p /\ was_got (s_trace s) p);
  i_held   : forall p, In p (s_held s) <-> was_got (s_trace s) p /\ ~ was_fin (s_trace s) p;
  i_heldnd : NoDup (s_held s);
  i_fingot : forall p, was_fin (s_trace s) p -> was_got (s_trace s) p;
  i_dnfin  : forall p j, rw p j -> dn j = true -> was_fin (s_trace s) p;
  i_work   : forall i t jn, works (s_thr s i) t jn ->
               was_fin (s_trace s) t /\ nthz src t <= jn <= nthz src (t + 1) /\ 0 <= t < n /\
               forall j, rw t j -> dn j = (j <? jn);
  i_worku  : forall i i' t jn jn', works (s_thr s i) t jn -> works (s_thr s i') t jn' -> i = i';
  i_nowork : forall t j, was_fin (s_trace s) t -> (forall i jn, ~ works (s_thr s i) t jn) ->
               rw t j -> dn j = true;
  i_once   : NoDup (gots (s_trace s));
  i_order  : forall post i t pre, s_trace s = post ++ Got i t :: pre ->
               forall p, relies_on n src dst t p -> was_fin pre p;
  i_none   : forall i, In (GotNone i) (s_trace s) -> nt <= q_head (s_q s)
}.

Lemma remn_nonneg dn d : 0 <= remn dn d. Proof. apply zcount_nonneg. Qed.

Lemma remn_zero_edges dn d p j : remn dn d = 0 -> rw p j -> nthz dst j = d -> dn j = true.
Proof.
  intros Hz Hr Hd. unfold remn in Hz. rewrite zcount_zero in Hz.
  assert (0 <= j < m) by (apply (row_m n src dst WF p); auto).
  specialize (Hz j (proj2 (In_zrange 0 m j) H)). simpl in Hz. rewrite Hd, Z.eqb_refl in Hz.
  destruct (dn j); auto.
Qed.

Lemma ord_in_tasks s ord dn d : Inv s ord dn -> In d ord -> In d (tasks n src dst).
Proof.
  intros I H. apply (proj2 (tasks_spec n src dst WF)). destruct (i_ordr _ _ _ I d H) as [A [_ B]].
  split; auto.
Qed.

Lemma ord_len s ord dn : Inv s ord dn -> zlen ord <= nt.
Proof.
  intros I. unfold nt, zlen. apply inj_le. apply NoDup_incl_length; [apply (i_nodup _ _ _ I)|].
  intros d Hd. eapply ord_in_tasks; eauto.
Qed.

Lemma nt_le_n : nt <= n.
Proof.
  unfold nt. rewrite tasks_len by auto. pose proof (zcount_nonneg (selfb src dst) (zrange 0 n)). lia.
Qed.

(** A task that is fully decremented but not yet claimed by the queue is not
    skipped: a self edge would require that it had been finished already. *)
Lemma zero_not_self s ord dn d :
  Inv s ord dn -> 0 <= d < n -> remn dn d = 0 -> self d -> In d ord.
Proof.
  intros I Hd Hz [j Hj]. apply (edge_row n src dst WF) in Hj. destruct Hj as [Hr Hj].
  assert (dn j = true) by (eapply remn_zero_edges; eauto).
  pose proof (i_dnfin _ _ _ I d j Hr H) as Hf. apply (i_fingot _ _ _ I) in Hf.
  destruct (i_got _ _ _ I d Hf) as [k [Hk _]]. eapply getz_In; eauto.
Qed.

(** *** Preservation *)

Ltac thr_cases i k :=
  destruct (Nat.eq_dec k i) as [->|?];
  [rewrite ?set_thr_same in *|rewrite ?set_thr_other in * by auto].

Lemma inv_callget s ord dn i :
  Inv s ord dn -> s_thr s i = Idle ->
  let q := s_q s in
  let q' := mkQueue (q_head q + 1) (q_tail q) (q_indeg q) (q_queue q) in
  Inv (if nt <=? q_head q
       then mkSys q' (s_thr s) (s_held s) (GotNone i :: s_trace s)
       else mkSys q' (set_thr (s_thr s) i (Load (q_head (s_q s)))) (s_held s) (s_trace s)) ord dn.
Proof.
  intros I Hi q q'. subst q q'. destruct (Z.leb_spec nt (q_head (s_q s))) as [Hle|Hlt].
  - constructor; cbn [s_q s_thr s_held s_trace q_head q_tail q_indeg q_queue gots]; try (solve [apply I]).
    + pose proof (i_head _ _ _ I); lia.
    + intros i0 h H. destruct (i_load _ _ _ I i0 h H). lia.
    + intros p Hp. apply was_got_cons in Hp. destruct Hp as [[? ?]|Hp]; [discriminate|].
      destruct (i_got _ _ _ I p Hp) as [k [A [B C]]]. exists k. repeat split; auto. lia.
    + intros k Hk Hkn. destruct (Z.lt_ge_cases k (q_head (s_q s))) as [H|H].
      * destruct (i_slot _ _ _ I k) as [?|[p [A B]]]; auto. { lia. }
        right. exists p; split; auto. apply was_got_cons; auto.
      * lia.
    + intros p. rewrite was_got_cons, was_fin_cons, (i_held _ _ _ I p). split.
      * intros [A B]. split; auto. intros [[? ?]|?]; [discriminate|auto].
      * intros [[[? ?]|A] B]; [discriminate|]. split; auto.
    + intros p. rewrite was_got_cons, was_fin_cons. intros [[? ?]|H]; [discriminate|].
      right; now apply (i_fingot _ _ _ I).
    + intros p j Hr Hd. apply was_fin_cons. right. eapply (i_dnfin _ _ _ I); eauto.
    + intros i0 t jn H. rewrite was_fin_cons. destruct (i_work _ _ _ I i0 t jn H) as [A B]. auto.
    + intros t j. rewrite was_fin_cons. intros [[? ?]|H]; [discriminate|]. apply (i_nowork _ _ _ I); auto.
    + eapply (order_cons_notgot _ _ (fun pre t => forall p, relies_on n src dst t p -> was_fin pre p)); [congruence|].
      apply (i_order _ _ _ I).
    + intros i0 [H|H]; [lia|]. pose proof (i_none _ _ _ I i0 H). lia.
  - assert (Hw : forall i0 t jn, works (set_thr (s_thr s) i (Load (q_head (s_q s))) i0) t jn <-> works (s_thr s i0) t jn).
    { intros. thr_cases i i0; [|tauto]. rewrite Hi. split; intro H; inversion H. }
    constructor; cbn [s_q s_thr s_held s_trace q_head q_tail q_indeg q_queue]; try (solve [apply I]).
    + pose proof (i_head _ _ _ I); lia.
    + intros d Hd Hz. destruct (i_zero _ _ _ I d Hd Hz) as [?|[k [t [j H]]]]; auto.
      right. exists k, t, j. thr_cases i k; auto. congruence.
    + intros i0 t j d H. thr_cases i i0; [discriminate|]. eapply (i_push _ _ _ I); eauto.
    + intros i0 i1 t t' j j' d H H'. thr_cases i i0; [discriminate|]. thr_cases i i1; [discriminate|].
      eapply (i_pushu _ _ _ I); eauto.
    + intros i0 t j d k H. thr_cases i i0; [discriminate|]. eapply (i_store _ _ _ I); eauto.
    + intros i0 i1 t t' j j' d d' k H H'. thr_cases i i0; [discriminate|]. thr_cases i i1; [discriminate|].
      eapply (i_storeu _ _ _ I); eauto.
    + intros k d H. destruct (i_q' _ _ _ I k d H) as [?|[i0 [t [j H']]]]; auto.
      right. exists i0, t, j. thr_cases i i0; auto. congruence.
    + intros i0 h H. thr_cases i i0.
      * inversion H; subst. pose proof (i_head _ _ _ I). lia.
      * destruct (i_load _ _ _ I i0 h H). lia.
    + intros i0 i1 h H H'. thr_cases i i0; thr_cases i i1; auto.
      * inversion H; subst. destruct (i_load _ _ _ I i1 _ H'). lia.
      * inversion H'; subst. destruct (i_load _ _ _ I i0 _ H). lia.
      * eapply (i_loadu _ _ _ I); eauto.
    + intros p Hp. destruct (i_got _ _ _ I p Hp) as [k [A [B C]]]. exists k. repeat split; auto. { lia. }
      intros i0. thr_cases i i0; auto. intro E; inversion E; subst. lia.
    + intros k Hk Hkn. destruct (Z.lt_ge_cases k (q_head (s_q s))) as [H|H].
      * destruct (i_slot _ _ _ I k) as [[i0 ?]|[p [A B]]]; auto. { lia. }
        -- left. exists i0. thr_cases i i0; auto. congruence.
        -- right. exists p; split; auto.
      * left. exists i. rewrite set_thr_same. f_equal. lia.
    + intros i0 t jn H. apply Hw in H. eapply (i_work _ _ _ I); eauto.
    + intros i0 i1 t jn jn' H H'. apply Hw in H. apply Hw in H'. eapply (i_worku _ _ _ I); eauto.
    + intros t j H Hno. apply (i_nowork _ _ _ I); auto. intros i0 jn Hc. apply (Hno i0 jn). now apply Hw.
    + intros i0 H. pose proof (i_none _ _ _ I i0 H). lia.
Qed.

Lemma inv_loaded s ord dn i h v :
  Inv s ord dn -> s_thr s i = Load h -> getz (q_queue (s_q s)) h = Some v -> v <> -1 ->
  Inv (mkSys (s_q s) (set_thr (s_thr s) i Idle) (v :: s_held s) (Got i v :: s_trace s)) ord dn.
Proof.
  intros I Hi Hv Hne.
  assert (Hord : getz ord h = Some v) by (eapply (i_q _ _ _ I); eauto).
  assert (Hng : ~ was_got (s_trace s) v).
  { intros Hg. destruct (i_got _ _ _ I v Hg) as [k [A [B C]]].
    assert (k = h) by (eapply NoDup_getz_inj; eauto; apply (i_nodup _ _ _ I)). subst k. now apply (C i). }
  assert (Hw : forall i0 t jn, works (set_thr (s_thr s) i Idle i0) t jn <-> works (s_thr s i0) t jn).
  { intros. thr_cases i i0; [|tauto]. rewrite Hi. split; intro H; inversion H. }
  constructor; cbn [s_q s_thr s_held s_trace gots]; try (solve [apply I]).
  - intros d Hd Hz. destruct (i_zero _ _ _ I d Hd Hz) as [?|[k [t [j H]]]]; auto.
    right. exists k, t, j. thr_cases i k; auto. congruence.
  - intros i0 t j d H. thr_cases i i0; [discriminate|]. eapply (i_push _ _ _ I); eauto.
  - intros i0 i1 t t' j j' d H H'. thr_cases i i0; [discriminate|]. thr_cases i i1; [discriminate|].
    eapply (i_pushu _ _ _ I); eauto.
  - intros i0 t j d k H. thr_cases i i0; [discriminate|]. eapply (i_store _ _ _ I); eauto.
  - intros i0 i1 t t' j j' d d' k H H'. thr_cases i i0; [discriminate|]. thr_cases i i1; [discriminate|].
    eapply (i_storeu _ _ _ I); eauto.
  - intros k d H. destruct (i_q' _ _ _ I k d H) as [?|[i0 [t [j H']]]]; auto.
    right. exists i0, t, j. thr_cases i i0; auto. congruence.
  - intros i0 h0 H. thr_cases i i0; [discriminate|]. eapply (i_load _ _ _ I); eauto.
  - intros i0 i1 h0 H H'. thr_cases i i0; [discriminate|]. thr_cases i i1; [discriminate|]. eapply (i_loadu _ _ _ I); eauto.
  - intros p Hp. apply was_got_cons in Hp. destruct Hp as [[i' E]|Hp].
    + inversion E; subst. exists h. destruct (i_load _ _ _ I _ _ Hi). repeat split; auto; [lia|].
      intros i0. thr_cases i' i0; [discriminate|]. intros Hc.
      apply n0. eapply (i_loadu _ _ _ I); eauto.
    + destruct (i_got _ _ _ I p Hp) as [k [A [B C]]]. exists k. repeat split; auto.
      intros i0. thr_cases i i0; auto. discriminate.
  - intros k Hk Hkn. destruct (i_slot _ _ _ I k Hk Hkn) as [[i0 ?]|[p [A B]]].
    + destruct (Nat.eq_dec i0 i) as [->|Hn].
      * right. exists v. split; [congruence|]. apply was_got_cons; eauto.
      * left. exists i0. now rewrite set_thr_other.
    + right. exists p; split; auto. apply was_got_cons; auto.
  - intros p. simpl. rewrite was_got_cons, was_fin_cons. rewrite (i_held _ _ _ I p). split.
    + intros [<-|[A B]]; (split; [eauto|]); intros [[? ?]|Hf]; try discriminate; auto.
      apply Hng. now apply (i_fingot _ _ _ I).
    + intros [[[i' E]|A] B]; [inversion E; auto|]. right. split; auto.
  - constructor; [|apply (i_heldnd _ _ _ I)]. rewrite (i_held _ _ _ I v). tauto.
  - intros p. rewrite was_got_cons, was_fin_cons. intros [[? ?]|H]; [discriminate|].
    right; now apply (i_fingot _ _ _ I).
  - intros p j Hr Hd. apply was_fin_cons. right. eapply (i_dnfin _ _ _ I); eauto.
  - intros i0 t jn H. apply Hw in H. rewrite was_fin_cons. destruct (i_work _ _ _ I i0 t jn H) as [A B]. auto.
  - intros i0 i1 t jn jn' H H'. apply Hw in H. apply Hw in H'. eapply (i_worku _ _ _ I); eauto.
  - intros t j. rewrite was_fin_cons. intros [[? ?]|H] Hno; [discriminate|]. apply (i_nowork _ _ _ I); auto.
    intros i0 jn Hc. apply (Hno i0 jn). now apply Hw.
  - constructor; [|apply (i_once _ _ _ I)]. now rewrite <- was_got_gots.
  - intros post i0 t pre E p Hp. destruct post as [|e post]; simpl in E; inversion E; subst.
    + destruct Hp as [j Hj]. apply (edge_row n src dst WF) in Hj. destruct Hj as [Hr Hj].
      eapply (i_dnfin _ _ _ I); eauto. eapply remn_zero_edges; eauto.
      apply (i_ordr _ _ _ I). eapply getz_In; eauto.
    + eapply (i_order _ _ _ I); eauto.
  - intros i0 [H|H]; [discriminate|]. eapply (i_none _ _ _ I); eauto.
Qed.

Lemma inv_callfin s ord dn i t :
  Inv s ord dn -> s_thr s i = Idle -> In t (s_held s) ->
  0 <= t < n /\
  Inv (mkSys (s_q s) (set_thr (s_thr s) i (Fin t (nthz src t)))
         (remove Z.eq_dec t (s_held s)) (FinCall i t :: s_trace s)) ord dn.
Proof.
  intros I Hi Ht. pose proof Ht as Ht0. apply (i_held _ _ _ I) in Ht. destruct Ht as [Hg Hnf].
  assert (Hrt : 0 <= t < n).
  { destruct (i_got _ _ _ I t Hg) as [k [A _]]. apply (i_ordr _ _ _ I). eapply getz_In; eauto. }
  split; auto.
  assert (Hnw : forall i0 jn, ~ works (s_thr s i0) t jn).
  { intros i0 jn H. apply Hnf. now destruct (i_work _ _ _ I i0 t jn H). }
  assert (Hw : forall i0 t' jn, works (set_thr (s_thr s) i (Fin t (nthz src t)) i0) t' jn <->
     (i0 = i /\ t' = t /\ jn = nthz src t) \/ works (s_thr s i0) t' jn).
  { intros. thr_cases i i0.
    - rewrite Hi. split; intro H; [inversion H; auto|].
      destruct H as [[_ [-> ->]]|H]; [constructor|inversion H].
    - split; auto. intros [[? _]|?]; auto. congruence. }
  assert (Hfc : forall p, was_fin (FinCall i t :: s_trace s) p <-> p = t \/ was_fin (s_trace s) p).
  { intros p. rewrite was_fin_cons. split; intros [H|H]; auto.
    - destruct H as [i' E]; inversion E; auto.
    - subst; left; eauto. }
  assert (Hgc : forall p, was_got (FinCall i t :: s_trace s) p <-> was_got (s_trace s) p).
  { intros p. rewrite was_got_cons. split; auto. intros [[? ?]|?]; auto; discriminate. }
  constructor; cbn [s_q s_thr s_held s_trace gots]; try (solve [apply I]).
  - intros d Hd Hz. destruct (i_zero _ _ _ I d Hd Hz) as [?|[k [t' [j H]]]]; auto.
    right. exists k, t', j. thr_cases i k; auto. congruence.
  - intros i0 t' j d H. thr_cases i i0; [discriminate|]. eapply (i_push _ _ _ I); eauto.
  - intros i0 i1 t1 t' j j' d H H'. thr_cases i i0; [discriminate|]. thr_cases i i1; [discriminate|].
    eapply (i_pushu _ _ _ I); eauto.
  - intros i0 t' j d k H. thr_cases i i0; [discriminate|]. eapply (i_store _ _ _ I); eauto.
  - intros i0 i1 t1 t' j j' d d' k H H'. thr_cases i i0; [discriminate|]. thr_cases i i1; [discriminate|].
    eapply (i_storeu _ _ _ I); eauto.
  - intros k d H. destruct (i_q' _ _ _ I k d H) as [?|[i0 [t' [j H']]]]; auto.
    right. exists i0, t', j. thr_cases i i0; auto. congruence.
  - intros i0 h0 H. thr_cases i i0; [discriminate|]. eapply (i_load _ _ _ I); eauto.
  - intros i0 i1 h0 H H'. thr_cases i i0; [discriminate|]. thr_cases i i1; [discriminate|]. eapply (i_loadu _ _ _ I); eauto.
  - intros p Hp. apply Hgc in Hp. destruct (i_got _ _ _ I p Hp) as [k [A [B C]]]. exists k. repeat split; auto.
    intros i0. thr_cases i i0; auto. discriminate.
  - intros k Hk Hkn. destruct (i_slot _ _ _ I k Hk Hkn) as [[i0 ?]|[p [A B]]].
    + left. exists i0. thr_cases i i0; auto. congruence.
    + right. exists p; split; auto. now apply Hgc.
  - intros p. rewrite Hgc, Hfc. split.
    + intros H. apply in_remove in H. destruct H as [H Hne]. apply (i_held _ _ _ I) in H.
      split; [tauto|]. intros [?|?]; [contradiction|tauto].
    + intros [A B]. apply in_in_remove; [tauto|]. apply (i_held _ _ _ I). tauto.
  - apply remove_NoDup, (i_heldnd _ _ _ I).
  - intros p. rewrite Hgc, Hfc. intros [->|H]; auto. now apply (i_fingot _ _ _ I).
  - intros p j Hr Hd. apply Hfc. right. eapply (i_dnfin _ _ _ I); eauto.
  - intros i0 t' jn H. rewrite Hfc. apply Hw in H. destruct H as [[-> [-> ->]]|H].
    + repeat split; auto; try lia. { pose proof (src_step n src dst WF t Hrt). lia. }
      intros j Hj. destruct (Z.ltb_spec j (nthz src t)); [destruct Hj; lia|].
      destruct (dn j) eqn:E; auto. exfalso. apply Hnf. eapply (i_dnfin _ _ _ I); eauto.
    + destruct (i_work _ _ _ I i0 t' jn H) as [A B]. auto.
  - intros i0 i1 t' jn jn' H H'. apply Hw in H. apply Hw in H'.
    destruct H as [[-> [-> ->]]|H]; destruct H' as [[-> [E _]]|H']; auto.
    + exfalso; eapply Hnw; eauto.
    + subst t'. exfalso; eapply Hnw; eauto.
    + eapply (i_worku _ _ _ I); eauto.
  - intros t' j. rewrite Hfc. intros H Hno Hr. destruct H as [->|H].
    + exfalso. apply (Hno i (nthz src t)). apply Hw; auto.
    + apply (i_nowork _ _ _ I t'); auto. intros i0 jn Hc. apply (Hno i0 jn). apply Hw; auto.
  - eapply (order_cons_notgot _ _ (fun pre t => forall p, relies_on n src dst t p -> was_fin pre p)); [congruence|].
    apply (i_order _ _ _ I).
  - intros i0 [H|H]; [discriminate|]. eapply (i_none _ _ _ I); eauto.
Qed.

(** Set of decremented edges after decrementing edge [j]. *)
Definition dn_add (dn : Z -> bool) (j : Z) : Z -> bool := fun k => (k =? j) || dn k.

Lemma remn_add dn j d : 0 <= j < m -> dn j = false ->
  remn (dn_add dn j) d = remn dn d - (if nthz dst j =? d then 1 else 0).
Proof.
  intros Hj Hd. unfold remn. destruct (Z.eqb_spec (nthz dst j) d) as [He|He].
  - eapply zcount_flip with (x := j); unfold dn_add.
    + apply NoDup_zrange.
    + now apply In_zrange.
    + rewrite He, Z.eqb_refl, Hd. reflexivity.
    + rewrite Z.eqb_refl. simpl. apply andb_false_r.
    + intros y Hy. destruct (Z.eqb_spec y j); [congruence|]. reflexivity.
  - rewrite Z.sub_0_r. apply zcount_ext. intros k Hk. unfold dn_add.
    destruct (Z.eqb_spec k j); auto. subst k. destruct (Z.eqb_spec (nthz dst j) d); [congruence|]. reflexivity.
Qed.

Lemma inv_finstep s ord dn i t j :
  Inv s ord dn -> s_thr s i = Fin t j -> j < nthz src (t + 1) ->
  0 <= j < m /\ getz (q_indeg (s_q s)) (nthz dst j) = Some (remn dn (nthz dst j)) /\
  forall ci, setz (q_indeg (s_q s)) (nthz dst j) (remn dn (nthz dst j) - 1) = Some ci ->
  Inv (mkSys (mkQueue (q_head (s_q s)) (q_tail (s_q s)) ci (q_queue (s_q s)))
         (set_thr (s_thr s) i (if remn dn (nthz dst j) - 1 =? 0 then Push t j (nthz dst j) else Fin t (j + 1)))
         (s_held s) (s_trace s)) ord (dn_add dn j).
Proof.
  intros I Hi Hj.
  destruct (i_work _ _ _ I i t j) as [Hf [Hjr [Ht Hdn]]]. { rewrite Hi; constructor. }
  assert (Hr : rw t j) by (split; auto; lia).
  assert (Hjm : 0 <= j < m) by (apply (row_m n src dst WF t); auto).
  pose proof (dst_range n src dst WF j Hjm) as Hdr.
  assert (Hd0 : dn j = false) by (rewrite Hdn by auto; apply Z.ltb_irrefl).
  split; auto. split; [apply (i_curr _ _ _ I); auto|]. intros ci Hci.
  set (d := nthz dst j) in *.
  assert (Hrem : forall d', remn (dn_add dn j) d' = remn dn d' - (if d =? d' then 1 else 0)).
  { intros. now apply remn_add. }
  assert (Hpos : 1 <= remn dn d).
  { specialize (Hrem d). rewrite Z.eqb_refl in Hrem. pose proof (remn_nonneg (dn_add dn j) d). lia. }
  assert (Hdo : ~ In d ord).
  { intros H. apply (i_ordr _ _ _ I) in H. lia. }
  set (ts := if remn dn d - 1 =? 0 then Push t j d else Fin t (j + 1)).
  assert (Hts : works ts t (j + 1)) by (unfold ts; destruct (_ =? 0); constructor).
  assert (Htsl : forall h, ts <> Load h) by (unfold ts; intros; destruct (_ =? 0); discriminate).
  assert (Htss : forall a b c k, ts <> Store a b c k) by (unfold ts; intros; destruct (_ =? 0); discriminate).
  assert (Htsp : forall a b c, ts = Push a b c -> c = d /\ remn dn d = 1).
  { unfold ts; intros a b c. destruct (Z.eqb_spec (remn dn d - 1) 0); intros E; inversion E. split; auto; lia. }
  assert (Hnp : forall i0 a b, s_thr s i0 <> Push a b d).
  { intros i0 a b H. apply (i_push _ _ _ I) in H. lia. }
  assert (Hw : forall i0 t' jn, works (set_thr (s_thr s) i ts i0) t' jn <->
     (i0 = i /\ t' = t /\ jn = j + 1) \/ (i0 <> i /\ works (s_thr s i0) t' jn)).
  { intros. thr_cases i i0.
    - split; intro H.
      + destruct (works_fun _ _ _ _ _ H Hts) as [-> ->]. auto.
      + destruct H as [[_ [-> ->]]|[H _]]; auto. congruence.
    - split; auto. intros [[? _]|[_ ?]]; auto. congruence. }
  constructor; cbn [s_q s_thr s_held s_trace q_head q_tail q_indeg q_queue]; try (solve [apply I]).
  - rewrite (setz_zlen _ _ _ _ Hci). apply I.
  - intros d' Hd'. destruct (i_ordr _ _ _ I d' Hd') as [A [B C]]. repeat split; auto; try tauto.
    rewrite Hrem. destruct (Z.eqb_spec d d'); [subst; contradiction|lia].
  - intros d' Hd'. rewrite (getz_setz _ _ _ _ _ Hci), Hrem. destruct (Z.eqb_spec d d') as [<-|]; auto.
    rewrite (i_curr _ _ _ I) by auto. f_equal; lia.
  - intros d' Hd' Hz. rewrite Hrem in Hz. destruct (Z.eqb_spec d d') as [<-|Hne].
    + right. exists i, t, j. rewrite set_thr_same. unfold ts. destruct (Z.eqb_spec (remn dn d - 1) 0); auto; lia.
    + rewrite Z.sub_0_r in Hz. destruct (i_zero _ _ _ I d' Hd' Hz) as [?|[k [t' [j' H]]]]; auto.
      right. exists k, t', j'. thr_cases i k; auto. congruence.
  - intros i0 t' j' d' H. rewrite Hrem. thr_cases i i0.
    + destruct (Htsp _ _ _ H) as [-> H1]. rewrite Z.eqb_refl. repeat split; auto; try lia.
      intros [js Hs]. apply (edge_row n src dst WF) in Hs. destruct Hs as [Hrs Hds].
      assert (Hz : remn (dn_add dn j) d = 0) by (rewrite Hrem, Z.eqb_refl; lia).
      pose proof (remn_zero_edges _ _ _ _ Hz Hrs Hds) as Hdd. unfold dn_add in Hdd.
      assert (Hfd : was_fin (s_trace s) d).
      { destruct (Z.eqb_spec js j) as [->|].
        - rewrite (row_uniq n src dst WF d t j Hrs Hr). auto.
        - simpl in Hdd. eapply (i_dnfin _ _ _ I); eauto. }
      apply (i_fingot _ _ _ I) in Hfd. destruct (i_got _ _ _ I d Hfd) as [k [Hk _]].
      apply Hdo. eapply getz_In; eauto.
    + destruct (i_push _ _ _ I _ _ _ _ H) as [A [B [C D]]]. repeat split; auto; try lia.
      destruct (Z.eqb_spec d d') as [<-|]; [exfalso; eapply Hnp; eauto|lia].
  - intros i0 i1 t1 t' j1 j' d' H H'. thr_cases i i0; thr_cases i i1; auto.
    + destruct (Htsp _ _ _ H) as [-> _]. exfalso; eapply Hnp; eauto.
    + destruct (Htsp _ _ _ H') as [-> _]. exfalso; eapply Hnp; eauto.
    + eapply (i_pushu _ _ _ I); eauto.
  - intros i0 t' j' d' k H. thr_cases i i0; [exfalso; eapply Htss; eauto|]. eapply (i_store _ _ _ I); eauto.
  - intros i0 i1 t1 t' j1 j' d1 d' k H H'. thr_cases i i0; [exfalso; eapply Htss; eauto|].
    thr_cases i i1; [exfalso; eapply Htss; eauto|]. eapply (i_storeu _ _ _ I); eauto.
  - intros k d' H. destruct (i_q' _ _ _ I k d' H) as [?|[i0 [t' [j' H']]]]; auto.
    right. exists i0, t', j'. thr_cases i i0; auto. congruence.
  - intros i0 h0 H. thr_cases i i0; [exfalso; eapply Htsl; eauto|]. eapply (i_load _ _ _ I); eauto.
  - intros i0 i1 h0 H H'. thr_cases i i0; [exfalso; eapply Htsl; eauto|].
    thr_cases i i1; [exfalso; eapply Htsl; eauto|]. eapply (i_loadu _ _ _ I); eauto.
  - intros p Hp. destruct (i_got _ _ _ I p Hp) as [k [A [B C]]]. exists k. repeat split; auto.
    intros i0. thr_cases i i0; auto.
  - intros k Hk Hkn. destruct (i_slot _ _ _ I k Hk Hkn) as [[i0 ?]|?]; auto.
    left. exists i0. thr_cases i i0; auto. congruence.
  - intros p j' Hp. unfold dn_add. destruct (Z.eqb_spec j' j) as [->|]; simpl.
    + intros _. rewrite (row_uniq n src dst WF p t j Hp Hr). auto.
    + intros. eapply (i_dnfin _ _ _ I); eauto.
  - intros i0 t' jn H. apply Hw in H. destruct H as [[-> [-> ->]]|[Hne H]].
    + repeat split; auto; try lia. intros j' Hj'. unfold dn_add. rewrite Hdn by auto.
      destruct (Z.eqb_spec j' j); destruct (Z.ltb_spec j' j); destruct (Z.ltb_spec j' (j + 1)); auto; lia.
    + destruct (i_work _ _ _ I i0 t' jn H) as [A [B [C D]]]. repeat split; auto; try lia.
      intros j' Hj'. unfold dn_add. rewrite <- D by auto. destruct (Z.eqb_spec j' j) as [->|]; auto.
      exfalso. apply Hne. assert (t' = t) by (eapply (row_uniq n src dst WF); eauto). subst t'.
      eapply (i_worku _ _ _ I); eauto. rewrite Hi; constructor.
  - intros i0 i1 t' jn jn' H H'. apply Hw in H. apply Hw in H'.
    destruct H as [[-> [-> ->]]|[N H]]; destruct H' as [[-> [E _]]|[N' H']]; auto.
    + exfalso. apply N'. eapply (i_worku _ _ _ I); eauto. rewrite Hi; constructor.
    + subst t'. exfalso. apply N. eapply (i_worku _ _ _ I); eauto. rewrite Hi; constructor.
    + eapply (i_worku _ _ _ I); eauto.
  - intros t' j' Hf' Hno Hr'. unfold dn_add. rewrite (i_nowork _ _ _ I t' j'); auto.
    + apply orb_true_r.
    + intros i0 jn Hc. destruct (Nat.eq_dec i0 i) as [->|Hn].
      * rewrite Hi in Hc. inversion Hc; subst. apply (Hno i (jn + 1)). apply Hw; auto.
      * apply (Hno i0 jn). apply Hw; auto.
Qed.

Lemma inv_finret s ord dn i t j :
  Inv s ord dn -> s_thr s i = Fin t j -> nthz src (t + 1) <= j ->
  Inv (mkSys (s_q s) (set_thr (s_thr s) i Idle) (s_held s) (FinRet i t :: s_trace s)) ord dn.
Proof.
  intros I Hi Hj.
  destruct (i_work _ _ _ I i t j) as [Hf [Hjr [Ht Hdn]]]. { rewrite Hi; constructor. }
  assert (Hw : forall i0 t' jn, works (set_thr (s_thr s) i Idle i0) t' jn <-> i0 <> i /\ works (s_thr s i0) t' jn).
  { intros. thr_cases i i0; [|tauto]. split; [intro H; inversion H|intros [H _]; congruence]. }
  assert (Hfc : forall p, was_fin (FinRet i t :: s_trace s) p <-> was_fin (s_trace s) p).
  { intros p. rewrite was_fin_cons. split; auto. intros [[? ?]|?]; auto; discriminate. }
  assert (Hgc : forall p, was_got (FinRet i t :: s_trace s) p <-> was_got (s_trace s) p).
  { intros p. rewrite was_got_cons. split; auto. intros [[? ?]|?]; auto; discriminate. }
  constructor; cbn [s_q s_thr s_held s_trace gots]; try (solve [apply I]).
  - intros d Hd Hz. destruct (i_zero _ _ _ I d Hd Hz) as [?|[k [t' [j' H]]]]; auto.
    right. exists k, t', j'. thr_cases i k; auto. congruence.
  - intros i0 t' j' d H. thr_cases i i0; [discriminate|]. eapply (i_push _ _ _ I); eauto.
  - intros i0 i1 t1 t' j1 j' d H H'. thr_cases i i0; [discriminate|]. thr_cases i i1; [discriminate|].
    eapply (i_pushu _ _ _ I); eauto.
  - intros i0 t' j' d k H. thr_cases i i0; [discriminate|]. eapply (i_store _ _ _ I); eauto.
  - intros i0 i1 t1 t' j1 j' d d' k H H'. thr_cases i i0; [discriminate|]. thr_cases i i1; [discriminate|].
    eapply (i_storeu _ _ _ I); eauto.
  - intros k d H. destruct (i_q' _ _ _ I k d H) as [?|[i0 [t' [j' H']]]]; auto.
    right. exists i0, t', j'. thr_cases i i0; auto. congruence.
  - intros i0 h0 H. thr_cases i i0; [discriminate|]. eapply (i_load _ _ _ I); eauto.
  - intros i0 i1 h0 H H'. thr_cases i i0; [discriminate|]. thr_cases i i1; [discriminate|]. eapply (i_loadu _ _ _ I); eauto.
  - intros p Hp. apply Hgc in Hp. destruct (i_got _ _ _ I p Hp) as [k [A [B C]]]. exists k. repeat split; auto.
    intros i0. thr_cases i i0; auto. discriminate.
  - intros k Hk Hkn. destruct (i_slot _ _ _ I k Hk Hkn) as [[i0 ?]|[p [A B]]].
    + left. exists i0. thr_cases i i0; auto. congruence.
    + right. exists p; split; auto. now apply Hgc.
  - intros p. rewrite Hgc, Hfc. apply I.
  - intros p. rewrite Hgc, Hfc. apply I.
  - intros p j'. rewrite Hfc. apply I.
  - intros i0 t' jn H. rewrite Hfc. apply Hw in H. eapply (i_work _ _ _ I); apply H.
  - intros i0 i1 t' jn jn' H H'. apply Hw in H. apply Hw in H'. eapply (i_worku _ _ _ I); [apply H|apply H'].
  - intros t' j'. rewrite Hfc. intros Hf' Hno Hr.
    destruct (Z.eq_dec t' t) as [->|Hne].
    + rewrite Hdn by auto. destruct Hr as [_ Hr]. apply Z.ltb_lt. lia.
    + apply (i_nowork _ _ _ I t'); auto. intros i0 jn Hc. apply (Hno i0 jn). apply Hw. split; auto.
      intros ->. rewrite Hi in Hc. inversion Hc; congruence.
  - eapply (order_cons_notgot _ _ (fun pre t => forall p, relies_on n src dst t p -> was_fin pre p)); [congruence|].
    apply (i_order _ _ _ I).
  - intros i0 [H|H]; [discriminate|]. eapply (i_none _ _ _ I); eauto.
Qed.

Lemma inv_push s ord dn i t j d :
  Inv s ord dn -> s_thr s i = Push t j d ->
  zlen ord < n /\
  Inv (mkSys (mkQueue (q_head (s_q s)) (q_tail (s_q s) + 1) (q_indeg (s_q s)) (q_queue (s_q s)))
         (set_thr (s_thr s) i (Store t j d (q_tail (s_q s)))) (s_held s) (s_trace s)) (ord ++ [d]) dn.
Proof.
  intros I Hi. destruct (i_push _ _ _ I _ _ _ _ Hi) as [Hd [Hno [Hz Hns]]].
  assert (Hlt : zlen ord < nt).
  { assert (zlen (d :: ord) <= nt); [|zlia].
    unfold nt, zlen. apply inj_le. apply NoDup_incl_length.
    - constructor; auto. apply (i_nodup _ _ _ I).
    - intros x [<-|Hx].
      + apply (proj2 (tasks_spec n src dst WF)). auto.
      + eapply ord_in_tasks; eauto. }
  pose proof nt_le_n as Hnt. split; [lia|].
  assert (Hg : forall k x, getz ord k = Some x -> getz (ord ++ [d]) k = Some x).
  { intros k x H. pose proof (getz_range _ _ _ H). rewrite getz_app1; auto; lia. }
  assert (Hg' : forall k x, getz (ord ++ [d]) k = Some x -> getz ord k = Some x \/ (k = zlen ord /\ x = d)).
  { intros k x H. pose proof (getz_range _ _ _ H) as Hr. destruct (Z.lt_ge_cases k (zlen ord)).
    - rewrite getz_app1 in H by auto. auto.
    - right. assert (k = zlen ord) by zlia. subst k. split; auto.
      rewrite getz_app2 in H by lia. rewrite Z.sub_diag in H. unfold getz in H; simpl in H. congruence. }
  assert (Hlast : getz (ord ++ [d]) (zlen ord) = Some d).
  { rewrite getz_app2 by lia. rewrite Z.sub_diag. reflexivity. }
  assert (Hqlast : getz (q_queue (s_q s)) (zlen ord) = Some (-1)).
  { destruct (getz_in (q_queue (s_q s)) (zlen ord)) as [v Hv].
    { rewrite (i_qlen _ _ _ I). pose proof (zlen_nonneg ord). lia. }
    destruct (Z.eq_dec v (-1)) as [->|Hne]; auto.
    pose proof (i_q _ _ _ I _ _ Hv Hne) as H. apply getz_range in H. lia. }
  pose proof (i_tail _ _ _ I) as Htl.
  assert (Hw : forall i0 t' jn, works (set_thr (s_thr s) i (Store t j d (q_tail (s_q s))) i0) t' jn <-> works (s_thr s i0) t' jn).
  { intros. thr_cases i i0; [|tauto]. rewrite Hi. split; intro H; inversion H; constructor. }
  constructor; cbn [s_q s_thr s_held s_trace q_head q_tail q_indeg q_queue]; try (solve [apply I]).
  - zlia.
  - apply NoDup_app_intro || (apply (Permutation_NoDup (l := d :: ord)); [apply Permutation_cons_append|constructor; auto; apply (i_nodup _ _ _ I)]).
  - intros x Hx. apply in_app_or in Hx. destruct Hx as [Hx|[<-|[]]]; [apply (i_ordr _ _ _ I); auto|auto].
  - intros x Hx Hxz. destruct (i_zero _ _ _ I x Hx Hxz) as [?|[k [t' [j' H]]]].
    + left. apply in_or_app; auto.
    + destruct (Nat.eq_dec k i) as [->|Hn].
      * left. apply in_or_app. right. left. congruence.
      * right. exists k, t', j'. now rewrite set_thr_other.
  - intros i0 t' j' x H. thr_cases i i0; [discriminate|].
    destruct (i_push _ _ _ I _ _ _ _ H) as [A [B [C D]]]. repeat split; auto; try lia.
    intros Hx. apply in_app_or in Hx. destruct Hx as [Hx|[<-|[]]]; auto.
    apply n0. eapply (i_pushu _ _ _ I); eauto.
  - intros i0 i1 t1 t' j1 j' x H H'. thr_cases i i0; [discriminate|]. thr_cases i i1; [discriminate|].
    eapply (i_pushu _ _ _ I); eauto.
  - intros i0 t' j' x k H. thr_cases i i0.
    + inversion H; subst. rewrite Htl. auto.
    + destruct (i_store _ _ _ I _ _ _ _ _ H) as [A B]. split; auto.
  - intros i0 i1 t1 t' j1 j' x x' k H H'. thr_cases i i0; thr_cases i i1; auto.
    + inversion H; subst. destruct (i_store _ _ _ I _ _ _ _ _ H') as [A _]. apply getz_range in A. lia.
    + inversion H'; subst. destruct (i_store _ _ _ I _ _ _ _ _ H) as [A _]. apply getz_range in A. lia.
    + eapply (i_storeu _ _ _ I); eauto.
  - intros k v H Hne. apply Hg. eapply (i_q _ _ _ I); eauto.
  - intros k x H. apply Hg' in H. destruct H as [H|[-> ->]].
    + destruct (i_q' _ _ _ I k x H) as [?|[i0 [t' [j' H']]]]; auto.
      right. exists i0, t', j'. thr_cases i i0; auto. congruence.
    + right. exists i, t, j. rewrite set_thr_same. now rewrite Htl.
  - intros i0 h0 H. thr_cases i i0; [discriminate|]. eapply (i_load _ _ _ I); eauto.
  - intros i0 i1 h0 H H'. thr_cases i i0; [discriminate|]. thr_cases i i1; [discriminate|]. eapply (i_loadu _ _ _ I); eauto.
  - intros p Hp. destruct (i_got _ _ _ I p Hp) as [k [A [B C]]]. exists k. repeat split; auto.
    intros i0. thr_cases i i0; auto. discriminate.
  - intros k Hk Hkn. destruct (i_slot _ _ _ I k Hk Hkn) as [[i0 ?]|[p [A B]]].
    + left. exists i0. thr_cases i i0; auto. congruence.
    + right. exists p; split; auto.
  - intros i0 t' jn H. apply Hw in H. eapply (i_work _ _ _ I); eauto.
  - intros i0 i1 t' jn jn' H H'. apply Hw in H. apply Hw in H'. eapply (i_worku _ _ _ I); eauto.
  - intros t' j' H Hno'. apply (i_nowork _ _ _ I); auto. intros i0 jn Hc. apply (Hno' i0 jn). now apply Hw.
Qed.

Lemma inv_stored s ord dn i t j d k tq :
  Inv s ord dn -> s_thr s i = Store t j d k -> setz (q_queue (s_q s)) k d = Some tq ->
  Inv (mkSys (mkQueue (q_head (s_q s)) (q_tail (s_q s)) (q_indeg (s_q s)) tq)
         (set_thr (s_thr s) i (Fin t (j + 1))) (s_held s) (s_trace s)) ord dn.
Proof.
  intros I Hi Htq. destruct (i_store _ _ _ I _ _ _ _ _ Hi) as [Hk Hq].
  assert (Hd : 0 <= d < n) by (apply (i_ordr _ _ _ I); eapply getz_In; eauto).
  assert (Hw : forall i0 t' jn, works (set_thr (s_thr s) i (Fin t (j + 1)) i0) t' jn <-> works (s_thr s i0) t' jn).
  { intros. thr_cases i i0; [|tauto]. rewrite Hi. split; intro H; inversion H; constructor. }
  constructor; cbn [s_q s_thr s_held s_trace q_head q_tail q_indeg q_queue]; try (solve [apply I]).
  - rewrite (setz_zlen _ _ _ _ Htq). apply I.
  - intros x Hx Hz. destruct (i_zero _ _ _ I x Hx Hz) as [?|[k' [t' [j' H]]]]; auto.
    right. exists k', t', j'. thr_cases i k'; auto. congruence.
  - intros i0 t' j' x H. thr_cases i i0; [discriminate|]. eapply (i_push _ _ _ I); eauto.
  - intros i0 i1 t1 t' j1 j' x H H'. thr_cases i i0; [discriminate|]. thr_cases i i1; [discriminate|].
    eapply (i_pushu _ _ _ I); eauto.
  - intros i0 t' j' x k' H. thr_cases i i0; [discriminate|].
    destruct (i_store _ _ _ I _ _ _ _ _ H) as [A B]. split; auto.
    rewrite (getz_setz _ _ _ _ _ Htq). destruct (Z.eqb_spec k k') as [->|]; auto.
    exfalso. apply n0. eapply (i_storeu _ _ _ I); eauto.
  - intros i0 i1 t1 t' j1 j' x x' k' H H'. thr_cases i i0; [discriminate|]. thr_cases i i1; [discriminate|].
    eapply (i_storeu _ _ _ I); eauto.
  - intros k' v. rewrite (getz_setz _ _ _ _ _ Htq). destruct (Z.eqb_spec k k') as [->|].
    + intros E _. congruence.
    + apply (i_q _ _ _ I).
  - intros k' x H. rewrite (getz_setz _ _ _ _ _ Htq). destruct (Z.eqb_spec k k') as [->|Hne].
    + left. congruence.
    + destruct (i_q' _ _ _ I k' x H) as [?|[i0 [t' [j' H']]]]; auto.
      right. exists i0, t', j'. thr_cases i i0; auto. congruence.
  - intros i0 h0 H. thr_cases i i0; [discriminate|]. eapply (i_load _ _ _ I); eauto.
  - intros i0 i1 h0 H H'. thr_cases i i0; [discriminate|]. thr_cases i i1; [discriminate|]. eapply (i_loadu _ _ _ I); eauto.
  - intros p Hp. destruct (i_got _ _ _ I p Hp) as [k' [A [B C]]]. exists k'. repeat split; auto.
    intros i0. thr_cases i i0; auto. discriminate.
  - intros k' Hk' Hkn. destruct (i_slot _ _ _ I k' Hk' Hkn) as [[i0 ?]|[p [A B]]].
    + left. exists i0. thr_cases i i0; auto. congruence.
    + right. exists p; split; auto.
  - intros i0 t' jn H. apply Hw in H. eapply (i_work _ _ _ I); eauto.
  - intros i0 i1 t' jn jn' H H'. apply Hw in H. apply Hw in H'. eapply (i_worku _ _ _ I); eauto.
  - intros t' j' H Hno. apply (i_nowork _ _ _ I); auto. intros i0 jn Hc. apply (Hno i0 jn). now apply Hw.
Qed.

Variable indeg : list Z.
Hypothesis Hil : zlen indeg = n.
Hypothesis Hindeg : forall d, 0 <= d < n -> getz indeg d = Some (indeg_of dst d (zlen dst)).
Let g := mkGraph n nt src dst indeg.

(** *** Initial state *)
Variable q0 : queue.
Hypothesis Hq0h : q_head q0 = 0.
Hypothesis Hq0t : q_tail q0 = zlen (zeros indeg n).
Hypothesis Hq0i : q_indeg q0 = indeg.
Hypothesis Hq0l : zlen (q_queue q0) = n.
Hypothesis Hq0q : forall k, 0 <= k < n ->
  getz (q_queue q0) k = Some (match getz (zeros indeg n) k with Some v => v | None => -1 end).

Lemma remn_none d : remn (fun _ => false) d = indeg_of dst d m.
Proof. unfold remn, indeg_of. apply zcount_ext. intros. now rewrite andb_true_r. Qed.

Lemma inv_start : Inv (start q0) (zeros indeg n) (fun _ => false).
Proof.
  pose proof (n_nonneg n src dst WF) as Hn.
  assert (Hz : forall d, In d (zeros indeg n) <-> 0 <= d < n /\ nthz indeg d = 0).
  { intros d. unfold zeros. rewrite filter_In, In_zrange, Z.eqb_eq. tauto. }
  assert (Hr : forall d, 0 <= d < n -> nthz indeg d = remn (fun _ => false) d).
  { intros d Hd. rewrite remn_none. apply nthz_eq. now apply Hindeg. }
  assert (Hg : forall t, ~ was_got (s_trace (start q0)) t) by (intros t [i []]).
  assert (Hf : forall t, ~ was_fin (s_trace (start q0)) t) by (intros t [i []]).
  constructor; simpl; try (intros; discriminate); try (intros; easy).
  - lia.
  - now rewrite Hq0i.
  - apply NoDup_filter, NoDup_zrange.
  - intros d Hd. apply Hz in Hd. destruct Hd as [Hd Hi]. rewrite Hr in Hi by auto.
    repeat split; try lia. intros [j Hj]. apply (edge_row n src dst WF) in Hj. destruct Hj as [Hrj Hj].
    pose proof (remn_zero_edges _ _ _ _ Hi Hrj Hj). discriminate.
  - intros d Hd. rewrite Hq0i, getz_nthz by lia. now rewrite Hr.
  - intros d Hd Hi. left. apply Hz. split; auto. now rewrite Hr.
  - intros k v Hk Hv. pose proof (getz_range _ _ _ Hk). rewrite Hq0q in Hk by lia.
    destruct (getz (zeros indeg n) k); congruence.
  - intros k d Hk. left. assert (0 <= k < n).
    { pose proof (getz_range _ _ _ Hk). pose proof (zeros_le indeg n Hn). lia. }
    rewrite Hq0q, Hk; auto.
  - intros p Hp. exfalso. now apply (Hg p).
  - intros k Hk Hk2. exfalso. rewrite Hq0h in Hk. lia.
  - constructor.
  - intros t j H. exfalso. now apply (Hf t).
  - constructor.
  - intros post i t pre H. destruct post; discriminate.
Qed.

(** A step never goes out of bounds, and preserves the invariant. *)
Lemma inv_step s ord dn i a :
  Inv s ord dn ->
  step g s i a <> Ub /\
  forall s', step g s i a = Next s' -> exists ord' dn', Inv s' ord' dn'.
Proof.
  intros I. unfold step. destruct (s_thr s i) as [|h|t j|t j d|t j d k] eqn:Hi; destruct a;
    try (split; [discriminate|intros; discriminate]).
  - pose proof (inv_callget s ord dn i I Hi) as H. cbv zeta in H. cbn [g g_num_task].
    destruct (nt <=? q_head (s_q s)); split; try discriminate; intros s' E; injection E as <-; eauto.
  - destruct (in_dec Z.eq_dec t (s_held s)) as [Hin|]; [|split; [discriminate|intros; discriminate]].
    destruct (inv_callfin s ord dn i t I Hi Hin) as [Ht HI].
    cbn [g g_src]. rewrite (src_get n src dst WF) by lia.
    split; [discriminate|]. intros s' E; injection E as <-; eauto.
  - destruct (i_load _ _ _ I _ _ Hi) as [Hh1 Hh2]. pose proof nt_le_n.
    destruct (getz_in (q_queue (s_q s)) h) as [v Hv]. { rewrite (i_qlen _ _ _ I). lia. }
    rewrite Hv. destruct (Z.eqb_spec v (-1)).
    + split; [discriminate|]. intros s' E; injection E as <-; eauto.
    + split; [discriminate|]. intros s' E; injection E as <-. exists ord, dn.
      eapply inv_loaded; eauto.
  - destruct (i_work _ _ _ I i t j) as [Hf [Hjr [Ht Hdn]]]. { rewrite Hi; constructor. }
    cbn [g g_src g_dst]. rewrite (src_get n src dst WF) by lia.
    destruct (Z.ltb_spec j (nthz src (t + 1))) as [Hlt|Hge].
    + destruct (inv_finstep s ord dn i t j I Hi Hlt) as [Hj [Hc HI]].
      rewrite (dst_get dst) by auto. rewrite Hc.
      pose proof (dst_range n src dst WF j Hj).
      destruct (setz_Some (q_indeg (s_q s)) (nthz dst j) (remn dn (nthz dst j) - 1)) as [ci Hci].
      { rewrite (i_clen _ _ _ I). auto. }
      rewrite Hci. split; [discriminate|]. intros s' E; injection E as <-. eauto.
    + split; [discriminate|]. intros s' E; injection E as <-. exists ord, dn. eapply inv_finret; eauto.
  - destruct (inv_push s ord dn i t j d I Hi) as [_ HI].
    split; [discriminate|]. intros s' E; injection E as <-. eauto.
  - destruct (i_store _ _ _ I _ _ _ _ _ Hi) as [Hk Hq]. apply getz_range in Hq.
    destruct (setz_Some _ _ d Hq) as [tq Htq]. rewrite Htq.
    split; [discriminate|]. intros s' E; injection E as <-. exists ord, dn. eapply inv_stored; eauto.
Qed.

Lemma inv_reach s : reach g q0 s -> exists ord dn, Inv s ord dn.
Proof.
  induction 1.
  - exists (zeros indeg n), (fun _ => false). apply inv_start.
  - destruct IHreach as [ord [dn I]]. destruct (inv_step s ord dn i a I) as [_ H1]. eauto.
Qed.

End Inv.
