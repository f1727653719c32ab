(** Threads that interleave at single memory accesses, and data races.  Not a
    model of code: vocabulary for the OpenMP regions at access granularity.

    A thread is a tree of reads and writes of shared locations; a step of a set
    of threads is one access of one thread.  Two accesses of different threads
    conflict if they name the same location and one of them writes. *)
From Coq Require Import ZArith List Lia Bool.
From Verif Require Import Base Conc.
Import ListNotations.
Open Scope Z_scope.

(** A shared store of separately accessible locations. *)
Record store := Store {
  s_loc : Type; s_val : Type; s_mem : Type;
  s_rd : s_mem -> s_loc -> option s_val;                 (* None: no such location *)
  s_wr : s_mem -> s_loc -> s_val -> option s_mem;
  s_dec : forall l l' : s_loc, {l = l'} + {l <> l'};
  (* a write changes its location only *)
  s_rw : forall m l v m', s_wr m l v = Some m' -> forall l', s_rd m' l' = if s_dec l l' then Some v else s_rd m l';
  (* writes to different locations are independent *)
  s_fwd : forall m l v l' v' m1 m2, l <> l' -> s_wr m l v = Some m1 -> s_wr m l' v' = Some m2 ->
    exists m3, s_wr m1 l' v' = Some m3 /\ s_wr m2 l v = Some m3;
  s_back : forall m l v l' v' m1 m2, l <> l' -> s_wr m l v = Some m1 -> s_wr m1 l' v' = Some m2 ->
    exists m3, s_wr m l' v' = Some m3 /\ s_wr m3 l v = Some m2
}.

Section Race.
Variable S : store.
Notation loc := (s_loc S).
Notation val := (s_val S).
Notation mem := (s_mem S).

(** Programs; [Fail] is undefined behaviour. *)
Inductive prog (A : Type) : Type :=
| Ret (a : A)
| Rd (l : loc) (k : val -> prog A)
| Wr (l : loc) (v : val) (p : prog A)
| Fail.
Arguments Ret {A} a.
Arguments Rd {A} l k.
Arguments Wr {A} l v p.
Arguments Fail {A}.

Fixpoint pbind {A B} (p : prog A) (f : A -> prog B) : prog B :=
  match p with
  | Ret a => f a
  | Rd l k => Rd l (fun v => pbind (k v) f)
  | Wr l v p => Wr l v (pbind p f)
  | Fail => Fail
  end.
Definition plift {A} (o : option A) : prog A := match o with Some a => Ret a | None => Fail end.
Fixpoint ploop {A} (n : nat) (i : Z) (body : Z -> A -> prog A) (a : A) : prog A :=
  match n with O => Ret a | Datatypes.S n' => pbind (body i a) (fun a' => ploop n' (i + 1) body a') end.
(** [for (i = lo; i < hi; i++) body]. *)
Definition pfor {A} (lo hi : Z) (body : Z -> A -> prog A) (a : A) : prog A := ploop (Z.to_nat (hi - lo)) lo body a.
(** Work items one after the other. *)
Fixpoint pseq (l : list (prog unit)) : prog unit :=
  match l with [] => Ret tt | p :: l' => pbind p (fun _ => pseq l') end.

(** ** Interleaved execution *)
Notation acc := (bool * loc)%type.                        (* true: write *)
Definition next {A} (p : prog A) : option acc :=
  match p with Rd l _ => Some (false, l) | Wr l _ _ => Some (true, l) | _ => None end.
Definition conflict (a b : acc) : Prop := snd a = snd b /\ (fst a = true \/ fst b = true).

Inductive step : list (prog unit) * mem -> list (prog unit) * mem -> Prop :=
| step_rd pre l k post m v : s_rd S m l = Some v ->
    step (pre ++ Rd l k :: post, m) (pre ++ k v :: post, m)
| step_wr pre l v p post m m' : s_wr S m l v = Some m' ->
    step (pre ++ Wr l v p :: post, m) (pre ++ p :: post, m').
Inductive steps : list (prog unit) * mem -> list (prog unit) * mem -> Prop :=
| steps_refl c : steps c c
| steps_step c c' c'' : step c c' -> steps c' c'' -> steps c c''.

(** Two threads are about to make conflicting accesses. *)
Definition racing (ths : list (prog unit)) : Prop :=
  exists pre p mid q post a b, ths = pre ++ p :: mid ++ q :: post /\ next p = Some a /\ next q = Some b /\ conflict a b.
(** A thread is about to do something undefined. *)
Definition wrong (ths : list (prog unit)) (m : mem) : Prop :=
  exists pre p post, ths = pre ++ p :: post /\
    match p with Ret _ => False | Rd l _ => s_rd S m l = None | Wr l v _ => s_wr S m l v = None | Fail => True end.
Definition finished (ths : list (prog unit)) : Prop := Forall (fun p => p = Ret tt) ths.

(** The threads, started together in memory [m], never race, never do anything
    undefined, and whenever they all end, in whatever way their accesses
    interleaved, the memory satisfies [Q]. *)
Definition safe (ths : list (prog unit)) (m : mem) (Q : mem -> Prop) : Prop :=
  forall ths' m', steps (ths, m) (ths', m') -> ~ racing ths' /\ ~ wrong ths' m' /\ (finished ths' -> Q m').

(** ** Execution of one program alone, with its accesses *)
Fixpoint exec {A} (p : prog A) (m : mem) : option (A * mem * list acc) :=
  match p with
  | Ret a => Some (a, m, [])
  | Rd l k => match s_rd S m l with
              | Some v => match exec (k v) m with Some (a, m', tr) => Some (a, m', (false, l) :: tr) | None => None end
              | None => None end
  | Wr l v p => match s_wr S m l v with
              | Some m1 => match exec p m1 with Some (a, m', tr) => Some (a, m', (true, l) :: tr) | None => None end
              | None => None end
  | Fail => None
  end.

(** Threads one after the other. *)
Inductive sexec : list (prog unit) -> mem -> mem -> list (list acc) -> Prop :=
| sexec_nil m : sexec [] m m []
| sexec_cons p ps m u m1 tr m' trs : exec p m = Some (u, m1, tr) -> sexec ps m1 m' trs -> sexec (p :: ps) m m' (tr :: trs).

Definition apart (t1 t2 : list acc) : Prop := forall a b, In a t1 -> In b t2 -> ~ conflict a b.

Lemma exec_read_back {A} (p : prog A) : forall m a m1 tr l, exec p m = Some (a, m1, tr) -> ~ In (true, l) tr -> s_rd S m1 l = s_rd S m l.
Proof.
  induction p as [a0|l0 k IH|l0 v p IH|]; intros m a m1 tr l E Hn; cbn [exec] in E.
  - injection E as <- <- <-. auto.
  - destruct (s_rd S m l0) as [v|]; [|discriminate]. destruct (exec (k v) m) as [[[? ?] ?]|] eqn:E1; [|discriminate].
    injection E as <- <- <-. eapply IH; eauto. intros H; apply Hn; now right.
  - destruct (s_wr S m l0 v) as [mm|] eqn:W; [|discriminate]. destruct (exec p mm) as [[[? ?] ?]|] eqn:E1; [|discriminate].
    injection E as <- <- <-. rewrite (IH _ _ _ _ l E1) by (intros H; apply Hn; now right).
    rewrite (s_rw S _ _ _ _ W). destruct (s_dec S l0 l) as [->|]; auto. exfalso. apply Hn. now left.
  - discriminate.
Qed.

(** A later write to a location the program does not touch may be done first. *)
Lemma exec_write_back {A} (p : prog A) : forall m a m1 tr l v m2, exec p m = Some (a, m1, tr) -> (forall b, ~ In (b, l) tr) ->
  s_wr S m1 l v = Some m2 -> exists m3, s_wr S m l v = Some m3 /\ exec p m3 = Some (a, m2, tr).
Proof.
  induction p as [a0|l0 k IH|l0 v0 p IH|]; intros m a m1 tr l v m2 E Hn W2; cbn [exec] in E.
  - injection E as <- <- <-. exists m2. auto.
  - destruct (s_rd S m l0) as [w|] eqn:Rm; [|discriminate]. destruct (exec (k w) m) as [[[a' m'] tr']|] eqn:E1; [|discriminate].
    injection E as <- <- <-. destruct (IH w _ _ _ _ l v m2 E1) as (m3 & W3 & E3); auto.
    { intros b H; apply (Hn b); now right. }
    exists m3. split; auto. cbn [exec]. rewrite (s_rw S _ _ _ _ W3).
    destruct (s_dec S l l0) as [->|]; [exfalso; apply (Hn false); now left|]. now rewrite Rm, E3.
  - destruct (s_wr S m l0 v0) as [mm|] eqn:W; [|discriminate]. destruct (exec p mm) as [[[a' m'] tr']|] eqn:E1; [|discriminate].
    injection E as <- <- <-. destruct (IH _ _ _ _ l v m2 E1) as (m3 & W3 & E3); auto.
    { intros b H; apply (Hn b); now right. }
    assert (Hne : l0 <> l) by (intros ->; apply (Hn true); now left).
    destruct (s_back S _ _ _ _ _ _ _ Hne W W3) as (m4 & W4 & W5).
    exists m4. split; auto. cbn [exec]. now rewrite W5, E3.
  - discriminate.
Qed.

Definition suffix (t t' : list acc) : Prop := t = t' \/ exists a, t' = a :: t.

(** One access of one thread, moved to the front of the sequential execution. *)
Lemma sexec_step ths m m' trs ths2 m2 : sexec ths m m' trs -> ForallOrdPairs apart trs -> step (ths, m) (ths2, m2) ->
  exists trs2, sexec ths2 m2 m' trs2 /\ ForallOrdPairs apart trs2.
Proof.
  intros Hs Ha Hst.
  assert (G : exists trs2, sexec ths2 m2 m' trs2 /\ Forall2 suffix trs2 trs).
  2:{ destruct G as (trs2 & G1 & G2). exists trs2. split; auto. clear -G2 Ha. revert Ha.
      induction G2 as [|t t' l l' H H2 IH]; intros Ha; [constructor|]. inversion Ha as [|? ? A1 A2]; subst.
      constructor; auto. rewrite Forall_forall. intros x Hx.
      assert (exists x', In x' l' /\ suffix x x') as (x' & I' & Sx).
      { clear -H2 Hx. induction H2; [contradiction|]. destruct Hx as [->|Hx]; [exists y; split; auto; now left|].
        destruct (IHForall2 Hx) as (x' & ? & ?). exists x'. split; auto. now right. }
      rewrite Forall_forall in A1. specialize (A1 _ I'). intros a b Hia Hib. apply A1.
      - destruct H as [->|[c ->]]; auto. now right.
      - destruct Sx as [->|[c ->]]; auto. now right. }
  assert (Frefl : forall l : list (list acc), Forall2 suffix l l) by (induction l; constructor; auto; now left).
  inversion Hst as [pre l k post mm v Hr E1 E2|pre l v p post mm mm' Hw E1 E2]; subst; clear Hst.
  - revert m2 Hr trs Hs Ha. induction pre as [|q pre IH]; intros m2 Hr trs Hs Ha.
    + inversion Hs as [|p ps m0 u m1 tr m0' trs0 Ex Hr2]; subst. cbn [exec] in Ex. rewrite Hr in Ex.
      destruct (exec (k v) m2) as [[[u' m1'] tr']|] eqn:E; [|discriminate]. injection Ex as <- <- <-.
      exists (tr' :: trs0). split; [econstructor; eauto|]. constructor; auto. right. eauto.
    + cbn [app] in Hs. inversion Hs as [|p ps m0 u m1 tr m0' trs0 Ex Hr2]; subst. inversion Ha as [|? ? A1 A2]; subst.
      assert (Hl : exists trj, In trj trs0 /\ In (false, l) trj).
      { clear -Hr2. revert m1 trs0 Hr2. induction pre as [|q' pre IH]; intros m1 trs0 Hr2; inversion Hr2 as [|? ? ? ? ? ? ? ? H3 H5]; subst.
        - cbn [exec] in H3. destruct (s_rd S m1 l); [|discriminate]. destruct (exec _ _) as [[[? ?] ?]|]; [|discriminate].
          injection H3 as <- <- <-. eexists. split; [now left|now left].
        - destruct (IH _ _ H5) as (t & ? & ?). exists t. split; auto. now right. }
      destruct Hl as (trj & I1 & I2). rewrite Forall_forall in A1. specialize (A1 _ I1).
      assert (Hr' : s_rd S m1 l = Some v).
      { rewrite (exec_read_back _ _ _ _ _ _ Ex); auto. intros H. apply (A1 _ _ H I2). split; auto. }
      destruct (IH _ Hr' _ Hr2 A2) as (trs2 & G1 & G2). exists (tr :: trs2). split; [|constructor; auto; now left].
      cbn [app]. econstructor; eauto.
  - revert m m2 Hw trs Hs Ha. induction pre as [|q pre IH]; intros m m2 Hw trs Hs Ha.
    + inversion Hs as [|p0 ps m0 u m1 tr m0' trs0 Ex Hr2]; subst. cbn [exec] in Ex. rewrite Hw in Ex.
      destruct (exec p m2) as [[[u' m1'] tr']|] eqn:E; [|discriminate]. injection Ex as <- <- <-.
      exists (tr' :: trs0). split; [econstructor; eauto|]. constructor; auto. right. eauto.
    + cbn [app] in Hs. inversion Hs as [|p0 ps m0 u m1 tr m0' trs0 Ex Hr2]; subst. inversion Ha as [|? ? A1 A2]; subst.
      assert (Hl : (exists trj, In trj trs0 /\ In (true, l) trj) /\ exists m1w, s_wr S m1 l v = Some m1w).
      { clear -Hr2 A2. revert m1 trs0 Hr2 A2. induction pre as [|q' pre IH]; intros m1 trs0 Hr2 A2; inversion Hr2 as [|? ? ? ? ? ? ? ? H3 H5]; subst.
        - cbn [exec] in H3. destruct (s_wr S m1 l v) as [m1w|] eqn:Ew; [|discriminate]. destruct (exec _ _) as [[[? ?] ?]|]; [|discriminate].
          injection H3 as <- <- <-. split; [eexists; split; [now left|now left]|eauto].
        - inversion A2 as [|? ? B1 B2]; subst. destruct (IH _ _ H5 B2) as ((t & I1 & I2) & m1w & Ew). split; [exists t; split; auto; now right|].
          rewrite Forall_forall in B1. specialize (B1 _ I1).
          destruct (exec_write_back _ _ _ _ _ l v m1w H3) as (m3 & W3 & _); eauto.
          intros b H. apply (B1 _ _ H I2). split; auto. }
      destruct Hl as ((trj & I1 & I2) & m1w & Ew). rewrite Forall_forall in A1. specialize (A1 _ I1).
      destruct (exec_write_back _ _ _ _ _ l v m1w Ex) as (m3 & W3 & E3); auto.
      { intros b H. apply (A1 _ _ H I2). split; auto. }
      rewrite Hw in W3. injection W3 as <-.
      destruct (IH _ _ Ew _ Hr2 A2) as (trs2 & G1 & G2). exists (tr :: trs2). split; [|constructor; auto; now left].
      cbn [app]. econstructor; eauto.
Qed.

Lemma sexec_split pre p post m m' trs : sexec (pre ++ p :: post) m m' trs ->
  exists t1 tr t2 m1 u m2, trs = t1 ++ tr :: t2 /\ sexec pre m m1 t1 /\ exec p m1 = Some (u, m2, tr) /\ sexec post m2 m' t2.
Proof.
  revert m trs. induction pre as [|q pre IH]; intros m trs H; cbn [app] in H; inversion H as [|? ? ? u m1 tr ? trs0 H4 H5]; subst.
  - exists [], tr, trs0, m, u, m1. repeat split; auto. constructor.
  - destruct (IH _ _ H5) as (t1 & tr1 & t2 & m2 & u1 & m3 & -> & A1 & A2 & A3).
    exists (tr :: t1), tr1, t2, m2, u1, m3. repeat split; auto. econstructor; eauto.
Qed.

Lemma exec_next {A} (p : prog A) m a m' tr n : exec p m = Some (a, m', tr) -> next p = Some n -> In n tr.
Proof.
  destruct p; cbn; intros E H; try discriminate; injection H as <-.
  - destruct (s_rd S m l); [|discriminate]. destruct (exec _ _) as [[[? ?] ?]|]; [|discriminate]. injection E as <- <- <-. now left.
  - destruct (s_wr S m l v); [|discriminate]. destruct (exec _ _) as [[[? ?] ?]|]; [|discriminate]. injection E as <- <- <-. now left.
Qed.

Lemma apart_split t1 (tr : list acc) t2 : ForallOrdPairs apart (t1 ++ tr :: t2) ->
  (forall t, In t t1 -> apart t tr) /\ (forall t, In t t2 -> apart tr t).
Proof.
  induction t1 as [|a t1 IH]; cbn [app]; intros H; inversion H as [|? ? H1 H2]; subst.
  - split; [contradiction|]. now rewrite Forall_forall in H1.
  - destruct (IH H2) as [A B]. split; auto. intros t [<-|Ht]; auto.
    rewrite Forall_forall in H1. apply H1. apply in_app_iff. right. now left.
Qed.

(** If one sequential execution is defined, and the accesses the threads make in
    it do not conflict, then every interleaving is free of races and of undefined
    behaviour, and ends in the same memory. *)
Theorem apart_safe ths m m' trs : sexec ths m m' trs -> ForallOrdPairs apart trs -> safe ths m (fun m1 => m1 = m').
Proof.
  intros Hs Ha ths' m1 Hst.
  assert (G : exists trs', sexec ths' m1 m' trs' /\ ForallOrdPairs apart trs').
  { remember (ths, m) as c eqn:Ec. remember (ths', m1) as c' eqn:Ec'. revert ths m trs Hs Ha Ec. 
    induction Hst as [c|c c1 c2 H1 H2 IH]; intros ths m trs Hs Ha Ec; subst.
    - injection Ec as -> ->. eauto.
    - destruct c1 as [th1 mm]. destruct (sexec_step _ _ _ _ _ _ Hs Ha H1) as (trs1 & G1 & G2). eapply IH; eauto. }
  clear Hs Ha Hst. destruct G as (trs' & Hs & Ha). split; [|split].
  - intros (pre & p & mid & q & post & a & b & -> & Np & Nq & Hc).
    apply sexec_split in Hs as (t1 & tr & t2 & m2 & u & m3 & -> & A1 & A2 & A3).
    apply sexec_split in A3 as (t3 & tr' & t4 & m4 & u' & m5 & -> & B1 & B2 & B3).
    destruct (apart_split _ _ _ Ha) as [_ H]. specialize (H tr').
    apply (H ltac:(apply in_app_iff; right; now left) a b); auto; eapply exec_next; eauto.
  - intros (pre & p & post & -> & Hw).
    assert (G : exists b, next p = b) by eauto. destruct G as [n Np].
    apply sexec_split in Hs as (t1 & tr & t2 & m2 & u & m3 & -> & A1 & A2 & A3). destruct (apart_split _ _ _ Ha) as [H _].
    assert (Hrd : forall l, (forall t, In t t1 -> ~ In (true, l) t) -> s_rd S m2 l = s_rd S m1 l).
    { clear -A1. induction A1; intros l0 Hn; auto. rewrite IHA1 by (intros; apply Hn; now right).
      eapply exec_read_back; eauto. apply Hn. now left. }
    assert (Hwr : forall l v w, (forall t b, In t t1 -> ~ In (b, l) t) -> s_wr S m2 l v = Some w -> exists w', s_wr S m1 l v = Some w').
    { clear -A1. induction A1; intros l0 v0 w Hn Hw; eauto. destruct (IHA1 l0 v0 w) as [w' Hw']; auto.
      { intros; apply Hn; now right. }
      destruct (exec_write_back _ _ _ _ _ l0 v0 w' H) as (m3 & W3 & _); eauto. intros b. apply Hn. now left. }
    destruct p as [a|l k|l v p|]; cbn [exec next] in *; auto; [| |discriminate].
    + destruct (s_rd S m2 l) eqn:E; [|discriminate]. destruct (exec _ _) as [[[? ?] ?]|]; [|discriminate]. injection A2 as <- <- <-.
      rewrite Hrd in E; [congruence|]. intros t Ht Hi. apply (H t Ht _ (false, l) Hi); [now left|split; auto].
    + destruct (s_wr S m2 l v) eqn:E; [|discriminate]. destruct (exec p _) as [[[? ?] ?]|]; [|discriminate]. injection A2 as <- <- <-.
      destruct (Hwr l v s) as [w' Hw']; auto; [|congruence]. intros t b Ht Hi. apply (H t Ht _ (true, l) Hi); [now left|split; auto].
  - intros Hf. clear -Hs Hf. revert Hf. induction Hs; intros Hf; auto. inversion Hf; subst. cbn in H. injection H as <- <- <-. auto.
Qed.

(** ** Deriving the sequential execution from an atomic model *)

(** Run alone from [m], the program ends with [a] in [m'] having made only
    accesses in [P]. *)
Definition runs {A} (P : acc -> Prop) (p : prog A) (m : mem) (a : A) (m' : mem) : Prop :=
  exists tr, exec p m = Some (a, m', tr) /\ Forall P tr.

Lemma runs_ret {A} P (a : A) m : runs P (Ret a) m a m.
Proof. exists []. split; auto. Qed.
Lemma runs_lift {A} P (o : option A) a m : o = Some a -> runs P (plift o) m a m.
Proof. intros ->. apply runs_ret. Qed.
Lemma runs_bind {A B} P (p : prog A) (f : A -> prog B) m a m1 b m2 : runs P p m a m1 -> runs P (f a) m1 b m2 -> runs P (pbind p f) m b m2.
Proof.
  intros (tr & E & Fp) (tr2 & E2 & F2). exists (tr ++ tr2). split; [|apply Forall_app; auto].
  clear Fp F2. revert m tr E. induction p as [a0|l k IH|l v p IH|]; intros m tr E; cbn [exec pbind] in *.
  - injection E as -> -> <-. auto.
  - destruct (s_rd S m l); [|discriminate]. destruct (exec _ m) as [[[? ?] tr']|] eqn:E1; [|discriminate]. injection E as -> -> <-.
    rewrite (IH _ _ _ E1). auto.
  - destruct (s_wr S m l v) as [mm|]; [|discriminate]. destruct (exec p mm) as [[[? ?] tr']|] eqn:E1; [|discriminate]. injection E as -> -> <-.
    rewrite (IH _ _ E1). auto.
  - discriminate.
Qed.
Lemma runs_rd {A} (P : acc -> Prop) l (k : val -> prog A) m v a m' : s_rd S m l = Some v -> P (false, l) -> runs P (k v) m a m' -> runs P (Rd l k) m a m'.
Proof. intros E H (tr & E1 & F1). exists ((false, l) :: tr). cbn [exec]. rewrite E, E1. auto. Qed.
Lemma runs_wr {A} (P : acc -> Prop) l v (p : prog A) m m1 a m' : s_wr S m l v = Some m1 -> P (true, l) -> runs P p m1 a m' -> runs P (Wr l v p) m a m'.
Proof. intros E H (tr & E1 & F1). exists ((true, l) :: tr). cbn [exec]. rewrite E, E1. auto. Qed.

(** Loops: [mk x m] is the accumulator of the atomic model when the fine one has
    local value [x] and memory [m]. *)
Lemma runs_for {X Z0} P (Inv : Z -> X -> mem -> Prop) (mk : X -> mem -> Z0) lo hi (f : Z -> Z0 -> option Z0) (fp : Z -> X -> prog X) :
  (forall i x m z', lo <= i < hi -> Inv i x m -> f i (mk x m) = Some z' -> exists x' m', z' = mk x' m' /\ Inv (i + 1) x' m' /\ runs P (fp i x) m x' m') ->
  forall x m z', zfor lo hi f (mk x m) = Some z' -> Inv lo x m ->
  exists x' m', z' = mk x' m' /\ Inv (Z.max lo hi) x' m' /\ runs P (pfor lo hi fp x) m x' m'.
Proof.
  intros Hb. unfold zfor, pfor. remember (Z.to_nat (hi - lo)) as n eqn:En.
  assert (G : forall n i, lo <= i -> (n = Z.to_nat (hi - i))%nat -> forall x m z', loop n i f (mk x m) = Some z' -> Inv i x m ->
    exists x' m', z' = mk x' m' /\ Inv (Z.max i hi) x' m' /\ runs P (ploop n i fp x) m x' m').
  { clear n En. induction n as [|n IH]; intros i Hi En x m z' E HI; cbn [loop ploop] in *.
    - injection E as <-. exists x, m. replace (Z.max i hi) with i by lia. split; auto. split; auto. apply runs_ret.
    - destruct (f i (mk x m)) as [z1|] eqn:E1; [|discriminate]. cbn [bind] in E.
      destruct (Hb i x m z1) as (x1 & m1 & -> & I1 & R1); auto; [lia|].
      destruct (IH (i + 1) ltac:(lia) ltac:(lia) _ _ _ E I1) as (x2 & m2 & -> & I2 & R2).
      exists x2, m2. split; auto. split; [now replace (Z.max i hi) with (Z.max (i + 1) hi) by lia|].
      eapply runs_bind; eauto. }
  intros x m z' E HI. apply (G n lo); auto. lia.
Qed.

(** A loop that only changes local values. *)
Lemma runs_pure_for {X} P lo hi (f : Z -> X -> option X) (fp : Z -> X -> prog X) m :
  (forall i x x', lo <= i < hi -> f i x = Some x' -> runs P (fp i x) m x' m) ->
  forall x x', zfor lo hi f x = Some x' -> runs P (pfor lo hi fp x) m x' m.
Proof.
  intros Hb x x' E.
  destruct (runs_for P (fun _ _ m1 => m1 = m) (fun x (_ : mem) => x) lo hi f fp) with (x := x) (m := m) (z' := x') as (x1 & m1 & -> & -> & H); auto.
  intros i y m1 z' Hi -> E1. exists z', m. auto.
Qed.

Lemma runs_weaken {A} (P P' : acc -> Prop) (p : prog A) m a m' : runs P p m a m' -> (forall x, P x -> P' x) -> runs P' p m a m'.
Proof. intros (tr & E & H) HP. exists tr. split; auto. eapply Forall_impl; eauto. Qed.

(** Items on threads: if the items one after the other are defined in the atomic
    model, each item's accesses are in its footprint, and footprints of items on
    different threads are apart, the region is safe. *)
Theorem region_safe {I} (prog_of : I -> prog unit) (act_of : I -> act mem) (fp : I -> acc -> Prop) (Inv : mem -> Prop) (ths : list (list I)) m m' :
  (forall it m1 m2, In it (concat ths) -> Inv m1 -> act_of it m1 = Some m2 -> Inv m2 /\ runs (fp it) (prog_of it) m1 tt m2) ->
  ForallOrdPairs (fun t1 t2 => forall i1 i2 a b, In i1 t1 -> In i2 t2 -> fp i1 a -> fp i2 b -> ~ conflict a b) ths ->
  Inv m -> Conc.run (map act_of (concat ths)) m = Some m' ->
  safe (map (fun t => pseq (map prog_of t)) ths) m (fun m1 => m1 = m') /\ Inv m'.
Proof.
  intros Hit Hap HI Hrun.
  assert (G1 : forall t m1 m2, (forall it, In it t -> In it (concat ths)) -> Inv m1 -> Conc.run (map act_of t) m1 = Some m2 ->
            Inv m2 /\ runs (fun a => exists it, In it t /\ fp it a) (pseq (map prog_of t)) m1 tt m2).
  { clear Hrun HI m m' Hap. induction t as [|it t IH]; intros m1 m2 Hin HI E; cbn [map Conc.run pseq] in *.
    - injection E as <-. split; auto. apply runs_ret.
    - destruct (act_of it m1) as [mm|] eqn:E1; [|discriminate]. cbn [bind] in E.
      destruct (Hit it m1 mm (Hin _ (or_introl eq_refl)) HI E1) as [I1 R1].
      destruct (IH mm m2 (fun i H => Hin i (or_intror H)) I1 E) as [I2 R2]. split; auto.
      eapply runs_bind.
      + eapply runs_weaken; [exact R1|]. intros x Hx. exists it. split; auto. now left.
      + eapply runs_weaken; [exact R2|]. intros x (i & ? & ?). exists i. split; auto. now right. }
  assert (G : exists trs, sexec (map (fun t => pseq (map prog_of t)) ths) m m' trs /\ Inv m' /\
     Forall2 (fun t tr => Forall (fun a => exists it, In it t /\ fp it a) tr) ths trs).
  { assert (G2 : forall l, (forall it, In it (concat l) -> In it (concat ths)) -> forall m, Inv m -> Conc.run (map act_of (concat l)) m = Some m' ->
      exists trs, sexec (map (fun t => pseq (map prog_of t)) l) m m' trs /\ Inv m' /\
        Forall2 (fun t tr => Forall (fun a => exists it, In it t /\ fp it a) tr) l trs).
    { clear m HI Hrun. induction l as [|t l IH]; intros Hin m HI Hrun.
      - injection Hrun as <-. exists []. split; [constructor|]. split; auto.
      - cbn [concat] in Hrun, Hin. rewrite map_app in Hrun. rewrite Conc.run_app in Hrun.
        destruct (Conc.run (map act_of t) m) as [m1|] eqn:E; [|discriminate]. cbn [bind] in Hrun.
        destruct (G1 t m m1) as [I1 (tr & E1 & F1)]; auto. { intros; apply Hin, in_app_iff; auto. }
        destruct (IH) with (m := m1) as (trs & S1 & I2 & F2); auto. { intros; apply Hin, in_app_iff; auto. }
        exists (tr :: trs). cbn [map]. split; [econstructor; eauto|]. split; auto. }
    apply G2; auto. }
  destruct G as (trs & Hs & I2 & F2). split; auto. eapply apart_safe; eauto.
  clear -F2 Hap. induction F2 as [|t tr l l' H H2 IH]; [constructor|]. inversion Hap as [|? ? A1 A2]; subst. constructor; auto.
  clear IH A2 Hap. rewrite Forall_forall. intros tr2 Htr2.
  assert (exists t2, In t2 l /\ Forall (fun a => exists it, In it t2 /\ fp it a) tr2) as (t2 & I2 & F3).
  { clear -H2 Htr2. induction H2; [contradiction|]. destruct Htr2 as [<-|Hx]; [exists x; split; auto; now left|].
    destruct (IHForall2 Hx) as (x' & ? & ?). exists x'. split; auto. now right. }
  intros a b Ha Hb. rewrite Forall_forall in *. specialize (A1 _ I2).
  destruct (H _ Ha) as (i1 & ? & ?). destruct (F3 _ Hb) as (i2 & ? & ?). eapply A1; eauto.
Qed.

End Race.
Arguments Ret {S A} a.
Arguments Rd {S A} l k.
Arguments Wr {S A} l v p.
Arguments Fail {S A}.
