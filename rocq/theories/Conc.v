(** Threads as sequences of atomic actions, and their interleavings.  Not a model
    of code: vocabulary for the OpenMP parallel regions in the models. *)
From Coq Require Import ZArith List Lia Bool.
From Verif Require Import Base.
Import ListNotations.
Open Scope Z_scope.

(** An action on a shared state; [None] is undefined behaviour. *)
Definition act (St : Type) := St -> option St.

Fixpoint run {St} (l : list (act St)) (s : St) : option St :=
  match l with [] => Some s | a :: l' => s' <- a s; run l' s' end.

(** [inter ths l]: [l] is an interleaving of the action sequences of the threads
    [ths] (each thread's own actions stay in order). *)
Inductive inter {A} : list (list A) -> list A -> Prop :=
| inter_nil ths : Forall (fun t => t = []) ths -> inter ths []
| inter_step pre a t post l : inter (pre ++ t :: post) l -> inter (pre ++ (a :: t) :: post) (a :: l).

Definition commute {St} (a b : act St) : Prop :=
  forall s, (s' <- a s; b s') = (s' <- b s; a s').

(** Actions of different threads commute. *)
Definition independent {St} (ths : list (list (act St))) : Prop :=
  ForallOrdPairs (fun t1 t2 => forall a b, In a t1 -> In b t2 -> commute a b) ths.

Lemma run_app {St} (l m : list (act St)) s : run (l ++ m) s = (s' <- run l s; run m s').
Proof. revert s; induction l; intros; simpl; auto. destruct (a s); simpl; auto. Qed.

Lemma run_swap {St} (l : list (act St)) a s :
  (forall b, In b l -> commute b a) -> run (l ++ [a]) s = run (a :: l) s.
Proof.
  revert s; induction l as [|b l IH]; intros s H; [reflexivity|].
  cbn [app run]. destruct (b s) as [s1|] eqn:E; cbn [bind].
  - rewrite IH by (intros; apply H; now right). cbn [run].
    pose proof (H b (or_introl eq_refl) s) as C. rewrite E in C. cbn [bind] in C. rewrite C.
    destruct (a s); cbn [bind]; auto.
  - pose proof (H b (or_introl eq_refl) s) as C. rewrite E in C. cbn [bind] in C.
    destruct (a s) as [s2|]; cbn [bind] in *; auto. rewrite <- C. reflexivity.
Qed.

Lemma FOP_app {A} (R : A -> A -> Prop) l m : ForallOrdPairs R (l ++ m) <->
  ForallOrdPairs R l /\ ForallOrdPairs R m /\ (forall x y, In x l -> In y m -> R x y).
Proof.
  induction l; simpl.
  - split; [intros; repeat split; auto; [constructor|contradiction] | tauto].
  - split.
    + intros H; inversion H; subst. apply IHl in H3 as (A1 & A2 & A3). rewrite Forall_app in H2.
      destruct H2 as [B1 B2]. split; [constructor; auto|]. split; auto.
      intros x y [<-|Hx] Hy; auto. rewrite Forall_forall in B2. auto.
    + intros (H1 & H2 & H3). inversion H1; subst. constructor.
      * apply Forall_app. split; auto. rewrite Forall_forall. auto.
      * apply IHl. auto.
Qed.

Lemma concat_nils {A} (ths : list (list A)) : Forall (fun t => t = []) ths -> concat ths = [].
Proof. induction 1; simpl; subst; auto. Qed.

(** Every interleaving of independent threads has the effect of running the
    threads one after the other. *)
Theorem interleaving_sequential {St} (ths : list (list (act St))) l :
  inter ths l -> independent ths -> forall s, run l s = run (concat ths) s.
Proof.
  induction 1 as [ths Hn|pre a t post l Hi IH]; intros Hind s.
  - now rewrite concat_nils.
  - assert (Hind' : independent (pre ++ t :: post)).
    { unfold independent in *. apply FOP_app in Hind as (A1 & A2 & A3).
      apply FOP_app. inversion A2; subst. rewrite Forall_forall in H1. split; auto. split.
      - constructor; auto. rewrite Forall_forall. intros x Hx a0 b Ha Hb. apply (H1 x); auto. now right.
      - intros x y Hx [<-|Hy] a0 b Ha Hb.
        + apply (A3 x (a :: t)); auto; [now left|now right].
        + apply (A3 x y); auto. now right. }
    cbn [run]. rewrite concat_app. cbn [concat]. rewrite app_assoc.
    replace (concat pre ++ (a :: t)) with ((concat pre ++ [a]) ++ t) by (now rewrite <- app_assoc).
    rewrite <- app_assoc, run_app. rewrite run_swap.
    2:{ intros b Hb. apply in_concat in Hb as (tb & Htb & Hb).
        apply FOP_app in Hind as (A1 & A2 & A3). eapply A3; eauto; [now left|now left]. }
    cbn [run]. destruct (a s) as [s1|]; cbn [bind]; auto.
    rewrite (IH Hind' s1). rewrite concat_app, run_app. destruct (run (concat pre) s1); auto.
Qed.

(** The sequential execution is one of the interleavings. *)
Lemma inter_concat {A} (ths : list (list A)) : inter ths (concat ths).
Proof.
  assert (forall (pre : list (list A)) ths, Forall (fun t => t = []) pre -> inter (pre ++ ths) (concat ths)).
  { intros pre ths0. revert pre. induction ths0 as [|t ths0 IH]; intros pre Hp.
    - simpl. constructor. rewrite app_nil_r. auto.
    - simpl. induction t as [|a t IHt]; simpl.
      + replace (pre ++ [] :: ths0) with ((pre ++ [[]]) ++ ths0) by (now rewrite <- app_assoc).
        apply IH. apply Forall_app. auto.
      + constructor. auto. }
  apply (H []). constructor.
Qed.

(** ** Interleavings of pure stores *)

Lemma inter_perm {A} (ths : list (list A)) l : inter ths l -> forall x, In x l <-> In x (concat ths).
Proof.
  induction 1 as [ths Hn|pre a t post l Hi IH]; intros x.
  - rewrite concat_nils by auto. reflexivity.
  - rewrite concat_app in *. cbn [concat] in *. specialize (IH x).
    simpl. rewrite IH. rewrite !in_app_iff. simpl. rewrite in_app_iff. tauto.
Qed.

Lemma inter_map_inv {A B} (f : A -> B) ths l : inter (map (map f) ths) l ->
  exists k, l = map f k /\ inter ths k.
Proof.
  remember (map (map f) ths) as ths' eqn:E. intros H. revert ths E.
  induction H as [ths' Hn|pre a t post l Hi IH]; intros ths E; subst.
  - exists []. split; auto. constructor. rewrite Forall_forall in *. intros t Ht.
    specialize (Hn (map f t) (in_map _ _ _ Ht)). destruct t; [auto|discriminate].
  - symmetry in E. apply map_eq_app in E as (p & q & -> & E1 & E2).
    destruct q as [|t0 q]; [discriminate|]. simpl in E2. injection E2 as E2 E3.
    destruct t0 as [|a0 t0]; [discriminate|]. simpl in E2. injection E2 as E2 E4. subst.
    destruct (IH (p ++ t0 :: q)) as (k & -> & Hk).
    { rewrite map_app. reflexivity. }
    exists (a0 :: k). split; auto. constructor. auto.
Qed.

Lemma stores_spec {K C} (loc : K -> Z) (val : K -> option C) keys : forall d,
  (forall x, In x keys -> 0 <= loc x < zlen d /\ exists c, val x = Some c) ->
  (forall x y, In x keys -> In y keys -> loc x = loc y -> val x = val y) ->
  exists d', run (map (fun x d => c <- val x; setz d (loc x) c) keys) d = Some d' /\ zlen d' = zlen d /\
    (forall x, In x keys -> getz d' (loc x) = val x) /\
    (forall k, ~ In k (map loc keys) -> getz d' k = getz d k).
Proof.
  induction keys as [|x keys IH]; intros d Hok Hf; simpl.
  - exists d. repeat split; auto. intros x [].
  - destruct (Hok x (or_introl eq_refl)) as (Hb & c & Hc). rewrite Hc. cbn [bind].
    destruct (setz_Some d (loc x) c Hb) as [d1 E]. rewrite E. cbn [bind].
    pose proof (setz_zlen _ _ _ _ E) as Zl.
    destruct (IH d1) as (d' & R & Z' & G & O).
    + intros y Hy. rewrite Zl. apply Hok. now right.
    + intros; apply Hf; auto; now right.
    + exists d'. split; auto. split; [lia|]. split.
      * intros y [<-|Hy]; [|auto].
        destruct (in_dec Z.eq_dec (loc x) (map loc keys)) as [Hi|Hi].
        { apply in_map_iff in Hi as (y & Ey & Hy). rewrite <- Ey, (G y Hy). apply Hf; auto; [now right|now left]. }
        { rewrite O by auto. rewrite (getz_setz_same _ _ _ _ E). auto. }
      * intros k Hk. rewrite O by tauto. rewrite (getz_setz_other _ _ _ _ _ E); auto.
Qed.

Lemma run_map_zfor {St} (b : Z -> act St) lo hi s : run (map b (zrange lo hi)) s = zfor lo hi b s.
Proof.
  unfold zfor, zrange. remember (Z.to_nat (hi - lo)) as n eqn:E. clear E. revert lo s. induction n; intros lo s.
  - reflexivity.
  - cbn [loop seq map run]. replace (lo + Z.of_nat 0) with lo by lia. destruct (b lo s) as [s'|]; cbn [bind]; auto.
    rewrite <- IHn. f_equal. rewrite <- seq_shift, !map_map. apply map_ext. intros k. f_equal. lia.
Qed.
