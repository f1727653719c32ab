(** The whole bisection: shape of the tree, permutation of the points, boxes,
    termination. *)
From Coq Require Import ZArith QArith List Lia Bool Permutation.
From Verif Require Import Base Mem Num Spec_Utils Proof_Utils Proof_Bucket Model_Partition Proof_Partition.
Import ListNotations.
Open Scope Z_scope.

Section Tree.
Context {F : num}.

Definition tnn (ts : list (tnode F)) : Z := zsum (map t_nnode ts).
Definition tmaxh (ts : list (tnode F)) : Z := fold_right Z.max 0 (map t_height ts).

Fixpoint leaves (t : tnode F) : Z :=
  match t_children t with [] => 1 | ts => zsum (map leaves ts) end.

(** Proper tree over the points s..e whose post-order numbers start at [po];
    [P] holds at every node. *)
Inductive gt (mc : Z) (P : tnode F -> Prop) : Z -> Z -> Z -> Z -> tnode F -> Prop :=
| gt_leaf lv s e po b : s <= e -> P (TNode s e 0 1 po lv 0 b []) ->
    gt mc P lv s e po (TNode s e 0 1 po lv 0 b [])
| gt_node lv s e po b ts : ts <> [] -> zlen ts <= mc -> gts mc P (lv + 1) s e po ts -> s <= e ->
    P (TNode s e (zlen ts) (1 + tnn ts) (po + tnn ts) lv (tmaxh ts + 1) b ts) ->
    gt mc P lv s e po (TNode s e (zlen ts) (1 + tnn ts) (po + tnn ts) lv (tmaxh ts + 1) b ts)
with gts (mc : Z) (P : tnode F -> Prop) : Z -> Z -> Z -> Z -> list (tnode F) -> Prop :=
| gts_nil lv s po : gts mc P lv s (s - 1) po []
| gts_cons lv s m e po t ts : gt mc P lv s m po t -> gts mc P lv (m + 1) e (po + t_nnode t) ts ->
    gts mc P lv s e po (t :: ts).

Scheme gt_mut := Induction for gt Sort Prop with gts_mut := Induction for gts Sort Prop.
Combined Scheme gt_ind2 from gt_mut, gts_mut.

Lemma gt_range mc P : (forall lv s e po t, gt mc P lv s e po t -> s <= e /\ t_s t = s /\ t_e t = e /\ t_level t = lv) /\
  (forall lv s e po ts, gts mc P lv s e po ts -> s - 1 <= e).
Proof. apply gt_ind2; intros; simpl; try lia; auto. Qed.

Lemma gt_mono mc (P Q : tnode F -> Prop) : 
  (forall lv s e po t, gt mc P lv s e po t -> (forall u, s <= t_s u -> t_e u <= e -> P u -> Q u) -> gt mc Q lv s e po t) /\
  (forall lv s e po ts, gts mc P lv s e po ts -> (forall u, s <= t_s u -> t_e u <= e -> P u -> Q u) -> gts mc Q lv s e po ts).
Proof.
  apply gt_ind2; intros.
  - constructor; auto. apply H; auto; simpl; lia.
  - constructor; auto. apply H0; auto; simpl; lia.
  - constructor.
  - pose proof (proj1 (gt_range _ _) _ _ _ _ _ g). pose proof (proj2 (gt_range _ _) _ _ _ _ _ g0).
    econstructor; [apply H|apply H0]; intros u U1 U2; apply H1; lia.
Qed.

Lemma zsum_pos (l : list Z) : (forall x, In x l -> 1 <= x) -> zlen l <= zsum l.
Proof.
  induction l; simpl; intros H; [zlia|]. specialize (IHl ltac:(auto)). pose proof (H a ltac:(auto)). zlia.
Qed.

Lemma gt_nnode mc P : (forall lv s e po t, gt mc P lv s e po t -> 1 <= t_nnode t /\ t_po t = po + t_nnode t - 1 /\ 1 <= leaves t /\ 0 <= t_height t) /\
  (forall lv s e po ts, gts mc P lv s e po ts -> 0 <= tnn ts /\ 0 <= tmaxh ts /\ (ts <> [] -> 1 <= zsum (map leaves ts))).
Proof.
  apply gt_ind2; intros; cbn [t_nnode t_po t_height] in *; try lia.
  - cbn [leaves t_children]. lia.
  - destruct H as (A & B & C). split; [lia|]. split; [lia|]. split; [|lia].
    cbn [leaves t_children]. destruct ts; [congruence|]. apply C. discriminate.
  - unfold tnn, tmaxh; simpl. repeat split; try lia; congruence.
  - unfold tnn, tmaxh in *; cbn [map zsum fold_right]. fold (zsum (map t_nnode ts)). repeat split; try lia.
    fold (zsum (map leaves ts)). intros _. destruct ts; [simpl; lia|]. destruct H0 as (_ & _ & C). specialize (C ltac:(discriminate)). lia.
Qed.

Lemma fold_nnode ts : forall a, fold_left (fun a (t : tnode F) => a + t_nnode t) ts a = a + tnn ts.
Proof.
  unfold tnn. induction ts; intros; simpl; [lia|]. rewrite IHts. fold (zsum (map t_nnode ts)). lia.
Qed.

Lemma fold_height ts : forall a, 0 <= a -> fold_left (fun a (t : tnode F) => if t_height t <? a then a else t_height t) ts a = Z.max a (tmaxh ts).
Proof.
  unfold tmaxh. induction ts; intros a0 Ha; simpl; [lia|]. destruct (Z.ltb_spec (t_height a) a0); rewrite IHts by lia; lia.
Qed.

Context (pt_dim xpt_dim n_point : Z).
Hypothesis Hd : 1 <= pt_dim.
Hypothesis Hxd : pt_dim <= xpt_dim.
Context (mls : F) (mlp : Z).

Let mc := Z.shiftl 1 pt_dim.
Notation boxi := (box_init pt_dim).
Notation coi := (coord_init xpt_dim n_point).
Notation mvd := (moved xpt_dim n_point).
Notation szok := (sizes_ok xpt_dim n_point).
Notation pt := ptof.

Lemma moved_trans t1 t2 (p p1 p2 : pstate F) : (forall i, 0 <= i < n_point -> 0 <= t1 i < n_point) ->
  mvd t1 p p1 -> mvd t2 p1 p2 -> mvd (fun i => t2 (t1 i)) p p2.
Proof.
  intros H (A1 & A2 & A3) (B1 & B2 & B3). split; [|split]; auto.
  - intros. rewrite B2 by auto. auto.
  - intros. rewrite B3 by auto. auto.
Qed.

Lemma moved_id (p p' : pstate F) : szok p' -> p_coord p' = p_coord p -> p_idx p' = p_idx p -> mvd (fun i => i) p p'.
Proof. intros H E1 E2. split; [|split]; auto; intros; congruence. Qed.

Lemma perm_in_range s e t : 0 <= s -> e < n_point -> permutes s e t -> forall i, 0 <= i < n_point -> 0 <= t i < n_point.
Proof.
  intros H1 H2 H3 i Hi. destruct (permutes_widen s e 0 (n_point - 1) t ltac:(lia) ltac:(lia) H3) as (A & _).
  specialize (A i). lia.
Qed.

Lemma moved_coord_init t s e (p p' : pstate F) : 0 <= s -> e < n_point -> permutes s e t -> mvd t p p' -> coi (p_coord p) -> coi (p_coord p').
Proof.
  intros H1 H2 H3 (S & M & _) [C1 C2]. destruct S as (S & _). split; auto. intros k Hk.
  assert (Hn : 0 < n_point) by nia.
  pose proof (Z.div_mod k n_point ltac:(lia)) as D. pose proof (Z.mod_pos_bound k n_point Hn) as B.
  set (j := k / n_point) in *. set (i := k mod n_point) in *.
  assert (Hj : 0 <= j < xpt_dim) by nia.
  destruct (permutes_surj _ _ _ (permutes_widen s e 0 (n_point - 1) t ltac:(lia) ltac:(lia) H3) i ltac:(lia)) as (q & Hq & Eq).
  specialize (M j q Hj ltac:(lia)). rewrite Eq in M. replace k with (j * n_point + i) by lia.
  unfold ld. rewrite M. apply (C2 (j * n_point + q)). nia.
Qed.

(** Points outside the permuted range keep their place. *)
Lemma moved_outside t s e (p p' : pstate F) q j : permutes s e t -> mvd t p p' -> 0 <= q < n_point -> ~ (s <= q <= e) -> 0 <= j < xpt_dim ->
  pt (p_coord p') n_point q j = pt (p_coord p) n_point q j.
Proof.
  intros (A & B & _) (_ & M & _) Hq Ho Hj. specialize (M j q Hj Hq). rewrite (B q Ho) in M. unfold ptof, vd, ld. now rewrite M.
Qed.

Lemma moved_preimage t s e (p p' : pstate F) q : 0 <= s -> e < n_point -> permutes s e t -> mvd t p p' -> s <= q <= e ->
  exists q0, s <= q0 <= e /\ forall j, 0 <= j < xpt_dim -> pt (p_coord p') n_point q j = pt (p_coord p) n_point q0 j.
Proof.
  intros H1 H2 H3 (_ & M & _) Hq. destruct (permutes_surj _ _ _ H3 q Hq) as (k & Hk & Ek). exists k. split; auto.
  intros j Hj. specialize (M j k Hj ltac:(lia)). rewrite Ek in M. unfold ptof, vd, ld. now rewrite M.
Qed.

(** A box predicate inherited by the boxes of the children. *)
Context (inbox : mem F -> (Z -> F) -> Prop).
Hypothesis Hext : forall b x y, (forall j, 0 <= j < pt_dim -> x j = y j) -> inbox b x -> inbox b y.
Hypothesis Hsub : forall b b' x, boxi b -> boxi b' -> inbox b x -> child_of pt_dim b x b' -> inbox b' x.

Definition small (s e : Z) (b : mem F) : bool := (e - s + 1 <=? mlp) || nle (vd b pt_dim) mls.

Definition node_ok (coord : mem F) (t : tnode F) : Prop :=
  boxi (t_box t) /\ (t_nchild t = 0 <-> small (t_s t) (t_e t) (t_box t) = true) /\
  forall q, t_s t <= q <= t_e t -> inbox (t_box t) (pt coord n_point q).

Definition bis fuel := bisect fuel pt_dim xpt_dim n_point mls mlp.

Definition result_ok level s e (bx : mem F) (p : pstate F) (t : tnode F) (p' : pstate F) : Prop :=
  (exists tau, permutes s e tau /\ mvd tau p p') /\
  gt mc (node_ok (p_coord p')) level s e (p_po p) t /\ t_box t = bx /\
  p_po p' = p_po p + t_nnode t /\ p_nleaf p' = p_nleaf p + leaves t /\
  p_maxlevel p' = Z.max (p_maxlevel p) (level + t_height t).

Definition results_ok level s e (p : pstate F) (ts : list (tnode F)) (p' : pstate F) : Prop :=
  (exists tau, permutes s e tau /\ mvd tau p p') /\
  gts mc (node_ok (p_coord p')) level s e (p_po p) ts /\
  p_po p' = p_po p + tnn ts /\ p_nleaf p' = p_nleaf p + zsum (map leaves ts) /\
  p_maxlevel p' = match ts with [] => p_maxlevel p | _ => Z.max (p_maxlevel p) (level + tmaxh ts) end.

Definition pre (s e : Z) (bx : mem F) (p : pstate F) : Prop :=
  coi (p_coord p) /\ szok p /\ boxi bx /\ 0 <= s <= e /\ e < n_point /\
  forall q, s <= q <= e -> inbox bx (pt (p_coord p) n_point q).

Lemma chain_bounds a b (l : list (Z * Z * mem F)) : chain a b l -> a - 1 <= b /\ forall x y z, In (x, y, z) l -> a <= x <= y /\ y <= b.
Proof.
  induction 1; [split; [lia|intros ? ? ? []]|]. destruct IHchain as [I1 I2]. split; [lia|].
  intros x y z [E|Hin]; [injection E as -> -> ->; lia|]. specialize (I2 x y z Hin). lia.
Qed.

Lemma node_ok_frame s' e' t (p p' : pstate F) u : permutes s' e' t -> mvd t p p' -> 0 <= t_s u -> t_e u < n_point ->
  (forall q, t_s u <= q <= t_e u -> ~ (s' <= q <= e')) -> node_ok (p_coord p) u -> node_ok (p_coord p') u.
Proof.
  intros H1 H2 H3 H4 H5 (A & B & C). split; [|split]; auto. intros q Hq. apply (Hext _ (pt (p_coord p) n_point q)); auto.
  intros j Hj. symmetry. eapply moved_outside; eauto; try lia.
Qed.

Lemma visit_spec level rec s e cs : chain s e cs -> forall p,
  (forall a b bx p, In (a, b, bx) cs -> pre a b bx p -> exists r, rec a b bx p = Some r /\
     forall t p', r = Some (t, p') -> result_ok level a b bx p t p') ->
  coi (p_coord p) -> szok p -> 0 <= s -> e < n_point ->
  (forall a b bx, In (a, b, bx) cs -> boxi bx /\ forall q, a <= q <= b -> inbox bx (pt (p_coord p) n_point q)) ->
  exists r, visit_children rec cs p = Some r /\
    forall ts p', r = Some (ts, p') -> results_ok level s e p ts p' /\ zlen ts = zlen cs.
Proof.
  induction 1 as [a|a m b bx l Ham Hch IH]; intros p Hrec Hc Hz H0 H1 Hb.
  - eexists. split; [reflexivity|]. intros ts p' E. injection E as <- <-. split; [|reflexivity].
    split; [exists (fun i => i); split; [apply permutes_id|apply moved_id; auto]|].
    split; [constructor|]. unfold tnn; simpl. repeat split; try lia; congruence.
  - cbn [visit_children]. pose proof (chain_bounds _ _ _ Hch) as [Hcb _].
    destruct (Hrec a m bx p) as (r & Er & Hr). { now left. }
    { destruct (Hb a m bx ltac:(now left)). repeat (split; [solve [auto; lia]|]). auto. }
    rewrite Er. cbn [bind]. destruct r as [[t p1]|]; [|eexists; split; [reflexivity|]; intros; discriminate].
    destruct (Hr t p1 eq_refl) as ((tau & T1 & T2) & G & Eb & N1 & N2 & N3).
    destruct (IH p1) as (r2 & Er2 & Hr2).
    { intros; apply Hrec; auto. now right. }
    { eapply (moved_coord_init tau a m); eauto; lia. }
    { apply T2. }
    { lia. } { auto. }
    { intros a' b' bx' Hin. destruct (Hb a' b' bx' ltac:(now right)) as [B1 B2]. split; auto.
      intros q Hq. destruct (chain_bounds _ _ _ Hch) as [_ Hcb2]. specialize (Hcb2 _ _ _ Hin).
      apply (Hext _ (pt (p_coord p) n_point q)); [|auto]. intros j Hj. symmetry. eapply (moved_outside tau a m); eauto; lia. }
    rewrite Er2. cbn [bind]. destruct r2 as [[ts p2]|]; [|eexists; split; [reflexivity|]; intros; discriminate].
    eexists. split; [reflexivity|]. intros ts' p' E. injection E as <- <-.
    destruct (Hr2 ts p2 eq_refl) as (((tau2 & U1 & U2) & G2 & M1 & M2 & M3) & Hlen). split; [|rewrite !zlen_cons; lia].
    assert (Gt : gt mc (node_ok (p_coord p2)) level a m (p_po p) t).
    { eapply (proj1 (gt_mono _ _ _)); [exact G|]. intros u Hu1 Hu2. eapply (node_ok_frame (m + 1) b tau2 p1 p2); eauto; lia. }
    split; [|split; [|split; [|split]]].
    + exists (fun i => tau2 (tau i)). split.
      * apply permutes_comp; [apply (permutes_widen a m); auto; lia|apply (permutes_widen (m + 1) b); auto; lia].
      * apply (moved_trans tau tau2 p p1 p2); auto. apply (perm_in_range a m); auto; lia.
    + econstructor; [exact Gt|]. rewrite N1 in G2. exact G2.
    + unfold tnn in *. simpl. fold (zsum (map t_nnode ts)). lia.
    + simpl. fold (zsum (map leaves ts)). lia.
    + rewrite M3. pose proof (proj1 (gt_nnode mc _) _ _ _ _ _ G) as (_ & _ & _ & Hh).
      unfold tmaxh in *. destruct ts as [|t2 ts]; cbn [map fold_right]; lia.
Qed.

Lemma bisect_spec : forall fuel level s e bx p, pre s e bx p ->
  exists r, bis fuel level s e bx p = Some r /\ forall t p', r = Some (t, p') -> result_ok level s e bx p t p'.
Proof.
  unfold bis. induction fuel as [|fuel IH]; intros level s e bx p (Hc & Hz & Hb & Hs & He & Hin).
  - eexists. split; [reflexivity|]. intros; discriminate.
  - cbn [bisect]. cbv zeta. cbn [p_coord p_ctmp p_idx p_itmp p_maxlevel p_po p_nleaf].
    rewrite (box_vd pt_dim bx pt_dim Hb) by lia. cbn [bind]. fold (small s e bx).
    destruct (small s e bx) eqn:Esm.
    + eexists. split; [reflexivity|]. intros t p' E. injection E as <- <-.
      split; [exists (fun i => i); split; [apply permutes_id|apply moved_id; auto]|].
      cbn [p_coord p_ctmp p_idx p_itmp p_maxlevel p_po p_nleaf t_box t_nnode t_height leaves t_children].
      split; [|repeat split; auto; destruct (Z.ltb_spec (p_maxlevel p) level); lia].
      constructor; [lia|]. unfold node_ok; cbn [t_box t_nchild t_s t_e]. split; auto. split; auto. tauto.
    + set (p0 := PState _ _ _ _ _ _ _).
      destruct (subdivide_spec pt_dim xpt_dim n_point s (e - s + 1) Hd Hxd ltac:(lia) ltac:(lia) ltac:(lia) bx p0 Hb Hc Hz)
        as (cs & p1 & tau & E1 & C1 & C2 & T1 & T2 & M1 & M2 & M3 & C3 & C4).
      rewrite E1. cbn [bind]. replace (s + (e - s + 1) - 1) with e in * by lia.
      destruct (visit_spec (level + 1) (bisect fuel pt_dim xpt_dim n_point mls mlp (level + 1)) s e cs C1 p1) as (r & Er & Hr).
      { intros. apply IH. auto. }
      { eapply (moved_coord_init tau s e); eauto; lia. }
      { apply T2. } { lia. } { lia. }
      { intros a b bx' Hi. destruct (C3 a b bx' Hi) as [B1 B2]. split; auto. intros q Hq.
        destruct (chain_bounds _ _ _ C1) as [_ Hcb]. specialize (Hcb _ _ _ Hi).
        eapply Hsub; [exact Hb|exact B1| |apply B2; auto].
        destruct (moved_preimage tau s e p0 p1 q ltac:(lia) ltac:(lia) T1 T2 ltac:(lia)) as (q0 & Hq0 & Eq).
        apply (Hext _ (pt (p_coord p) n_point q0)); [|apply Hin; auto]. intros j Hj. symmetry. apply Eq. lia. }
      rewrite Er. cbn [bind]. destruct r as [[ts p2]|]; [|eexists; split; [reflexivity|]; intros; discriminate].
      eexists. split; [reflexivity|]. intros t p' E. injection E as <- <-.
      destruct (Hr ts p2 eq_refl) as (((tau2 & U1 & U2) & G & N1 & N2 & N3) & Hlen).
      rewrite fold_nnode, fold_height by lia. pose proof (proj2 (gt_nnode mc _) _ _ _ _ _ G) as (G1 & G2 & G3).
      assert (Hne : ts <> []). { intros ->. inversion G. lia. }
      rewrite (Z.max_r 0) by lia.
      rewrite M2 in *. replace (p_po p2) with (p_po p + tnn ts) by (simpl in N1; lia). rewrite <- Hlen.
      split; [|split; [|split; [|split; [|split]]]]; cbn [p_coord p_ctmp p_idx p_itmp p_maxlevel p_po p_nleaf t_box t_nnode t_height].
      * exists (fun i => tau2 (tau i)). split; [apply permutes_comp; auto|].
        assert (mvd (fun i => tau2 (tau i)) p0 p2) as (W1 & W2 & W3).
        { apply (moved_trans tau tau2 p0 p1 p2); auto. apply (perm_in_range s e); auto; lia. }
        split; [|split]; auto.
      * constructor; auto.
        { rewrite Hlen. auto. } { lia. }
        unfold node_ok; cbn [t_box t_nchild t_s t_e]. split; auto. split.
        { rewrite Esm. split; [|discriminate]. intros Hl. destruct ts; [congruence|]. rewrite zlen_cons in Hl. pose proof (zlen_nonneg ts). lia. }
        intros q Hq.
        destruct (moved_preimage tau2 s e p1 p2 q ltac:(lia) ltac:(lia) U1 U2 Hq) as (q1 & Hq1 & Eq1).
        destruct (moved_preimage tau s e p0 p1 q1 ltac:(lia) ltac:(lia) T1 T2 Hq1) as (q0 & Hq0 & Eq0).
        apply (Hext _ (pt (p_coord p) n_point q0)); [|apply Hin; auto]. intros j Hj. rewrite Eq1, Eq0 by lia. reflexivity.
      * auto.
      * lia.
      * cbn [leaves t_children]. destruct ts; [congruence|]. rewrite N2, M3. reflexivity.
      * rewrite N3, M1. destruct ts; [congruence|]. unfold p0; cbn [p_maxlevel].
        destruct (Z.ltb_spec (p_maxlevel p) level); lia.
Qed.

(** ** Termination *)

(** Box width in dimension 0 after [k] subdivisions. *)
Fixpoint width (k : nat) (w : F) : F :=
  match k with O => w | S k' => width k' (nadd (nmul (nlit (1#2)) w) (nlit (e10 2 12))) end.
Definition widths (k : nat) (bx : mem F) (j : Z) : F := width k (vd bx (pt_dim + j)).

(** A property of the coordinates that moving points preserves. *)
Context (Cinv : mem F -> Prop).
Hypothesis Hcinv : forall tau p p', permutes 0 (n_point - 1) tau -> mvd tau p p' -> Cinv (p_coord p) -> Cinv (p_coord p').

(** After [k] subdivisions every node is small. *)
Definition small_after (k : nat) (bx : mem F) : Prop :=
  forall b coord s e, (forall j, 0 <= j < pt_dim -> vd b (pt_dim + j) = widths k bx j) -> Cinv coord ->
    0 <= s <= e -> e < n_point -> (forall q, s <= q <= e -> inbox b (pt coord n_point q)) -> small s e b = true.

Lemma bisect_terminates : forall k fuel level s e bx p, (k < fuel)%nat -> pre s e bx p -> Cinv (p_coord p) ->
  small_after k bx -> exists t p', bis fuel level s e bx p = Some (Some (t, p')).
Proof.
  unfold bis. induction k as [|k IH]; intros fuel level s e bx p Hk Hpre HC Hsm; destruct fuel as [|fuel]; try lia;
    pose proof Hpre as (Hc & Hz & Hb & Hs & He & Hin).
  - cbn [bisect]. cbv zeta. cbn [p_coord p_ctmp p_idx p_itmp p_maxlevel p_po p_nleaf].
    rewrite (box_vd pt_dim bx pt_dim Hb) by lia. cbn [bind]. fold (small s e bx).
    assert (E : small s e bx = true) by (apply (Hsm bx (p_coord p)); auto). rewrite E. eauto.
  - cbn [bisect]. cbv zeta. cbn [p_coord p_ctmp p_idx p_itmp p_maxlevel p_po p_nleaf].
    rewrite (box_vd pt_dim bx pt_dim Hb) by lia. cbn [bind]. fold (small s e bx).
    destruct (small s e bx) eqn:Esm; [eauto|].
    set (p0 := PState _ _ _ _ _ _ _).
    destruct (subdivide_spec pt_dim xpt_dim n_point s (e - s + 1) Hd Hxd ltac:(lia) ltac:(lia) ltac:(lia) bx p0 Hb Hc Hz)
        as (cs & p1 & tau & E1 & C1 & C2 & T1 & T2 & M1 & M2 & M3 & C3 & C4).
    rewrite E1. cbn [bind]. replace (s + (e - s + 1) - 1) with e in * by lia.
    assert (Hw : forall a b bx', In (a, b, bx') cs -> boxi bx' /\ (forall q, a <= q <= b -> inbox bx' (pt (p_coord p1) n_point q)) /\ small_after k bx').
    { intros a b bx' Hi. destruct (C3 a b bx' Hi) as [B1 B2].
      destruct (chain_bounds _ _ _ C1) as [_ Hcb]. specialize (Hcb _ _ _ Hi). split; auto. split.
      - intros q Hq. eapply Hsub; [exact Hb|exact B1| |apply B2; auto].
        destruct (moved_preimage tau s e p0 p1 q ltac:(lia) ltac:(lia) T1 T2 ltac:(lia)) as (q0 & Hq0 & Eq).
        apply (Hext _ (pt (p_coord p) n_point q0)); [|apply Hin; auto]. intros j Hj. symmetry. apply Eq. lia.
      - intros b2 co s2 e2 Hb2. apply Hsm. intros j Hj. rewrite Hb2 by auto. unfold widths. cbn [width].
        destruct (B2 a ltac:(lia) j Hj) as [_ ->]. reflexivity. }
    assert (HC1 : Cinv (p_coord p1)). { apply (Hcinv tau p0 p1); auto. apply (permutes_widen s e); auto; lia. }
    assert (Hco1 : coi (p_coord p1)) by (eapply (moved_coord_init tau s e p0 p1); eauto; lia).
    assert (Hsz1 : szok p1) by apply T2.
    clear E1 C2 C3 C4 M1 M2 M3 T1 T2.
    assert (exists ts p2, visit_children (bisect fuel pt_dim xpt_dim n_point mls mlp (level + 1)) cs p1 = Some (Some (ts, p2))) as (ts & p2 & Ev).
    { assert (Hse : 0 <= s) by lia. clear Hs Esm Hin Hpre. clearbody p0. clear p0.
      revert p1 Hw HC1 Hco1 Hsz1. induction C1 as [a|a m b bx' l Ham Hch IHc]; intros p1 Hw HC1 Hco1 Hsz1.
      - exists [], p1. reflexivity.
      - cbn [visit_children]. destruct (chain_bounds _ _ _ Hch) as [Hcb Hcb2].
        destruct (Hw a m bx' ltac:(now left)) as (W1 & W2 & W3).
        assert (Hpre1 : pre a m bx' p1). { repeat (split; [solve [auto; lia]|]). auto. }
        destruct (IH fuel (level + 1) a m bx' p1 ltac:(lia) Hpre1 HC1 W3) as (t & p2 & Et). rewrite Et. cbn [bind].
        destruct (bisect_spec fuel (level + 1) a m bx' p1 Hpre1) as (r & Er & Hr). unfold bis in Er. rewrite Et in Er. injection Er as <-.
        destruct (Hr t p2 eq_refl) as ((tau2 & U1 & U2) & _).
        destruct (IHc He ltac:(lia) p2) as (ts & p3 & E3).
        + intros a' b' bx2 Hi. destruct (Hw a' b' bx2 ltac:(now right)) as (V1 & V2 & V3). split; auto. split; auto.
          intros q Hq. specialize (Hcb2 _ _ _ Hi). apply (Hext _ (pt (p_coord p1) n_point q)); [|auto].
          intros j Hj. symmetry. eapply (moved_outside tau2 a m); eauto; lia.
        + apply (Hcinv tau2 p1 p2); auto. apply (permutes_widen a m); auto; lia.
        + eapply (moved_coord_init tau2 a m p1 p2); eauto; lia.
        + apply U2.
        + rewrite E3. cbn [bind]. eauto. }
    rewrite Ev. cbn [bind]. eauto.
Qed.

(** ** Non-termination for coincident points *)
Lemma bisect_coincident (W : F -> Prop) : (forall w, W w -> W (nadd (nmul (nlit (1#2)) w) (nlit (e10 2 12)))) ->
  (forall w, W w -> nle w mls = false) ->
  forall fuel level s e bx (p : pstate F), coi (p_coord p) -> szok p -> boxi bx -> 0 <= s <= e -> e < n_point -> mlp < e - s + 1 -> W (vd bx pt_dim) ->
    (forall q q' j, s <= q <= e -> s <= q' <= e -> 0 <= j < pt_dim -> pt (p_coord p) n_point q j = pt (p_coord p) n_point q' j) ->
    bisect fuel pt_dim xpt_dim n_point mls mlp level s e bx p = Some None.
Proof.
  intros HW1 HW2. induction fuel as [|fuel IH]; intros level s e bx p Hc Hz Hb Hs He Hm HW Heq; [reflexivity|].
  cbn [bisect]. cbv zeta. cbn [p_coord p_ctmp p_idx p_itmp p_maxlevel p_po p_nleaf].
  rewrite (box_vd pt_dim bx pt_dim Hb) by lia. cbn [bind]. rewrite (HW2 _ HW).
  destruct (Z.leb_spec (e - s + 1) mlp); [lia|]. cbn [orb].
  set (p0 := PState _ _ _ _ _ _ _).
  destruct (subdivide_spec pt_dim xpt_dim n_point s (e - s + 1) Hd Hxd ltac:(lia) ltac:(lia) ltac:(lia) bx p0 Hb Hc Hz)
    as (cs & p1 & tau & E1 & C1 & C2 & T1 & T2 & M1 & M2 & M3 & C3 & C4).
  rewrite E1. cbn [bind]. replace (s + (e - s + 1) - 1) with e in * by lia.
  assert (Heq1 : forall q q' j, s <= q <= e -> s <= q' <= e -> 0 <= j < pt_dim -> pt (p_coord p1) n_point q j = pt (p_coord p1) n_point q' j).
  { intros q q' j Hq Hq' Hj. destruct (moved_preimage tau s e p0 p1 q ltac:(lia) ltac:(lia) T1 T2 Hq) as (k & Hk & Ek).
    destruct (moved_preimage tau s e p0 p1 q' ltac:(lia) ltac:(lia) T1 T2 Hq') as (k' & Hk' & Ek'). rewrite Ek, Ek' by lia. apply Heq; auto. }
  inversion C1 as [a|a m b bx' l Ham Hch]; subst; [lia|].
  destruct (chain_bounds _ _ _ Hch) as [Hcb Hcb2].
  assert (l = []).
  { inversion Hch as [|a' m' b' bx2 l2 Ham2 Hch2]; auto. subst. exfalso. destruct (chain_bounds _ _ _ Hch2) as [Hcb3 _].
    assert (s = m + 1); [|lia].
    apply (C4 s m bx' (m + 1) m' bx2 s (m + 1)); try lia; [now left|right; now left|]. intros j Hj. apply Heq1; lia. }
  subst l. inversion Hch. cbn [visit_children].
  destruct (C3 s m bx' ltac:(now left)) as [B1 B2].
  rewrite IH; auto; try lia.
  - eapply (moved_coord_init tau s e p0 p1); eauto; lia.
  - apply T2.
  - destruct (B2 s ltac:(lia) 0 ltac:(lia)) as [_ E]. rewrite !Z.add_0_r in E. rewrite E. auto.
  - intros q q' j Hq Hq' Hj. apply Heq1; lia.
Qed.

End Tree.
