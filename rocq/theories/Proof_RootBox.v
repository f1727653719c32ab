(** The enclosing box of the root, and exact containment over the rationals. *)
From Coq Require Import ZArith QArith Qabs Qminmax List Lia Lqa Bool Permutation.
From Verif Require Import Base Mem Num Proof_Bucket Model_Partition Proof_Partition.
Import ListNotations.
Open Scope Z_scope.

Section Root.
Context {F : num} (pt_dim xpt_dim n_point : Z).
Hypothesis Hd : 1 <= pt_dim.
Hypothesis Hxd : pt_dim <= xpt_dim.
Hypothesis Hn : 1 <= n_point.
Context (coord : mem F).
Hypothesis Hco : coord_init xpt_dim n_point coord.
Context (le : F -> F -> Prop).
Hypothesis le_refl : forall a, le a a.
Hypothesis le_trans : forall a b c, le a b -> le b c -> le a c.
Hypothesis le_maxl : forall a b, le a (nmax a b).
Hypothesis le_maxr : forall a b, le b (nmax a b).

Let x i j := ptof coord n_point i j.

Lemma sum_dim_ok j a : 0 <= j < xpt_dim -> exists v, sum_dim coord n_point 0 (n_point - 1) j a = Some v.
Proof.
  intros Hj. unfold sum_dim.
  match goal with |- context [zfor 0 ?h ?b a] => destruct (zfor_inv (fun _ (_ : F) => True) 0 h b a) as (v & E & _) end; eauto; try lia.
  intros i t Hi _. rewrite (coord_vd xpt_dim n_point 0 n_point ltac:(lia) ltac:(lia) ltac:(lia) coord) by (auto; lia). cbn [bind]. eauto.
Qed.

Lemma maxdev_dim_ok j c a : 0 <= j < xpt_dim -> exists v, maxdev_dim coord n_point 0 (n_point - 1) j c a = Some v /\
  le a v /\ forall i, 0 <= i < n_point -> le (nabs (nsub (x i j) c)) v.
Proof.
  intros Hj. unfold maxdev_dim.
  match goal with |- context [zfor 0 ?h ?b a] => destruct (zfor_inv (fun k (v : F) => le a v /\ forall i, 0 <= i < k -> le (nabs (nsub (x i j) c)) v) 0 h b a) as (v & E & P1 & P2) end.
  - lia. - split; auto. intros; lia.
  - intros i t Hi [P1 P2]. rewrite (coord_vd xpt_dim n_point 0 n_point ltac:(lia) ltac:(lia) ltac:(lia) coord) by (auto; lia). cbn [bind].
    eexists. split; [reflexivity|]. split; [eauto|]. intros i' Hi'. destruct (Z.eq_dec i' i) as [->|]; [apply le_maxr|].
    eapply le_trans; [apply P2; lia|]. auto.
  - exists v. split; auto. split; auto. intros; apply P2; lia.
Qed.

Lemma max_dev_ok (c : mem F) : zlen c = pt_dim -> (forall j, 0 <= j < pt_dim -> exists v, ld c j = Some v) ->
  exists v, max_dev coord c n_point 0 (n_point - 1) pt_dim = Some v /\
    forall i j, 0 <= i < n_point -> 0 <= j < pt_dim -> le (nabs (nsub (x i j) (vd c j))) v.
Proof.
  intros Zc Lc. unfold max_dev.
  match goal with |- context [zfor 0 ?h ?b ?a] => destruct (zfor_inv (fun k (v : F) => forall i j, 0 <= i < n_point -> 0 <= j < k -> le (nabs (nsub (x i j) (vd c j))) v) 0 h b a) as (v & E & P) end.
  - lia. - intros; lia.
  - intros j a Hj P. destruct (Lc j Hj) as [cj Ecj]. rewrite (ld_vd _ _ _ Ecj). cbn [bind].
    destruct (maxdev_dim_ok j (vd c j) a) as (v & E & P1 & P2); [lia|]. rewrite E. exists v. split; auto.
    intros i j' Hi Hj'. destruct (Z.eq_dec j' j) as [->|]; [auto|]. eapply le_trans; [apply P; lia|]. auto.
  - exists v. auto.
Qed.

(** Loops updating each cell of an array from its own value. *)
Lemma zmap_ok (g : Z -> F -> option F) (c : mem F) body n :
  (forall j (y : mem F), body j y = (a <- ld y j; b <- g j a; st y j b)) ->
  0 <= n <= zlen c -> (forall j, 0 <= j < n -> exists v, ld c j = Some v) ->
  (forall j a, 0 <= j < n -> exists b, g j a = Some b) ->
  exists c', zfor 0 n body c = Some c' /\ zlen c' = zlen c /\ forall j, 0 <= j < n -> exists v, ld c' j = Some v.
Proof.
  intros Hb Hz Lc Hg.
  destruct (zfor_inv (fun k (y : mem F) => zlen y = zlen c /\ forall j, 0 <= j < n -> exists v, ld y j = Some v) 0 n body c) as (y & E & P1 & P2).
  - lia. - auto.
  - intros j y Hj [P1 P2]. rewrite Hb. destruct (P2 j Hj) as [a Ea]. rewrite Ea. cbn [bind].
    destruct (Hg j a Hj) as [b Eb]. rewrite Eb. cbn [bind]. destruct (st_Some y j b ltac:(lia)) as [y' E]. exists y'. split; auto.
    split; [rewrite (st_zlen _ _ _ _ E); auto|]. intros j' Hj'. rewrite (ld_st _ _ _ _ _ E). destruct (Z.eqb_spec j j'); eauto.
  - exists y. auto.
Qed.

Lemma root_box_ok rnd : exists b c semi, root_box rnd coord n_point 0 (n_point - 1) pt_dim = Some b /\ box_init pt_dim b /\
  (forall i j, 0 <= i < n_point -> 0 <= j < pt_dim -> le (nabs (nsub (x i j) (c j))) semi) /\
  forall j, 0 <= j < pt_dim -> vd b j = nsub (nsub (c j) (nadd semi (nlit (e10 1 8)))) (nlit (e10 2 12)) /\
    vd b (pt_dim + j) = nadd (nmul (nlit 2) (nadd semi (nlit (e10 1 8)))) (nlit (e10 4 12)).
Proof.
  unfold root_box.
  destruct (zfill_spec (fun _ => nlit 0) (fun j (c : mem F) => st c j (nlit 0)) 0 pt_dim (alloc pt_dim)) as (c0 & E0 & Z0 & L0); auto; try lia.
  { rewrite zlen_alloc; lia. }
  rewrite E0. cbn [bind]. rewrite zlen_alloc in Z0 by lia.
  assert (I0 : forall j, 0 <= j < pt_dim -> exists v, ld c0 j = Some v).
  { intros j Hj. rewrite L0. destruct (Z.leb_spec 0 j), (Z.ltb_spec j pt_dim); simpl; eauto; lia. }
  match goal with |- context [zfor 0 pt_dim ?b c0] => destruct (zmap_ok (fun j a => sum_dim coord n_point 0 (n_point - 1) j a) c0 b pt_dim) as (c1 & E1 & Z1 & I1) end; auto; try lia.
  { intros j a Hj. apply sum_dim_ok. lia. }
  rewrite E1. cbn [bind]. cbv zeta.
  match goal with |- context [zfor 0 pt_dim ?b c1] => destruct (zmap_ok (fun j a => Some (ndiv a (nlit (inject_Z (n_point - 1 - 0 + 1))))) c1 b pt_dim) as (c2 & E2 & Z2 & I2) end; auto; try lia.
  { eauto. }
  rewrite E2. cbn [bind]. destruct (max_dev_ok c2 ltac:(lia) I2) as (m1 & Em1 & _). rewrite Em1. cbn [bind].
  match goal with |- context [zfor 0 pt_dim ?b c2] => match b with (fun j c => bind _ (fun a => st _ _ (@?f j a))) =>
     destruct (zmap_ok (fun j a => Some (f j a)) c2 b pt_dim) as (c3 & E3 & Z3 & I3) end end; auto; try lia.
  { eauto. }
  rewrite E3. cbn [bind]. destruct (max_dev_ok c3 ltac:(lia) I3) as (m2 & Em2 & Hm2). rewrite Em2. cbn [bind].
  match goal with |- context [zfor 0 pt_dim ?b ?init] =>
    destruct (zfor_inv (fun j (x : mem F) => zlen x = pt_dim * 2 /\ forall j', 0 <= j' < j ->
       ld x j' = Some (nsub (nsub (vd c3 j') (nadd m2 (nlit (e10 1 8)))) (nlit (e10 2 12))) /\
       ld x (pt_dim + j') = Some (nadd (nmul (nlit 2) (nadd m2 (nlit (e10 1 8)))) (nlit (e10 4 12)))) 0 pt_dim b init) as (y & E & P1 & P2) end.
  - lia.
  - split; [rewrite zlen_alloc; lia|]. intros; lia.
  - intros j y Hj [P1 P2]. destruct (I3 j Hj) as [a Ea]. rewrite (ld_vd _ _ _ Ea). cbn [bind]. sto y1 E4. { lia. }
    match goal with |- exists t', st y1 ?i ?v = _ /\ _ => destruct (st_Some y1 i v) as [y2 E5] end.
    { rewrite (st_zlen _ _ _ _ E4). lia. }
    exists y2. split; auto. split; [rewrite (st_zlen _ _ _ _ E5), (st_zlen _ _ _ _ E4); auto|].
    intros j' Hj'. rewrite !(ld_st _ _ _ _ _ E5), !(ld_st _ _ _ _ _ E4).
    destruct (Z.eqb_spec (pt_dim + j) j'); [lia|]. destruct (Z.eqb_spec j (pt_dim + j')); [lia|].
    destruct (Z.eq_dec j j').
    + subst j'. rewrite !Z.eqb_refl. auto.
    + destruct (Z.eqb_spec j j'); [lia|]. destruct (Z.eqb_spec (pt_dim + j) (pt_dim + j')); [lia|]. apply P2. lia.
  - exists y, (vd c3), m2. split; auto. split.
    + split; auto. intros k Hk. destruct (Z_lt_dec k pt_dim).
      * destruct (P2 k ltac:(lia)) as [-> _]. eauto.
      * destruct (P2 (k - pt_dim) ltac:(lia)) as [_ H]. replace (pt_dim + (k - pt_dim)) with k in H by lia. rewrite H. eauto.
    + split; auto. intros j Hj. destruct (P2 j Hj) as [H1 H2]. split; unfold vd at 1; [rewrite H1|rewrite H2]; auto.
Qed.

End Root.

(** ** Exact arithmetic *)

(** Point [x] lies in the box with corner b_0.. and widths b_pt_dim.. . *)
Definition inboxQ (pt_dim : Z) (b : mem Qnum) (x : Z -> Qnum) : Prop :=
  forall j, 0 <= j < pt_dim -> (vd b j <= x j)%Q /\ (x j <= vd b j + vd b (pt_dim + j))%Q.

Lemma inboxQ_ext d b x y : (forall j, 0 <= j < d -> x j = y j) -> inboxQ d b x -> inboxQ d b y.
Proof. intros E H j Hj. rewrite <- E by auto. auto. Qed.

Lemma Qnle_spec (a b : Q) : @nle Qnum a b = true <-> (a <= b)%Q.
Proof. apply Qle_bool_iff. Qed.

Lemma inboxQ_sub d b b' x : 1 <= d -> inboxQ d b x -> child_of d b x b' -> inboxQ d b' x.
Proof.
  intros Hd H C j Hj. destruct (H j Hj) as [H1 H2]. destruct (C j Hj) as [C1 C2]. rewrite C1, C2. clear C1 C2.
  unfold side. cbn [nlit nadd nsub nmul Qnum].
  destruct (nle _ _) eqn:E; [apply Qnle_spec in E|].
  - cbn [nlit nadd nsub nmul Qnum] in E. change (inject_Z 1) with 1%Q. unfold e10. change (10 ^ 12)%positive with 1000000000000%positive.
    set (xx := x j : Q) in *. set (cc := vd b j : Q) in *. set (ww := vd b (d + j) : Q) in *. clearbody xx cc ww. clear H C. cbn in *. lra.
  - assert (~ (vd b (d + j) <= 2 * (x j - vd b j))%Q) as E'. { intros T. apply (proj2 (Qnle_spec _ _)) in T. cbn [nlit nadd nsub nmul Qnum] in E. congruence. }
    change (inject_Z 0) with 0%Q. unfold e10. change (10 ^ 12)%positive with 1000000000000%positive.
    set (xx := x j : Q) in *. set (cc := vd b j : Q) in *. set (ww := vd b (d + j) : Q) in *. clearbody xx cc ww. clear H C E. cbn in *.
    apply Qnot_le_lt in E'. lra.
Qed.

Lemma Qmax_l (a b : Q) : (a <= @nmax Qnum a b)%Q.
Proof.
  unfold nmax. cbn [nlt Qnum]. destruct (Qle_bool a b) eqn:E; simpl; [|apply Qle_refl].
  apply Qle_bool_iff in E. auto.
Qed.
Lemma Qmax_r (a b : Q) : (b <= @nmax Qnum a b)%Q.
Proof.
  unfold nmax. cbn [nlt Qnum]. destruct (Qle_bool a b) eqn:E; simpl; [apply Qle_refl|].
  rewrite <- not_true_iff_false, Qle_bool_iff in E. apply Qnot_le_lt in E. lra.
Qed.

Lemma root_boxQ pt_dim xpt_dim n_point (coord : mem Qnum) rnd : 1 <= pt_dim -> pt_dim <= xpt_dim -> 1 <= n_point ->
  coord_init xpt_dim n_point coord ->
  exists b, root_box rnd coord n_point 0 (n_point - 1) pt_dim = Some b /\ box_init pt_dim b /\
    forall i, 0 <= i < n_point -> inboxQ pt_dim b (ptof coord n_point i).
Proof.
  intros H1 H2 H3 H4.
  destruct (root_box_ok pt_dim xpt_dim n_point H1 H2 H3 coord H4 Qle Qle_refl Qle_trans Qmax_l Qmax_r rnd) as (b & c & semi & E & I & M & B).
  exists b. split; auto. split; auto. intros i Hi j Hj. destruct (B j Hj) as [-> ->]. specialize (M i j Hi Hj).
  cbn [nlit nadd nsub nmul nabs Qnum] in *. apply Qabs_Qle_condition in M. unfold e10.
  change (10 ^ 12)%positive with 1000000000000%positive. change (10 ^ 8)%positive with 100000000%positive.
  set (xx := ptof coord n_point i j : Q) in *. set (cc := c j : Q) in *. set (ss := semi : Q) in *. clearbody xx cc ss. cbn in *. lra.
Qed.
