(** Proofs about the periodic block partition. *)
From Coq Require Import ZArith QArith List Lia Bool.
From Verif Require Import Base Mem Num Model_Partition Spec_Tree Spec_Partition Proof_Partition Proof_Bucket Model_Pairs Spec_Pairs Spec_Utils Proof_Utils Proof_Pairs Proof_PairsTop Spec_DagQueue.
Import ListNotations.
Open Scope Z_scope.

Section Per.
Context {F : num}.
Variables (pt_dim n_point n_node max_level n_leaf : Z) (a : tarrays F).
Hypothesis CT : cluster_tree pt_dim n_point n_node max_level n_leaf a.
Hypothesis Hpd : 1 <= pt_dim <= 4.
Hypothesis BX : boxes_set pt_dim n_node a.

Definition shift_is (sm : mem F) (shift : Z -> F) : Prop := forall j, 0 <= j < pt_dim -> ld sm j = Some (shift j).

Lemma has_shift_spec (sm : mem F) shift : shift_is sm shift ->
  exists h, has_shift pt_dim sm = Some h /\ (h = true <-> shifted pt_dim shift).
Proof.
  intros Hs. unfold has_shift, shifted.
  destruct (zfor_inv (fun i (h : bool) => h = true <-> exists j, 0 <= j < i /\ nlt (nlit (e10 1 10)) (nabs (shift j)) = true) 0 pt_dim
     (fun i (h : bool) => x <- ld sm i; Some (if nlt (nlit (e10 1 10)) (nabs x) then true else h)) false ltac:(lia)) as (h & E & Hh).
  - split; [discriminate|]. intros (j & ? & _). lia.
  - intros i h Hi Hh. rewrite (Hs i Hi). cbn [bind]. eexists; split; [reflexivity|].
    destruct (nlt (nlit (e10 1 10)) (nabs (shift i))) eqn:En.
    + split; [intros _|auto]. exists i. split; [lia|auto].
    + rewrite Hh. split; intros (j & Hj & B); exists j; (split; [|auto]); [lia|].
      destruct (Z.eq_dec j i) as [->|]; [|lia]. congruence.
  - exists h. auto.
Qed.

Lemma adm_test_per_spec alpha (sm : mem F) shift n0 n1 : shift_is sm shift -> 0 <= n0 < n_node -> 0 <= n1 < n_node ->
  exists b, adm_test_per pt_dim alpha sm a n0 n1 = Some b /\ (b = true <-> boxes_admissible_shifted pt_dim alpha shift a n0 n1).
Proof.
  intros Hs H0 H1. unfold adm_test_per.
  assert (HB : forall k, 0 <= k < pt_dim * 2 -> exists v, ld (a_box a) (n1 * pt_dim * 2 + k) = Some v).
  { intros k Hk. rewrite <- Z.mul_assoc. apply BX; auto. }
  destruct (mcpy_spec (alloc 8 : mem F) 0 (a_box a) (n1 * pt_dim * 2) (pt_dim * 2)) as (sb & Eb & Lb & Gb); [lia|lia|rewrite zlen_alloc; lia|nia| |].
  { destruct (HB (pt_dim * 2 - 1) ltac:(lia)) as (v & E). apply ld_range in E. lia. }
  rewrite Eb. cbn [bind].
  assert (Gb' : forall k, 0 <= k < pt_dim * 2 -> ld sb k = ld (a_box a) (n1 * pt_dim * 2 + k)).
  { intros k Hk. unfold ld. rewrite Gb. replace (0 <=? k) with true by lia. replace (k <? 0 + pt_dim * 2) with true by lia. cbn [andb]. now replace (k - 0) with k by lia. }
  rewrite zlen_alloc in Lb by lia.
  destruct (zfor_inv (fun i (m : mem F) => zlen m = 8 /\ forall k, 0 <= k < pt_dim * 2 ->
      if k <? i then exists x, ld (a_box a) (n1 * pt_dim * 2 + k) = Some x /\ ld m k = Some (nadd x (shift k)) else ld m k = ld (a_box a) (n1 * pt_dim * 2 + k))
     0 pt_dim (fun i (sb : mem F) => x <- ld sb i; d <- ld sm i; st sb i (nadd x d)) sb ltac:(lia)) as (sb' & Es & Ls & Gs).
  - split; [auto|]. intros k Hk. replace (k <? 0) with false by lia. auto.
  - intros i m Hi (Lm & Gm). pose proof (Gm i ltac:(lia)) as G. rewrite Z.ltb_irrefl in G. destruct (HB i ltac:(lia)) as (x & Ex). rewrite G, Ex. cbn [bind].
    rewrite (Hs i Hi). cbn [bind]. destruct (st_Some m i (nadd x (shift i)) ltac:(lia)) as (m' & Em'). exists m'. split; [auto|].
    split; [erewrite st_zlen; eauto|]. intros k Hk. rewrite (ld_st _ _ _ _ k Em'). specialize (Gm k Hk).
    destruct (Z.ltb_spec k (i + 1)), (Z.eqb_spec i k); try lia.
    + subst k. exists x. auto. + replace (k <? i) with true in Gm by lia. auto. + replace (k <? i) with false in Gm by lia. auto.
  - rewrite Es. cbn [bind]. destruct (check_box_spec (a_box a) sb' (n0 * pt_dim * 2) 0 pt_dim alpha) as (b & Ec & Hb); [lia| | |].
    { intros k Hk. rewrite <- Z.mul_assoc. apply BX; auto. }
    { intros k Hk. specialize (Gs k Hk). rewrite Z.add_0_l. destruct (k <? pt_dim). { destruct Gs as (x & _ & G). eauto. } rewrite Gs. auto. }
    exists b. split; [auto|]. rewrite Hb. unfold boxes_admissible_shifted. rewrite <- !Z.mul_assoc.
    split.
    + intros (j & c0 & w0 & c1 & w1 & Hj & E1 & E2 & E3 & E4 & S). rewrite Z.add_0_l in E3, E4.
      pose proof (Gs j ltac:(lia)) as G1. replace (j <? pt_dim) with true in G1 by lia. destruct G1 as (x & Ex & G1).
      pose proof (Gs (pt_dim + j) ltac:(lia)) as G2. replace (pt_dim + j <? pt_dim) with false in G2 by lia. rewrite <- !Z.mul_assoc in *.
      exists j, c0, w0, x, w1. rewrite <- G2. replace (nadd x (shift j)) with c1 by congruence. repeat split; auto; lia.
    + intros (j & c0 & w0 & c1 & w1 & Hj & E1 & E2 & E3 & E4 & S).
      pose proof (Gs j ltac:(lia)) as G1. replace (j <? pt_dim) with true in G1 by lia. destruct G1 as (x & Ex & G1).
      pose proof (Gs (pt_dim + j) ltac:(lia)) as G2. replace (pt_dim + j <? pt_dim) with false in G2 by lia. rewrite <- !Z.mul_assoc in *.
      exists j, c0, w0, (nadd c1 (shift j)), w1. rewrite !Z.add_0_l, G2. replace x with c1 in G1 by congruence. repeat split; auto; lia.
Qed.

Definition tr_ok (alpha : F) (shift : Z -> F) (l : Z) (t : bool * (Z * Z * Z)) : Prop :=
  let '(adm, (n0, n1, k)) := t in
  k = l /\ 0 <= n0 < n_node /\ 0 <= n1 < n_node /\ levels_fit a n0 n1 /\
  (adm = false -> is_leaf a n0 /\ is_leaf a n1) /\
  exists x y, ((x, y) = (n0, n1) \/ (~ shifted pt_dim shift /\ (x, y) = (n1, n0))) /\
    (adm = true <-> boxes_admissible_shifted pt_dim alpha shift a x y).

Lemma levels_fit_sym n0 n1 : levels_fit a n0 n1 -> levels_fit a n1 n0.
Proof. intros (l0 & l1 & E0 & E1 & H). exists l1, l0. split; [auto|]. split; [auto|]. intuition. Qed.

Lemma cov_per_hs l evs lat p q : coverage_per a (flat_map (per_triples true l) evs) lat p q = if lat =? l then cov a evs (p, q) else 0.
Proof.
  induction evs as [|[b [n0 n1]] evs IH]. { destruct (lat =? l); reflexivity. }
  unfold coverage_per, cov in *. cbn [flat_map per_triples app]. rewrite !zcount_cons, IH. rewrite (Z.eqb_sym l lat). destruct (lat =? l); cbn [fst snd andb]; lia.
Qed.

Lemma cov_per_ns l evs lat p q : coverage_per a (flat_map (per_triples false l) evs) lat p q = if lat =? l then cov a evs (p, q) + cov a evs (q, p) else 0.
Proof.
  induction evs as [|[b [n0 n1]] evs IH]. { destruct (lat =? l); reflexivity. }
  unfold coverage_per, cov in *. cbn [flat_map per_triples app]. rewrite !zcount_cons, IH. rewrite (Z.eqb_sym l lat). destruct (lat =? l); cbn [fst snd andb]; [|lia].
  rewrite (andb_comm (owns a n1 p)). lia.
Qed.

Lemma pairs_per_spec alpha (sm : mem F) shift l fuel : shift_is sm shift -> 2 * n_node <= Z.of_nat fuel ->
  exists ts, pairs_per fuel pt_dim alpha sm l n_node a = Some ts /\
    (forall t, In t ts -> tr_ok alpha shift l t) /\
    (forall p q lat, 0 <= p < n_point -> 0 <= q < n_point ->
       (lat <> l -> coverage_per a ts lat p q = 0) /\
       (shifted pt_dim shift -> coverage_per a ts l p q = 1) /\
       (~ shifted pt_dim shift -> same_leaf a n_node p q -> coverage_per a ts l p q = 0) /\
       (~ shifted pt_dim shift -> ~ same_leaf a n_node p q -> coverage_per a ts l p q = 1)).
Proof.
  intros Hs Hf. unfold pairs_per. destruct (has_shift_spec sm shift Hs) as (h & Eh & Hh). rewrite Eh. cbn [bind].
  rewrite shiftl_pow by lia. pose proof (root_node _ _ _ _ _ _ CT) as Hr.
  assert (TT : forall n0 n1, 0 <= n0 < n_node -> 0 <= n1 < n_node -> exists b, adm_test_per pt_dim alpha sm a n0 n1 = Some b).
  { intros n0 n1 H0 H1. destruct (adm_test_per_spec alpha sm shift n0 n1 Hs H0 H1) as (b & E & _). eauto. }
  assert (TT2 : forall n0 n1 b, 0 <= n0 < n_node -> 0 <= n1 < n_node -> adm_test_per pt_dim alpha sm a n0 n1 = Some b -> (b = true <-> boxes_admissible_shifted pt_dim alpha shift a n0 n1)).
  { intros n0 n1 b H0 H1 Eb. destruct (adm_test_per_spec alpha sm shift n0 n1 Hs H0 H1) as (b' & E & Hb). assert (b' = b) by congruence. subst. auto. }
  destruct h; cbn [negb].
  - destruct (walk_pair pt_dim n_point n_node max_level n_leaf a CT false (adm_test_per pt_dim alpha sm a) TT fuel (n_node - 1) (n_node - 1)) as (evs & Ew & W1 & W2); try lia.
    { destruct (ct_root _ _ _ _ _ _ CT) as (_ & _ & nc & D). exists 0, 0. split; [apply D|]. split; [apply D|auto]. }
    rewrite Ew. cbn [bind]. eexists. split; [reflexivity|]. split.
    + intros t Ht. apply in_flat_map in Ht as ([b [n0 n1]] & Hin & Ht). destruct Ht as [<-|[]]. destruct (W1 _ Hin) as (V0 & V1 & V2 & V3 & V4 & _).
      simpl. repeat (split; [first [reflexivity|exact V0|exact V1|exact V2|exact V4]|]). exists n0, n1. split; [auto|]. eapply TT2; eauto.
    + intros p q lat Hp Hq. rewrite !cov_per_hs, Z.eqb_refl. split; [|split; [|split]].
      * intros Hl. destruct (Z.eqb_spec lat l); [lia|auto].
      * intros _. rewrite W2. cbn [fst snd]. now rewrite !(root_owns _ _ _ _ _ _ CT).
      * intros N. exfalso. apply N. apply Hh. auto.
      * intros N. exfalso. apply N. apply Hh. auto.
  - assert (NS : ~ shifted pt_dim shift) by (intros X; apply Hh in X; discriminate).
    destruct (walk_self pt_dim n_point n_node max_level n_leaf a CT true (adm_test_per pt_dim alpha sm a) TT) with (fuel := fuel) (n := n_node - 1) as (evs & Ew & W1 & W2 & W3); [auto|lia|lia|].
    rewrite Ew. cbn [bind]. eexists. split; [reflexivity|]. split.
    + intros t Ht. apply in_flat_map in Ht as ([b [n0 n1]] & Hin & Ht). destruct (W1 _ Hin) as (V0 & V1 & V2 & V3 & V4 & _). destruct Ht as [<-|[<-|[]]].
      * simpl. repeat (split; [first [reflexivity|exact V0|exact V1|exact V2|exact V4]|]). exists n0, n1. split; [auto|]. eapply TT2; eauto.
      * simpl. apply levels_fit_sym in V2. assert (V4' : b = false -> is_leaf a n1 /\ is_leaf a n0) by (intros; destruct V4; auto).
        repeat (split; [first [reflexivity|exact V0|exact V1|exact V2|exact V4']|]). exists n0, n1. split; [auto|]. eapply TT2; eauto.
    + intros p q lat Hp Hq. rewrite !cov_per_ns, Z.eqb_refl. split; [|split; [|split]].
      * intros Hl. destruct (Z.eqb_spec lat l); [lia|auto].
      * tauto.
      * intros _ Hsl. apply (W2 (p, q)); auto. split; auto.
      * intros _ Hsl. change (scov a evs (p, q) = 1). rewrite (W3 (p, q)) by (auto; split; auto). cbn [fst snd]. now rewrite !(root_owns _ _ _ _ _ _ CT).
Qed.

Variables (n_lattice : Z) (lattices : mem F).
Hypothesis Hnl : 0 <= n_lattice.
Hypothesis Hlat : filled lattices (n_lattice * pt_dim).

Lemma cell_lat l j : 0 <= l < n_lattice -> 0 <= j < pt_dim -> exists v, ld lattices (l * pt_dim + j) = Some v.
Proof. intros Hl Hj. apply Hlat. nia. Qed.

Definition wroot j := match ld (a_box a) ((n_node - 1) * (pt_dim * 2) + (pt_dim + j)) with Some v => v | None => nlit 0 end.
Definition latv l j := match ld lattices (l * pt_dim + j) with Some v => v | None => nlit 0 end.
Lemma wroot_ld j : 0 <= j < pt_dim -> ld (a_box a) ((n_node - 1) * (2 * pt_dim) + pt_dim + j) = Some (wroot j).
Proof.
  intros Hj. replace ((n_node - 1) * (2 * pt_dim) + pt_dim + j) with ((n_node - 1) * (pt_dim * 2) + (pt_dim + j)) by lia.
  unfold wroot. destruct (BX (n_node - 1) (pt_dim + j)) as (v & ->); [apply (root_node _ _ _ _ _ _ CT)|lia|auto].
Qed.
Lemma latv_ld l j : 0 <= l < n_lattice -> 0 <= j < pt_dim -> ld lattices (l * pt_dim + j) = Some (latv l j).
Proof. intros Hl Hj. unfold latv. destruct (cell_lat l j Hl Hj) as (v & ->). auto. Qed.

Definition lshift l j : F := nmul (wroot j) (latv l j).
Lemma lshift_is l : 0 <= l < n_lattice -> is_lattice_shift pt_dim lattices n_node a l (lshift l).
Proof.
  intros Hl j Hj. exists (wroot j), (latv l j). split; [|split; [apply latv_ld; auto|reflexivity]].
  rewrite <- wroot_ld by auto. f_equal. lia.
Qed.

Lemma all_pairs_spec alpha fuel : 2 * n_node <= Z.of_nat fuel ->
  exists ts, all_pairs_per fuel pt_dim alpha n_lattice lattices n_node a = Some ts /\
    (forall t, In t ts -> exists l, 0 <= l < n_lattice /\ tr_ok alpha (lshift l) l t) /\
    (forall l p q, 0 <= l < n_lattice -> 0 <= p < n_point -> 0 <= q < n_point ->
       (shifted pt_dim (lshift l) -> coverage_per a ts l p q = 1) /\
       (~ shifted pt_dim (lshift l) -> same_leaf a n_node p q -> coverage_per a ts l p q = 0) /\
       (~ shifted pt_dim (lshift l) -> ~ same_leaf a n_node p q -> coverage_per a ts l p q = 1)).
Proof.
  intros Hf. unfold all_pairs_per.
  match goal with |- context [zfor 0 n_lattice ?b ?init] =>
  destruct (zfor_inv (fun i ts => (forall t, In t ts -> exists l, 0 <= l < i /\ tr_ok alpha (lshift l) l t) /\
     (forall l p q, i <= l -> 0 <= p < n_point -> 0 <= q < n_point -> coverage_per a ts l p q = 0) /\
     (forall l p q, 0 <= l < i -> 0 <= p < n_point -> 0 <= q < n_point ->
       (shifted pt_dim (lshift l) -> coverage_per a ts l p q = 1) /\
       (~ shifted pt_dim (lshift l) -> same_leaf a n_node p q -> coverage_per a ts l p q = 0) /\
       (~ shifted pt_dim (lshift l) -> ~ same_leaf a n_node p q -> coverage_per a ts l p q = 1))) 0 n_lattice b init) as (ts & E & T1 & T2 & T3) end; auto.
  - split; [easy|]. split; [reflexivity|]. intros; lia.
  - intros i acc Hi (A1 & A2 & A3).
    destruct (zfill_spec (lshift i) (fun j (sh : mem F) =>
       w <- ld (a_box a) ((n_node - 1) * (2 * pt_dim) + pt_dim + j);
       v <- ld lattices (i * pt_dim + j);
       st sh j (nmul w v)) 0 pt_dim (alloc 8)) as (sm & Es & Ls & Gs); try lia.
    { intros j x Hj. rewrite wroot_ld, latv_ld by auto. reflexivity. }
    { rewrite zlen_alloc; lia. }
    rewrite Es. cbn [bind].
    destruct (pairs_per_spec alpha sm (lshift i) i fuel) as (m & Em & M1 & M2); auto.
    { intros j Hj. rewrite Gs. replace (0 <=? j) with true by lia. replace (j <? pt_dim) with true by lia. reflexivity. }
    rewrite Em. cbn [bind]. eexists. split; [reflexivity|].
    assert (CA : forall l p q, coverage_per a (acc ++ m) l p q = coverage_per a acc l p q + coverage_per a m l p q) by (intros; apply zcount_app).
    split; [|split].
    + intros t Ht. apply in_app_or in Ht as [Ht|Ht]. { destruct (A1 t Ht) as (l & ? & ?). exists l. split; [lia|auto]. } exists i. split; [lia|auto].
    + intros l p q Hl Hp Hq. rewrite CA, A2 by (auto; lia). rewrite (proj1 (M2 p q l Hp Hq)) by lia. reflexivity.
    + intros l p q Hl Hp Hq. destruct (Z.eq_dec l i) as [->|].
      * destruct (M2 p q i Hp Hq) as (_ & M3 & M4 & M5). rewrite CA, A2 by (auto; lia). rewrite Z.add_0_l. auto.
      * rewrite CA. rewrite (proj1 (M2 p q l Hp Hq)) by lia. rewrite Z.add_0_r. apply A3; auto; lia.
  - exists ts. auto.
Qed.

(** Unpacking. *)
Lemma unpack_spec ts : (forall n0 n1 l, In (n0, n1, l) ts -> 0 <= l < n_lattice) ->
  exists prs shifts, unpack_per pt_dim lattices n_node a ts = Some (prs, shifts) /\
    zlen prs = zlen ts * 2 /\ zlen shifts = zlen ts * pt_dim /\
    forall i n0 n1 l, getz ts i = Some (n0, n1, l) ->
      ld prs (i * 2 + 0) = Some n0 /\ ld prs (i * 2 + 1) = Some n1 /\
      forall j, 0 <= j < pt_dim -> ld shifts (i * pt_dim + j) = Some (lshift l j).
Proof.
  intros Hts. unfold unpack_per. pose proof (zlen_nonneg ts) as Hn.
  match goal with |- context [zfor 0 (zlen ts) ?b ?init] =>
  destruct (zfor_inv (fun k (x : mem Z * mem F) => zlen (fst x) = zlen ts * 2 /\ zlen (snd x) = zlen ts * pt_dim /\
    forall i n0 n1 l, 0 <= i < k -> getz ts i = Some (n0, n1, l) ->
      ld (fst x) (i * 2 + 0) = Some n0 /\ ld (fst x) (i * 2 + 1) = Some n1 /\
      forall j, 0 <= j < pt_dim -> ld (snd x) (i * pt_dim + j) = Some (lshift l j)) 0 (zlen ts) b init Hn) as ([prs shifts] & E & L1 & L2 & G) end.
  - cbn [fst snd]. rewrite !zlen_alloc by nia. split; [auto|]. split; [auto|]. intros; lia.
  - intros i [prs shifts] Hi (L1 & L2 & G). cbn [fst snd] in *.
    destruct (getz_in ts i Hi) as ([[n0 n1] l] & Et). rewrite Et. cbn [bind].
    pose proof (Hts _ _ _ (getz_In _ _ _ Et)) as Hl.
    destruct (st_Some prs (2 * i + 0) n0 ltac:(lia)) as (p1 & E1). rewrite E1. cbn [bind]. pose proof (st_zlen _ _ _ _ E1) as Z1.
    destruct (st_Some p1 (2 * i + 1) n1 ltac:(lia)) as (p2 & E2). rewrite E2. cbn [bind]. pose proof (st_zlen _ _ _ _ E2) as Z2.
    destruct (zfor_inv (fun k (sh : mem F) => zlen sh = zlen ts * pt_dim /\ (forall c, c < i * pt_dim -> ld sh c = ld shifts c) /\
       forall j, 0 <= j < k -> ld sh (i * pt_dim + j) = Some (lshift l j)) 0 pt_dim
       (fun j (sh : mem F) => w <- ld (a_box a) ((n_node - 1) * (2 * pt_dim) + pt_dim + j); v <- ld lattices (l * pt_dim + j); st sh (i * pt_dim + j) (nmul w v)) shifts ltac:(lia)) as (sh & Es & S1 & S2 & S3).
    + split; [auto|]. split; [auto|]. intros; lia.
    + intros j sh Hj (S1 & S2 & S3). rewrite wroot_ld, latv_ld by auto. cbn [bind].
      destruct (st_Some sh (i * pt_dim + j) (lshift l j)) as (sh' & Es'); [nia|]. exists sh'. split; [exact Es'|].
      split; [rewrite (st_zlen _ _ _ _ Es'); auto|]. split.
      * intros c Hc. rewrite (ld_st _ _ _ _ _ Es'). destruct (Z.eqb_spec (i * pt_dim + j) c); [lia|auto].
      * intros j' Hj'. rewrite (ld_st _ _ _ _ _ Es'). destruct (Z.eqb_spec (i * pt_dim + j) (i * pt_dim + j')). { replace j' with j by lia. auto. } apply S3. lia.
    + rewrite Es. cbn [bind]. eexists. split; [reflexivity|]. cbn [fst snd]. split; [lia|]. split; [auto|].
      intros i' m0 m1 l' Hi' Et'. rewrite !(ld_st _ _ _ _ _ E2), !(ld_st _ _ _ _ _ E1).
      destruct (Z.eq_dec i' i) as [->|].
      * assert (X : (m0, m1, l') = (n0, n1, l)) by congruence. injection X as -> -> ->.
        destruct (Z.eqb_spec (2 * i + 1) (i * 2 + 0)); [lia|]. destruct (Z.eqb_spec (2 * i + 0) (i * 2 + 0)); [|lia].
        destruct (Z.eqb_spec (2 * i + 1) (i * 2 + 1)); [|lia]. auto.
      * destruct (G i' m0 m1 l' ltac:(lia) Et') as (G1 & G2 & G3).
        destruct (Z.eqb_spec (2 * i + 1) (i' * 2 + 0)); [lia|]. destruct (Z.eqb_spec (2 * i + 0) (i' * 2 + 0)); [lia|].
        destruct (Z.eqb_spec (2 * i + 1) (i' * 2 + 1)); [lia|]. destruct (Z.eqb_spec (2 * i + 0) (i' * 2 + 1)); [lia|].
        split; [auto|]. split; [auto|]. intros j Hj. rewrite S2 by nia. auto.
  - exists prs, shifts. cbn [fst snd] in *. split; [exact E|]. split; [auto|]. split; [auto|]. intros i n0 n1 l Et. apply G; auto. eapply getz_range; eauto.
Qed.
End Per.

(** The dependency graph of the periodic upward sweep. *)
Section Dag.
Context {F : num}.
Variables (pt_dim n_point n_node max_level n_leaf : Z) (a : tarrays F).
Hypothesis CT : cluster_tree pt_dim n_point n_node max_level n_leaf a.
Definition par i := match ld (a_parent a) i with Some v => v | None => 0 end.

Lemma par_ld i : 0 <= i < n_node -> ld (a_parent a) i = Some (par i).
Proof.
  intros Hi. unfold par. destruct (Z.eq_dec i (n_node - 1)) as [->|].
  - destruct (ct_root _ _ _ _ _ _ CT) as (_ & E & _). now rewrite E.
  - destruct (ct_parent _ _ _ _ _ _ CT i ltac:(lia)) as (p & nc & k & E & _). now rewrite E.
Qed.
Lemma par_up i : 0 <= i < n_node - 1 -> i < par i < n_node.
Proof. intros Hi. destruct (ct_parent _ _ _ _ _ _ CT i Hi) as (p & nc & k & E & Hp & _). unfold par. now rewrite E. Qed.

Lemma dag_per_build : upward_dag_per n_node (a_level a) (a_parent a) =
  Some (zrange 0 n_node ++ [n_node - 1], map par (zrange 0 (n_node - 1))).
Proof.
  destruct (ct_root _ _ _ _ _ _ CT) as (Hn & _). unfold upward_dag_per.
  match goal with |- context [zfor 0 n_node ?b ?init] =>
    destruct (zfor_inv (fun k (x : list Z * list Z) => x = (zrange 0 k, map par (zrange 0 k))) 0 n_node b init) as (x & E & P) end.
  - lia. - reflexivity.
  - intros i x Hi ->. destruct (ct_node _ _ _ _ _ _ CT i Hi) as (s & e & lv & h & nc & (_ & _ & E & _) & _ & _ & L & _).
    rewrite E. cbn [bind]. replace (lv <? 0) with false by lia. rewrite par_ld by auto. cbn [bind]. rewrite zrange_snoc, map_app by lia. cbn [map]. eexists; split; reflexivity.
  - subst x. rewrite E. cbn [bind].
    destruct (setz_Some (zrange 0 n_node) (n_node - 1) (n_node - 1)) as (l & El). { rewrite zlen_zrange; lia. } rewrite El. cbn [bind].
    f_equal. f_equal.
    + f_equal. apply getz_ext. { erewrite setz_zlen; eauto. } intros k Hk.
      rewrite (getz_setz _ _ _ _ k El). destruct (Z.eqb_spec (n_node - 1) k) as [<-|]; [|auto]. rewrite getz_zrange by lia. f_equal; lia.
    + replace n_node with ((n_node - 1) + 1) at 2 by lia. rewrite zrange_snoc, map_app by lia. rewrite firstn_app.
      replace (length (map par (zrange 0 (n_node - 1)))) with (Z.to_nat (n_node - 1)).
      2: { rewrite map_length. pose proof (zlen_zrange 0 (n_node - 1) ltac:(lia)) as X. unfold zlen in X. lia. }
      rewrite Nat.sub_diag. cbn [firstn]. rewrite app_nil_r. apply firstn_all2. rewrite map_length. pose proof (zlen_zrange 0 (n_node - 1) ltac:(lia)) as X. unfold zlen in X. lia.
Qed.
Notation src := (zrange 0 n_node ++ [n_node - 1]).
Notation ds := (map par (zrange 0 (n_node - 1))).

Lemma getz_srcp i v : getz src i = Some v <-> 0 <= i <= n_node /\ v = (if i =? n_node then n_node - 1 else i).
Proof.
  destruct (ct_root _ _ _ _ _ _ CT) as (Hn & _). assert (L : zlen (zrange 0 n_node) = n_node) by (rewrite zlen_zrange; lia). split.
  - intros E. pose proof (getz_range _ _ _ E) as R. rewrite zlen_app, L in R. change (zlen [n_node - 1]) with 1 in R.
    destruct (Z.eqb_spec i n_node) as [->|].
    + rewrite getz_app2 in E by lia. rewrite L, Z.sub_diag in E. injection E as <-. lia.
    + rewrite getz_app1 in E by lia. rewrite getz_zrange in E by lia. injection E as <-. lia.
  - intros [H ->]. destruct (Z.eqb_spec i n_node) as [->|].
    + rewrite getz_app2 by lia. rewrite L, Z.sub_diag. reflexivity.
    + rewrite getz_app1 by lia. rewrite getz_zrange by lia. reflexivity.
Qed.
Lemma getz_dsp i v : getz ds i = Some v <-> 0 <= i < n_node - 1 /\ v = par i.
Proof.
  destruct (ct_root _ _ _ _ _ _ CT) as (Hn & _). rewrite getz_map. split.
  - destruct (getz (zrange 0 (n_node - 1)) i) eqn:E; [|discriminate]. intros X; injection X as <-.
    pose proof (getz_range _ _ _ E) as R. rewrite zlen_zrange in R by lia. rewrite getz_zrange in E by lia. injection E as <-. split; [lia|reflexivity].
  - intros [H ->]. rewrite getz_zrange by lia. reflexivity.
Qed.
Lemma edgep_iff i j d : edge_at n_node src ds i j d <-> 0 <= i < n_node - 1 /\ j = i /\ d = par i.
Proof.
  unfold edge_at. split.
  - intros (Hi & (s & e & E1 & E2 & Hj) & E3). apply getz_srcp in E1 as [_ ->]. apply getz_srcp in E2 as [_ ->]. apply getz_dsp in E3 as [Hj2 ->].
    destruct (Z.eqb_spec i n_node); [lia|]. destruct (Z.eqb_spec (i + 1) n_node); assert (j = i) by lia; subst; auto; lia.
  - intros (Hi & -> & ->). split; [lia|]. split; [|apply getz_dsp; auto]. exists i, (i + 1).
    split; [apply getz_srcp; destruct (Z.eqb_spec i n_node); lia|]. split; [apply getz_srcp; destruct (Z.eqb_spec (i + 1) n_node); lia|]. lia.
Qed.
Lemma reliesp_iff d p : relies_on n_node src ds d p <-> 0 <= p < n_node - 1 /\ d = par p.
Proof.
  unfold relies_on. split; [intros (j & E); apply edgep_iff in E; tauto|]. intros [Hp ->]. exists p. apply edgep_iff. auto.
Qed.
Lemma not_skipped i : ~ skipped n_node src ds i.
Proof. unfold skipped. rewrite reliesp_iff. intros [H E]. pose proof (par_up i H). lia. Qed.

Lemma upward_dag_per_spec : exists s d, upward_dag_per n_node (a_level a) (a_parent a) = Some (s, d) /\ wf_dag n_node s d /\ drainable n_node s d /\
  (forall i p, 0 <= i < n_node - 1 -> ld (a_parent a) i = Some p -> relies_on n_node s d p i) /\ (forall i, ~ skipped n_node s d i).
Proof.
  exists src, ds. split; [apply dag_per_build|]. destruct (ct_root _ _ _ _ _ _ CT) as (Hn & _). split; [|split; [|split]].
  - constructor.
    + lia. + rewrite zlen_app, zlen_zrange by lia. change (zlen [n_node - 1]) with 1. lia.
    + apply getz_srcp. destruct (Z.eqb_spec 0 n_node); lia. + apply getz_srcp. rewrite zlen_map, zlen_zrange by lia. rewrite Z.eqb_refl. lia.
    + intros i s e Hi E1 E2. apply getz_srcp in E1, E2. destruct (Z.eqb_spec i n_node), (Z.eqb_spec (i + 1) n_node); lia.
    + intros j d E. apply getz_dsp in E as [Hj ->]. pose proof (par_up j Hj). lia.
    + intros i j j' E1 E2. apply edgep_iff in E1, E2. lia.
  - split.
    + exists Z.to_nat. intros d p H Hne. apply reliesp_iff in H as [Hp ->]. pose proof (par_up p Hp). lia.
    + intros d p _ Hs. now apply not_skipped in Hs.
  - intros i p Hi E. apply reliesp_iff. split; [auto|]. rewrite par_ld in E by lia. congruence.
  - apply not_skipped.
Qed.
End Dag.
