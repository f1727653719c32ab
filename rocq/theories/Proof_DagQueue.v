(** Proofs about the task queue model. *)
From Coq Require Import ZArith List Lia Bool.
From Verif Require Import Base Model_DagQueue Spec_DagQueue.
Import ListNotations.
Open Scope Z_scope.

Section WF.
Variables (n : Z) (src dst : list Z).
Hypothesis WF : wf_dag n src dst.

Let m := zlen dst.

Lemma src_get i : 0 <= i <= n -> getz src i = Some (nthz src i).
Proof. intros. apply getz_nthz. rewrite (wf_srcn _ _ _ WF). lia. Qed.

Lemma src_0 : nthz src 0 = 0.
Proof. apply nthz_eq, (wf_src0 _ _ _ WF). Qed.
Lemma src_n : nthz src n = m.
Proof. apply nthz_eq, (wf_srce _ _ _ WF). Qed.

Lemma n_nonneg : 0 <= n. Proof. apply (wf_n _ _ _ WF). Qed.

Lemma src_step i : 0 <= i < n -> nthz src i <= nthz src (i + 1).
Proof. intros. eapply (wf_mono _ _ _ WF i); auto; apply src_get; lia. Qed.

Lemma src_mono i j : 0 <= i <= j -> j <= n -> nthz src i <= nthz src j.
Proof.
  intros H Hj. replace j with (i + Z.of_nat (Z.to_nat (j - i))) by lia.
  assert (Z.of_nat (Z.to_nat (j - i)) <= n - i) by lia.
  induction (Z.to_nat (j - i)) as [|k IH].
  - simpl. rewrite Z.add_0_r. lia.
  - pose proof (src_step (i + Z.of_nat k) ltac:(lia)).
    replace (i + Z.of_nat (S k)) with (i + Z.of_nat k + 1) by lia. lia.
Qed.

Lemma src_range i : 0 <= i <= n -> 0 <= nthz src i <= m.
Proof.
  intros. pose proof (src_mono 0 i ltac:(lia) ltac:(lia)). pose proof (src_mono i n ltac:(lia) ltac:(lia)).
  rewrite src_0, src_n in *. lia.
Qed.

Lemma dst_get j : 0 <= j < m -> getz dst j = Some (nthz dst j).
Proof. apply getz_nthz. Qed.

Lemma dst_range j : 0 <= j < m -> 0 <= nthz dst j < n.
Proof. intros. eapply (wf_dst _ _ _ WF). now apply dst_get. Qed.

(** Rows in terms of total reads. *)
Definition row (i j : Z) : Prop := 0 <= i < n /\ nthz src i <= j < nthz src (i + 1).

Lemma row_m i j : row i j -> 0 <= j < m.
Proof.
  intros [H1 H2]. pose proof (src_range i ltac:(lia)). pose proof (src_range (i + 1) ltac:(lia)). lia.
Qed.

Lemma edge_row i j d : edge_at n src dst i j d <-> row i j /\ nthz dst j = d.
Proof.
  split.
  - intros [Hi [[s [e [Hs [He Hj]]]] Hd]]. split.
    + split; auto. now rewrite (nthz_eq _ _ _ Hs), (nthz_eq _ _ _ He).
    + now apply nthz_eq.
  - intros [Hr Hd]. pose proof (row_m _ _ Hr). destruct Hr as [Hi Hj]. split; auto. split.
    + exists (nthz src i), (nthz src (i + 1)). repeat split; try apply src_get; lia.
    + rewrite dst_get, Hd; auto.
Qed.

Lemma row_uniq i i' j : row i j -> row i' j -> i = i'.
Proof.
  intros [H1 H2] [H3 H4]. destruct (Z.lt_trichotomy i i') as [H|[H|H]]; auto; exfalso.
  - pose proof (src_mono (i + 1) i' ltac:(lia) ltac:(lia)). lia.
  - pose proof (src_mono (i' + 1) i ltac:(lia) ltac:(lia)). lia.
Qed.

Lemma row_exists j : 0 <= j < m -> exists i, row i j.
Proof.
  intros Hj.
  assert (forall k, (Z.of_nat k <= n) -> j < nthz src (Z.of_nat k) -> exists i, row i j).
  { induction k; intros Hk Hlt.
    - change (Z.of_nat 0) with 0 in Hlt. rewrite src_0 in Hlt. lia.
    - destruct (Z.lt_ge_cases j (nthz src (Z.of_nat k))).
      + apply IHk; auto; lia.
      + exists (Z.of_nat k). split; [lia|]. replace (Z.of_nat k + 1) with (Z.of_nat (S k)) by lia. lia. }
  apply (H (Z.to_nat n)); pose proof n_nonneg.
  - lia.
  - replace (Z.of_nat (Z.to_nat n)) with n by lia. rewrite src_n. lia.
Qed.

Definition selfb (i : Z) : bool :=
  existsb (fun j => nthz dst j =? i) (zrange (nthz src i) (nthz src (i + 1))).

Lemma selfb_spec i : 0 <= i < n -> selfb i = true <-> skipped n src dst i.
Proof.
  intros Hi. unfold selfb, skipped, relies_on. rewrite existsb_exists. split.
  - intros [j [Hin Hd]]. apply In_zrange in Hin. exists j. apply edge_row. split; [split; auto|lia].
  - intros [j Hj]. apply edge_row in Hj. destruct Hj as [[_ Hr] Hd].
    exists j. split; [now apply In_zrange|lia].
Qed.

Lemma self_count i : 0 <= i < n ->
  zcount (fun j => nthz dst j =? i) (zrange (nthz src i) (nthz src (i + 1))) = if selfb i then 1 else 0.
Proof.
  intros Hi. unfold selfb. apply zcount_unique; [apply NoDup_zrange|].
  intros x y Hx Hy Ex Ey. apply In_zrange in Hx, Hy.
  apply (wf_self _ _ _ WF i); apply edge_row; split; try (split; auto); lia.
Qed.

Definition tasks : list Z := filter (fun i => negb (selfb i)) (zrange 0 n).

Lemma tasks_spec : task_list n src dst tasks.
Proof.
  split.
  - apply NoDup_filter, NoDup_zrange.
  - intros t. unfold tasks. rewrite filter_In, In_zrange. split.
    + intros [Ht Hs]. split; auto. rewrite <- selfb_spec by auto. destruct (selfb t); easy.
    + intros [Ht Hs]. split; auto. rewrite <- selfb_spec in Hs by auto. destruct (selfb t); auto.
Qed.

Lemma tasks_len : zlen tasks = n - zcount selfb (zrange 0 n).
Proof.
  unfold tasks. pose proof n_nonneg.
  assert (forall l, zlen (filter (fun i => negb (selfb i)) l) = zlen l - zcount selfb l).
  { induction l; simpl; [reflexivity|]. rewrite zcount_cons.
    destruct (selfb a); simpl; rewrite ?zlen_cons; lia. }
  rewrite H0, zlen_zrange; lia.
Qed.

Definition indeg_of (d j : Z) : Z := zcount (fun k => nthz dst k =? d) (zrange 0 j).

Lemma tq_count_spec :
  exists indeg, tq_count n src dst = Some (zlen tasks, indeg) /\ zlen indeg = n /\
    forall d, 0 <= d < n -> getz indeg d = Some (indeg_of d m).
Proof.
  pose proof n_nonneg as Hn. unfold tq_count.
  pose (P := fun (i : Z) (st : Z * list Z) =>
    fst st = n - zcount selfb (zrange 0 i) /\ zlen (snd st) = n /\
    forall d, 0 <= d < n -> getz (snd st) d = Some (indeg_of d (nthz src i))).
  destruct (zfor_inv P 0 n (fun i st =>
    s <- getz src i;
    e <- getz src (i + 1);
    zfor s e (fun j '(nt, indeg) =>
      d <- getz dst j;
      v <- getz indeg d;
      indeg' <- setz indeg d (v + 1);
      Some ((if d =? i then nt - 1 else nt), indeg')) st) (n, arr n 0)) as [[nt indeg] [E [H1 [H2 H3]]]].
  - lia.
  - repeat split; simpl.
    + rewrite zrange_empty by lia. rewrite zcount_nil. lia.
    + apply zlen_arr; lia.
    + intros d Hd. rewrite getz_arr by lia. unfold indeg_of. rewrite src_0, zrange_empty by lia. reflexivity.
  - intros i st Hi [H1 [H2 H3]]. rewrite !src_get by lia. cbn [bind].
    pose (Q := fun (j : Z) (st' : Z * list Z) =>
      fst st' = n - zcount selfb (zrange 0 i)
                - zcount (fun j => nthz dst j =? i) (zrange (nthz src i) j) /\ zlen (snd st') = n /\
      forall d, 0 <= d < n -> getz (snd st') d = Some (indeg_of d j)).
    pose proof (src_range i ltac:(lia)). pose proof (src_range (i + 1) ltac:(lia)).
    destruct (zfor_inv Q (nthz src i) (nthz src (i + 1)) (fun j '(nt, indeg) =>
      d <- getz dst j;
      v <- getz indeg d;
      indeg' <- setz indeg d (v + 1);
      Some ((if d =? i then nt - 1 else nt), indeg')) st) as [[nt' indeg'] [E' [Q1 [Q2 Q3]]]].
    + apply src_step; lia.
    + split; [|split]; auto. rewrite (zrange_empty (nthz src i) (nthz src i)) by lia. rewrite zcount_nil. lia.
    + intros j [nt1 in1] Hj [Q1 [Q2 Q3]]. cbn [fst snd] in *.
      assert (0 <= j < m) by (apply (row_m i); split; auto).
      rewrite dst_get by auto. cbn [bind]. pose proof (dst_range j ltac:(auto)) as Hd.
      rewrite Q3 by auto. cbn [bind].
      destruct (setz_Some in1 (nthz dst j) (indeg_of (nthz dst j) j + 1) ltac:(lia)) as [in2 E2].
      rewrite E2. cbn [bind]. eexists; split; [reflexivity|]. split; [|split]; cbn [fst snd].
      * rewrite zrange_snoc by lia. rewrite zcount_app, zcount_cons, zcount_nil.
        destruct (nthz dst j =? i); lia.
      * rewrite (setz_zlen _ _ _ _ E2); auto.
      * intros d Hd'. rewrite (getz_setz _ _ _ _ _ E2). unfold indeg_of.
        rewrite zrange_snoc by lia. rewrite zcount_app, zcount_cons, zcount_nil.
        destruct (Z.eqb_spec (nthz dst j) d) as [->|Hne].
        -- f_equal; lia.
        -- rewrite Q3 by auto. unfold indeg_of. f_equal; lia.
    + rewrite E'. eexists; split; [reflexivity|]. cbn [fst snd] in *. split; [|split]; cbn [fst snd]; auto.
      rewrite zrange_snoc by lia. rewrite zcount_app, zcount_cons, zcount_nil. rewrite self_count in Q1 by auto. lia.
  - rewrite E. exists indeg. cbn [fst snd] in *. split; [|split]; auto.
    + rewrite tasks_len. subst nt. reflexivity.
    + rewrite src_n in H3. auto.
Qed.

End WF.

(** ** Reset *)

Definition zeros (indeg : list Z) (i : Z) : list Z :=
  filter (fun k => nthz indeg k =? 0) (zrange 0 i).

Lemma zeros_le indeg i : 0 <= i -> zlen (zeros indeg i) <= i.
Proof.
  intros. unfold zeros, zlen.
  pose proof (zlen_zrange 0 i ltac:(lia)). unfold zlen in H0.
  assert (forall (l : list Z) f, (length (filter f l) <= length l)%nat).
  { intros; induction l; simpl; auto. destruct (f a); simpl; lia. }
  specialize (H1 (zrange 0 i) (fun k => nthz indeg k =? 0)). lia.
Qed.

Lemma tq_reset_spec g q :
  0 <= g_n g -> zlen (g_indeg g) = g_n g -> zlen (q_indeg q) = g_n g -> zlen (q_queue q) = g_n g ->
  exists tq, tq_reset g q = Some (mkQueue 0 (zlen (zeros (g_indeg g) (g_n g))) (g_indeg g) tq) /\
    zlen tq = g_n g /\
    (forall k, 0 <= k < g_n g ->
       getz tq k = Some (match getz (zeros (g_indeg g) (g_n g)) k with Some v => v | None => -1 end)).
Proof.
  intros Hn Hi Hc Hq. unfold tq_reset.
  pose (n := g_n g). fold n in Hn, Hi, Hc, Hq |- *.
  pose (P := fun (i : Z) (r : queue) =>
    q_head r = 0 /\ q_tail r = zlen (zeros (g_indeg g) i) /\
    zlen (q_indeg r) = n /\ zlen (q_queue r) = n /\
    (forall k, 0 <= k < i -> getz (q_indeg r) k = getz (g_indeg g) k) /\
    (forall k, 0 <= k < i ->
       getz (q_queue r) k = Some (match getz (zeros (g_indeg g) i) k with Some v => v | None => -1 end))).
  match goal with |- context [zfor 0 n ?b ?s] =>
    destruct (zfor_inv P 0 n b s) as [r [E [H1 [H2 [H3 [H4 [H5 H6]]]]]]] end.
  - lia.
  - repeat split; simpl; auto; intros; lia.
  - intros i r Hir [H1 [H2 [H3 [H4 [H5 H6]]]]].
    rewrite getz_nthz by lia. cbn [bind].
    set (d := nthz (g_indeg g) i).
    destruct (setz_Some (q_indeg r) i d ltac:(lia)) as [ci Eci]. rewrite Eci. cbn [bind].
    destruct (setz_Some (q_queue r) i (-1) ltac:(lia)) as [tq Etq]. rewrite Etq. cbn [bind].
    pose proof (zeros_le (g_indeg g) i ltac:(lia)) as Hz.
    pose proof (zlen_nonneg (zeros (g_indeg g) i)) as Hz0.
    assert (Hci : forall k, 0 <= k < i + 1 -> getz ci k = getz (g_indeg g) k).
    { intros k Hk. rewrite (getz_setz _ _ _ _ _ Eci). destruct (Z.eqb_spec i k).
      - subst k. symmetry. apply getz_nthz. lia.
      - apply H5; lia. }
    assert (Hzi : zeros (g_indeg g) (i + 1) = zeros (g_indeg g) i ++ (if d =? 0 then [i] else [])).
    { unfold zeros. rewrite zrange_snoc by lia. rewrite filter_app. simpl. reflexivity. }
    destruct (Z.eqb_spec d 0) as [Hd|Hd].
    + destruct (setz_Some tq (q_tail r) i) as [tq' Etq'].
      { rewrite (setz_zlen _ _ _ _ Etq). lia. }
      rewrite Etq'. cbn [bind]. eexists; split; [reflexivity|].
      unfold P; cbn [q_head q_tail q_indeg q_queue]. rewrite Hzi, zlen_app.
      repeat split; auto.
      * zlia.
      * rewrite (setz_zlen _ _ _ _ Eci); auto.
      * rewrite (setz_zlen _ _ _ _ Etq'), (setz_zlen _ _ _ _ Etq); auto.
      * intros k Hk. rewrite (getz_setz _ _ _ _ _ Etq'), H2.
        destruct (Z.eqb_spec (zlen (zeros (g_indeg g) i)) k) as [Hk'|Hk'].
        -- subst k. rewrite getz_app2 by lia. replace (_ - _) with 0 by lia. reflexivity.
        -- rewrite (getz_setz _ _ _ _ _ Etq). destruct (Z.eqb_spec i k).
           ++ subst k. replace (getz (zeros (g_indeg g) i ++ [i]) i) with (@None Z); auto.
              symmetry. apply getz_None. rewrite zlen_app. zlia.
           ++ rewrite H6 by lia. destruct (Z.lt_ge_cases k (zlen (zeros (g_indeg g) i))).
              ** now rewrite getz_app1.
              ** rewrite getz_app2 by lia. rewrite (proj2 (getz_None (zeros (g_indeg g) i) k)) by lia.
                 rewrite (proj2 (getz_None [i] _)); auto. zlia.
    + eexists; split; [reflexivity|]. unfold P; cbn [q_head q_tail q_indeg q_queue].
      rewrite Hzi, app_nil_r. repeat split; auto.
      * rewrite (setz_zlen _ _ _ _ Eci); auto.
      * rewrite (setz_zlen _ _ _ _ Etq); auto.
      * intros k Hk. rewrite (getz_setz _ _ _ _ _ Etq). destruct (Z.eqb_spec i k).
        -- subst k. now rewrite (proj2 (getz_None (zeros (g_indeg g) i) i)) by lia.
        -- apply H6; lia.
  - rewrite E. destruct r as [h t ci tq]; cbn [q_head q_tail q_indeg q_queue] in *. subst h t.
    exists tq. split; [|split]; auto. do 2 f_equal.
    apply getz_ext; [lia|]. intros k Hk. apply H5; lia.
Qed.

(** Reset does not depend on the contents of the queue. *)
Lemma tq_reset_indep g q q' :
  0 <= g_n g -> zlen (g_indeg g) = g_n g ->
  zlen (q_indeg q) = g_n g -> zlen (q_queue q) = g_n g ->
  zlen (q_indeg q') = g_n g -> zlen (q_queue q') = g_n g ->
  tq_reset g q = tq_reset g q'.
Proof.
  intros. destruct (tq_reset_spec g q) as [a [E [L F]]]; auto.
  destruct (tq_reset_spec g q') as [a' [E' [L' F']]]; auto.
  rewrite E, E'. do 2 f_equal. apply getz_ext; [lia|]. intros. rewrite F, F'; auto; lia.
Qed.
