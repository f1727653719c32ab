(** What the blocks of a partition contribute to each row. *)
From Coq Require Import ZArith List Lia Bool Ring.
From Verif Require Import Base Mem CRing Model_CSRP Spec_CSRP Proof_CSRPPart.
Import ListNotations.
Open Scope Z_scope.

Section Fact.
Context {K : cring}.
Add Ring Kring : (cth K).
Variables (rp : list Z) (n : Z) (p : Z -> Z) (g : Z -> K).
Hypothesis (HP : csr_rows rp n p).
Variables (nblk : Z) (D : Z -> Z) (B : Z -> csrp_blk).
Hypotheses (Hb : 1 <= nblk) (D0 : D 0 = 0) (D1 : D nblk = p n) (Ds : forall i, 0 <= i < nblk -> D i < D (i + 1)).
Hypothesis (HB : forall i, 0 <= i < nblk -> blk_ok n p (D i) (D (i + 1) - 1) (B i)).
Let M : forall i j, 0 <= i <= j -> j <= n -> p i <= p j. Proof. exact (csr_mono rp n p HP). Qed.

Lemma Dmono : forall i j, 0 <= i <= j -> j <= nblk -> D i <= D j.
Proof.
  intros i j [Hi Hij]. revert j Hij. apply (up_ind i (fun j => j <= nblk -> D i <= D j)); [lia|].
  intros j Hij IH Hj. specialize (Ds j ltac:(lia)). lia.
Qed.

Let W i := widen n p nblk i (B i).
Definition covers (i k : Z) : Prop := b_first (W i) <= k <= b_last (W i).
Definition multi i := b_first (W i) <? b_last (W i).
(** The rows that the block computes alone. *)
Definition intact (i k : Z) : bool :=
  multi i && negb ((k =? b_first (W i)) && (b_fri (W i) =? 0)) && negb ((k =? b_last (W i)) && (b_lri (W i) =? 0)).
Definition isum (a b : Z) : K := rsum a b g.
Definition wr (i k : Z) : K := if intact i k then isum (p k) (p (k + 1)) else c0.
(** The partial sums fr_res and lr_res. *)
Definition fsum i := if multi i then isum (b_spos (W i)) (p (b_first (W i) + 1)) else isum (b_spos (W i)) (b_epos (W i) + 1).
Definition lsum' i := isum (p (b_last (W i))) (b_epos (W i) + 1).
Definition us (i k : Z) : K := cadd (if (b_fri (W i) =? 0) && (k =? b_first (W i)) then fsum i else c0)
  (if (b_lri (W i) =? 0) && (k =? b_last (W i)) then lsum' i else c0).
Definition cl (k t : Z) := Z.max (p k) (Z.min t (p (k + 1))).
Definition part (i k : Z) : K := isum (cl k (D i)) (cl k (D (i + 1))).

(** The facts about block i, with the widening of the last one. *)
Lemma blk_facts i : 0 <= i < nblk -> exists l0,
  b_spos (W i) = D i /\ b_epos (W i) = D (i + 1) - 1 /\
  0 <= b_first (W i) <= l0 /\ l0 <= b_last (W i) < n /\ p (b_first (W i)) <= D i /\
  (p (b_first (W i)) = D i \/ D i < p (b_first (W i) + 1)) /\ (forall k, 0 <= k < b_first (W i) -> p k < D i) /\
  p l0 < D (i + 1) <= p (l0 + 1) /\
  (b_fri (W i) = 0 \/ (b_fri (W i) = 1 /\ D i = p (b_first (W i)) /\ b_first (W i) < l0)) /\
  (b_fri (W i) = 0 -> b_first (W i) < l0 -> p (b_first (W i)) < D i) /\
  (b_lri (W i) = 0 -> b_last (W i) = l0 /\ b_first (W i) < l0) /\
  ((b_lri (W i) = 1 /\ D (i + 1) = p (l0 + 1)) \/ b_lri (W i) = 0 \/ (b_lri (W i) = -1 /\ b_first (W i) = l0 /\ b_fri (W i) = 0)) /\
  ((l0 = b_last (W i)) \/ (i = nblk - 1 /\ b_last (W i) = n - 1 /\ D (i + 1) = p n)) /\ (i = nblk - 1 -> b_last (W i) = n - 1).
Proof.
  intros Hi. destruct (HB i Hi) as (E1 & E2 & E3 & E4 & E5 & E6 & E7 & E8 & E9). exists (b_last (B i)).
  unfold W, widen. destruct (Z.eqb_spec i (nblk - 1)) as [->|Hn]; cbn [b_spos b_epos b_first b_last b_fri b_lri].
  - replace (nblk - 1 + 1) with nblk in * by lia. rewrite D1 in *.
    assert (Hl : p (b_last (B (nblk - 1)) + 1) = p n). { pose proof (M (b_last (B (nblk - 1)) + 1) n). lia. }
    destruct (Z.ltb_spec (b_first (B (nblk - 1))) (b_last (B (nblk - 1)))); destruct E9 as [F L];
      [destruct (Z.eqb_spec (D (nblk - 1)) (p (b_first (B (nblk - 1))))); destruct (Z.eqb_spec (p n - 1) (p (b_last (B (nblk - 1)) + 1) - 1))|];
      rewrite F, L; repeat split; auto; try lia.
  - destruct (Z.ltb_spec (b_first (B i)) (b_last (B i))); destruct E9 as [F L];
      [destruct (Z.eqb_spec (D i) (p (b_first (B i)))); destruct (Z.eqb_spec (D (i + 1) - 1) (p (b_last (B i) + 1) - 1))|];
      rewrite F, L; repeat split; auto; try lia.
Qed.

(** An intact row lies in the block. *)
Lemma intact_in i k : 0 <= i < nblk -> covers i k -> intact i k = true ->
  us i k = c0 /\ (p k < p (k + 1) -> D i <= p k /\ p (k + 1) <= D (i + 1)).
Proof.
  intros Hi Hc Hin. destruct (blk_facts i Hi) as (l0 & F1 & F2 & F3 & F4 & F5 & F6 & F7 & F8 & F9 & F10 & F11 & F12 & F13 & F14).
  unfold intact, multi, covers in *. unfold us.
  set (f := b_first (W i)) in *. set (l := b_last (W i)) in *.
  apply andb_true_iff in Hin. destruct Hin as [Hin N2]. apply andb_true_iff in Hin. destruct Hin as [Hm N1].
  apply Z.ltb_lt in Hm.
  rewrite (andb_comm (b_fri (W i) =? 0)), (andb_comm (b_lri (W i) =? 0)).
  destruct ((k =? f) && (b_fri (W i) =? 0)) eqn:T1; [discriminate|]. destruct ((k =? l) && (b_lri (W i) =? 0)) eqn:T2; [discriminate|].
  split; [ring|]. intros Hne.
  apply andb_false_iff in T1, T2. rewrite !Z.eqb_neq in T1, T2. split.
  - destruct (Z.eq_dec k f) as [->|Hkf].
    + destruct F9 as [F9|(_ & F9 & _)]; lia.
    + pose proof (M (f + 1) k ltac:(lia) ltac:(lia)). pose proof (M f k ltac:(lia) ltac:(lia)). clear T1 T2. destruct F6; lia.
  - destruct (Z.lt_ge_cases k l0).
    + pose proof (M (k + 1) l0 ltac:(lia) ltac:(lia)). lia.
    + destruct F13 as [Q|(Q1 & Q2 & Q3)].
      * assert (k = l0) by lia. subst k. destruct F12 as [[_ <-]|[F12|(_ & F12 & _)]]; lia.
      * rewrite Q3. apply M; lia.
Qed.

Lemma isum_empty a : isum a a = c0. Proof. unfold isum. apply rsum_empty. lia. Qed.

(** Block i adds up to its own part of row k. *)
Lemma covered i k : 0 <= i < nblk -> covers i k -> intact i k = false -> us i k = part i k.
Proof.
  intros Hi Hc Hin. destruct (blk_facts i Hi) as (l0 & F1 & F2 & F3 & F4 & F5 & F6 & F7 & F8 & F9 & F10 & F11 & F12 & F13 & F14).
  specialize (Ds i Hi) as DD.
  unfold intact, covers, us, part, cl, fsum, lsum' in *. unfold multi in *. rewrite F1, F2.
  set (f := b_first (W i)) in *. set (l := b_last (W i)) in *. replace (D (i + 1) - 1 + 1) with (D (i + 1)) by lia.
  rewrite (andb_comm (b_fri (W i) =? 0)), (andb_comm (b_lri (W i) =? 0)).
  destruct (Z.ltb_spec f l); cbn in Hin.
  - destruct ((k =? f) && (b_fri (W i) =? 0)) eqn:T1; destruct ((k =? l) && (b_lri (W i) =? 0)) eqn:T2; try discriminate; cbn in Hin.
    + clear - T1 T2 H. lia.
    + apply andb_true_iff in T1. destruct T1 as [T1 T3]. apply Z.eqb_eq in T1, T3. subst k.
      assert (A1 : D i <= p (f + 1)). { pose proof (M f (f + 1) ltac:(lia) ltac:(lia)) as Q. clear - F5 F6 Q. lia. }
      assert (A2 : p (f + 1) <= D (i + 1)).
      { destruct (Z.eq_dec f l0) as [Q|Q].
        - destruct F13 as [F13|(_ & _ & ->)]; [clear - F13 Q H; lia|apply M; clear - F3 F4 H; lia].
        - pose proof (M (f + 1) l0 ltac:(clear - F3 Q; lia) ltac:(clear - F4; lia)) as Q2. clear - Q2 F8. lia. }
      replace (Z.max (p f) (Z.min (D i) (p (f + 1)))) with (D i) by (clear - A1 F5; lia).
      replace (Z.max (p f) (Z.min (D (i + 1)) (p (f + 1)))) with (p (f + 1)) by (clear - A1 A2 F5; lia). ring.
    + apply andb_true_iff in T2. destruct T2 as [T2 T3]. apply Z.eqb_eq in T2, T3. subst k. destruct (F11 T3) as [Q Q1]. rewrite Q in *.
      assert (A1 : D i <= p l0). { pose proof (M (f + 1) l0 ltac:(clear - Q1 F3; lia) ltac:(clear - F4; lia)) as A. pose proof (M f l0 ltac:(clear - F3; lia) ltac:(clear - F4; lia)) as A'. clear - A A' F6. lia. }
      replace (Z.max (p l0) (Z.min (D i) (p (l0 + 1)))) with (p l0) by (clear - A1 F8; lia).
      replace (Z.max (p l0) (Z.min (D (i + 1)) (p (l0 + 1)))) with (D (i + 1)) by (clear - A1 F8 DD; lia). ring.
  - assert (k = f) by (clear - Hc H; lia). assert (l0 = f) by (clear - F3 F4 H; lia). subst l0.
    assert (A1 : D i <= p (f + 1)) by (clear - DD F8; lia).
    assert (A3 : b_fri (W i) = 0). { destruct F9 as [F9|(_ & _ & F9)]; auto. clear - F9. lia. }
    assert (A4 : b_lri (W i) <> 0). { intros Q. apply F11 in Q. clear - Q. lia. }
    apply Z.eqb_neq in A4. rewrite A3, A4, andb_false_r, H0, !Z.eqb_refl. cbn. subst k.
    replace (Z.max (p f) (Z.min (D i) (p (f + 1)))) with (D i) by (clear - A1 F5; lia).
    replace (Z.max (p f) (Z.min (D (i + 1)) (p (f + 1)))) with (D (i + 1)) by (clear - F8 F5 DD; lia). ring.
Qed.

Lemma not_covered i k : 0 <= i < nblk -> 0 <= k < n -> ~ covers i k -> us i k = c0 /\ part i k = c0.
Proof.
  intros Hi Hk Hc. destruct (blk_facts i Hi) as (l0 & F1 & F2 & F3 & F4 & F5 & F6 & F7 & F8 & F9 & F10 & F11 & F12 & F13 & F14).
  specialize (Ds i Hi) as DD. unfold covers, us, part, cl in *.
  set (f := b_first (W i)) in *. set (l := b_last (W i)) in *. split.
  - destruct (Z.eqb_spec k f); [clear - Hc e F3 F4; lia|]. destruct (Z.eqb_spec k l); [clear - Hc e F3 F4; lia|]. rewrite !andb_false_r. ring.
  - pose proof (M k (k + 1) ltac:(lia) ltac:(lia)) as A. destruct (Z.lt_ge_cases k f) as [C|C].
    + pose proof (M (k + 1) f ltac:(lia) ltac:(lia)) as A'. rewrite !(Z.min_r _ (p (k + 1))) by (clear - A' F5 DD; lia). apply isum_empty.
    + pose proof (M (l0 + 1) k ltac:(lia) ltac:(lia)) as A'. rewrite !(Z.max_l (p k)) by (clear - A' A F8 DD; lia). apply isum_empty.
Qed.

(** A nonempty row that lies in one block is covered by no other. *)
Lemma alone i j k : 0 <= i < nblk -> 0 <= j < nblk -> 0 <= k < n -> i <> j ->
  D i <= p k -> p k < p (k + 1) -> p (k + 1) <= D (i + 1) -> ~ covers j k.
Proof.
  intros Hi Hj Hk Hij A1 A2 A3 Hc. destruct (blk_facts j Hj) as (l0 & F1 & F2 & F3 & F4 & F5 & F6 & F7 & F8 & F9 & F10 & F11 & F12 & F13 & F14).
  unfold covers in Hc. set (f := b_first (W j)) in *. set (l := b_last (W j)) in *.
  destruct (Z.lt_trichotomy i j) as [C|[C|C]]; [|lia|].
  - pose proof (Dmono (i + 1) j ltac:(lia) ltac:(lia)) as E1. pose proof (M f k ltac:(lia) ltac:(lia)) as E2. pose proof (M (f + 1) (k + 1) ltac:(lia) ltac:(lia)) as E3.
    clear - E1 E2 E3 F6 A1 A2 A3. lia.
  - pose proof (Dmono (j + 1) i ltac:(lia) ltac:(lia)) as E1. destruct F13 as [Q|(Q & _)]; [|clear - Q C Hi; lia].
    pose proof (M k l0 ltac:(lia) ltac:(lia)) as E2. clear - E1 E2 F8 A1. lia.
Qed.

Lemma wr_agree i j k : 0 <= i < nblk -> 0 <= j < nblk -> 0 <= k < n -> covers i k -> covers j k -> wr i k = wr j k.
Proof.
  intros Hi Hj Hk Ci Cj. unfold wr. destruct (Z.eq_dec i j) as [->|Hij]; auto.
  destruct (Z.eq_dec (p k) (p (k + 1))) as [E|E].
  { rewrite <- E, isum_empty. destruct (intact i k), (intact j k); auto. }
  pose proof (M k (k + 1) ltac:(lia) ltac:(lia)).
  destruct (intact i k) eqn:Ti. { destruct (intact_in i k) as (_ & A); auto. destruct (alone i j k); auto; try lia. }
  destruct (intact j k) eqn:Tj; auto. destruct (intact_in j k) as (_ & A); auto. destruct (alone j i k); auto; lia.
Qed.

(** Every row belongs to a block. *)
Lemma some_block k : 0 <= k < n -> exists i, 0 <= i < nblk /\ covers i k.
Proof.
  intros Hk.
  assert (Q : forall j, 0 <= j -> j < nblk -> k <= b_last (W j) -> exists i, 0 <= i < nblk /\ covers i k).
  { apply (up_ind 0 (fun j => j < nblk -> k <= b_last (W j) -> exists i, 0 <= i < nblk /\ covers i k)).
    - intros Hj Hl. exists 0. split; [lia|]. destruct (blk_facts 0) as (l0 & F1 & F2 & F3 & F4 & F5 & F6 & F7 & _); [lia|].
      unfold covers. split; [|auto]. destruct (Z.le_gt_cases (b_first (W 0)) k); auto. specialize (F7 k ltac:(lia)). pose proof (M 0 k ltac:(lia) ltac:(lia)) as A.
      destruct HP as (_ & _ & _ & P0 & _). clear - A F7 P0 D0. lia.
    - intros j Hj0 IH Hj Hl. destruct (Z.le_gt_cases k (b_last (W j))); [apply IH; auto; lia|].
      exists (j + 1). split; [lia|]. destruct (blk_facts (j + 1)) as (l1 & F1 & F2 & F3 & F4 & F5 & F6 & F7 & _); [lia|].
      destruct (blk_facts j) as (l0 & G1 & G2 & G3 & G4 & G5 & G6 & G7 & G8 & _ & _ & _ & _ & G13 & _); [lia|].
      unfold covers. split; [|auto]. destruct (Z.le_gt_cases (b_first (W (j + 1))) k); auto. specialize (F7 k ltac:(lia)).
      destruct G13 as [G13|(G13 & _)]; [|clear - G13 Hj; lia]. pose proof (M (l0 + 1) k ltac:(lia) ltac:(lia)) as A. clear - A G8 F7. lia. }
  destruct (blk_facts (nblk - 1)) as (l0 & F); [lia|]. apply (Q (nblk - 1)); try lia.
Qed.

(** The parts add up to the row. *)
Lemma parts_sum k : 0 <= k < n -> rsum 0 nblk (fun i => part i k) = isum (p k) (p (k + 1)).
Proof.
  intros Hk. pose proof (M k (k + 1) ltac:(lia) ltac:(lia)) as A0.
  assert (Q : forall j, 0 <= j -> j <= nblk -> rsum 0 j (fun i => part i k) = isum (cl k 0) (cl k (D j))).
  { apply (up_ind 0 (fun j => j <= nblk -> rsum 0 j (fun i => part i k) = isum (cl k 0) (cl k (D j)))).
    - intros _. rewrite rsum_empty, D0, isum_empty by lia. reflexivity.
    - intros j Hj IH Hj'. rewrite rsum_snoc, IH by lia. unfold part, isum. symmetry. apply rsum_split.
      pose proof (Dmono 0 j ltac:(lia) ltac:(lia)) as A. pose proof (Dmono j (j + 1) ltac:(lia) ltac:(lia)) as A'. clear - A A' A0 D0. unfold cl. lia. }
  rewrite Q by lia. f_equal; unfold cl; rewrite ?D1.
  - pose proof (M 0 k ltac:(lia) ltac:(lia)) as A. destruct HP as (_ & _ & _ & P0 & _). clear - A P0 A0. lia.
  - pose proof (M (k + 1) n ltac:(lia) ltac:(lia)) as A. clear - A A0. lia.
Qed.

Lemma total k i0 : 0 <= k < n -> 0 <= i0 < nblk -> covers i0 k ->
  cadd (wr i0 k) (rsum 0 nblk (fun i => us i k)) = isum (p k) (p (k + 1)).
Proof.
  intros Hk Hi Hc. pose proof (M k (k + 1) ltac:(lia) ltac:(lia)). destruct (Z.eq_dec (p k) (p (k + 1))) as [E|E].
  { (* empty row *)
    rewrite rsum_zero.
    - unfold wr. rewrite <- E, isum_empty. destruct (intact i0 k); ring.
    - intros i Hi'. assert (Dec : covers i k \/ ~ covers i k) by (unfold covers; lia). destruct Dec as [Ci|Ci].
      + destruct (intact i k) eqn:Ti; [apply intact_in; auto|]. rewrite covered by auto. unfold part.
        replace (cl k (D (i + 1))) with (cl k (D i)) by (unfold cl; lia). apply isum_empty.
      + apply not_covered; auto. }
  unfold wr. destruct (intact i0 k) eqn:T.
  - destruct (intact_in i0 k) as (U & A); auto. destruct A as (A1 & A2); [lia|].
    rewrite rsum_zero; [ring|]. intros i Hi'. destruct (Z.eq_dec i i0) as [->|]; auto.
    apply not_covered; auto. apply (alone i0 i k); auto. lia.
  - rewrite <- (parts_sum k Hk).
    rewrite (rsum_ext 0 nblk (fun i => us i k) (fun i => part i k)); [ring|].
    intros i Hi'. assert (Dec : covers i k \/ ~ covers i k) by (unfold covers; lia). destruct Dec as [Ci|Ci].
    + apply covered; auto. destruct (intact i k) eqn:Ti; auto. destruct (intact_in i k) as (_ & A); auto.
      destruct (Z.eq_dec i i0) as [->|]; [congruence|]. exfalso. apply (alone i i0 k); auto; lia.
    + destruct (not_covered i k) as [-> ->]; auto.
Qed.
End Fact.
