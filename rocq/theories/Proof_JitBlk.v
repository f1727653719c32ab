(** Applying a block that is evaluated on the fly (Model_JIT.v). *)
From Coq Require Import ZArith QArith List Lia Bool Permutation.
From Verif Require Import Base Mem Num CRing Conc Model_Utils Model_Dense Spec_Dense Proof_Dense2 Model_Partition Model_Matvec Spec_Matvec Proof_Gemv Model_Build Proof_BuildFill Model_JIT.
Import ListNotations.
Open Scope Z_scope.

Lemma divmod_comp kd i a : 1 <= kd -> 0 <= a < kd -> (i * kd + a) / kd = i /\ (i * kd + a) mod kd = a.
Proof.
  intros Hk Ha. rewrite (Z.add_comm (i * kd) a), Z.div_add, Z.mod_add by lia. rewrite (Z.div_small a kd), (Z.mod_small a kd) by lia. lia.
Qed.

Lemma comp_range kd n r : 1 <= kd -> 0 <= r < n * kd -> 0 <= r / kd < n /\ 0 <= r mod kd < kd /\ r = r / kd * kd + r mod kd.
Proof.
  intros Hk Hr. pose proof (Z.div_mod r kd ltac:(lia)) as D. pose proof (Z.mod_pos_bound r kd ltac:(lia)).
  assert (0 <= r / kd) by (apply Z.div_pos; lia). assert (r / kd < n) by (apply Z.div_lt_upper_bound; lia). lia.
Qed.

Section Blk.
Context {F : num} {K : cring}.
Add Ring Kring : (cth K).
Local Open Scope ring_K.

Lemma rsum_grid n kd (f : Z -> K) : 0 <= n -> 1 <= kd ->
  rsum 0 (n * kd)%Z f = rsum 0 n (fun i => rsum 0 kd (fun a => f (i * kd + a)%Z)).
Proof.
  intros Hn Hk. revert n Hn. apply natlike_ind.
  - rewrite !rsum_empty by lia. reflexivity.
  - intros n Hn IH. unfold Z.succ. rewrite rsum_snoc by lia. rewrite <- IH.
    rewrite (rsum_split 0 (n * kd)%Z ((n + 1) * kd)%Z) by nia. f_equal.
    replace ((n + 1) * kd)%Z with (kd + n * kd)%Z by lia. rewrite <- (Z.add_0_l (n * kd)) at 1. rewrite rsum_shift.
    apply rsum_ext. intros a Ha. f_equal. lia.
Qed.

(** ** CBLAS_BI_GEMV *)
Section BiG.
Context {St : Type}.
Variables (I : St -> Prop) (D : Z -> Prop) (T : Z -> St -> K).
Variables (nrow ncol : Z) (rd : Z -> St -> option K) (ldm : Z) (in0 in1 : Z -> option K)
  (add0 add1 : Z -> K -> St -> option St) (w0 w1 : Z -> Z -> K) (av : Z -> Z -> K) (x0 x1 : Z -> K).
Hypothesis Hnrow : 0 <= nrow.
Hypothesis Hncol : 0 <= ncol <= ldm.
Hypothesis H0 : forall j, 0 <= j < ncol -> in0 j = Some (x0 j).
Hypothesis H1 : forall i, 0 <= i < nrow -> in1 i = Some (x1 i).
Hypothesis A0 : forall i v s, 0 <= i < nrow -> I s -> exists s', add0 i v s = Some s' /\ I s' /\ (forall k, rd k s' = rd k s) /\
  forall p, D p -> T p s' = T p s + w0 p i * v.
Hypothesis A1 : forall j v s, 0 <= j < ncol -> I s -> exists s', add1 j v s = Some s' /\ I s' /\ (forall k, k <> j -> rd k s' = rd k s) /\
  forall p, D p -> T p s' = T p s + w1 p j * v.
Let term := bi_term ncol w0 w1 av x0 x1.
(** Row i from column j on, and all later rows, are as they should be. *)
Definition intact (i j : Z) (s : St) : Prop := forall i' j', i <= i' < nrow -> 0 <= j' < ncol -> (1 <= i' \/ j <= j') -> rd (i' * ldm + j')%Z s = Some (av i' j').

Lemma intact_add1 i j s s' : 0 <= i -> 0 <= j < ncol -> intact i j s -> (forall k, k <> j -> rd k s' = rd k s) -> intact i (j + 1) s'.
Proof.
  intros Hi Hj Hs Hk i' j' Hi' Hj' Hor. rewrite Hk; [apply Hs; auto; lia|].
  destruct (Z.eq_dec i' 0) as [->|]; [lia|]. assert (1 * ldm <= i' * ldm) by (apply Z.mul_le_mono_nonneg_r; lia). lia.
Qed.
Lemma intact_later i j i2 s : 0 <= i -> i < i2 -> intact i j s -> intact i2 0 s.
Proof. intros H H' Hs i' j' Hi' Hj' _. apply Hs; lia. Qed.

Lemma bi_gemv_g_spec s : I s -> intact 0 0 s ->
  exists s', bi_gemv_g nrow ncol rd ldm in0 in1 add0 add1 s = Some s' /\ I s' /\
    forall p, D p -> T p s' = T p s + rsum 0 nrow (term p).
Proof.
  intros Is Rs. unfold bi_gemv_g.
  pose proof (Z.div_mod nrow 2 ltac:(lia)) as Hd. pose proof (Z.mod_pos_bound nrow 2 ltac:(lia)) as Hb.
  pose (P1 := fun (i2 : Z) (s' : St) => I s' /\ intact (2 * i2) 0 s' /\ forall p, D p -> T p s' = T p s + rsum 0 (2 * i2)%Z (term p)).
  match goal with |- context [zfor 0 (nrow / 2) ?b s] => destruct (zfor_inv P1 0 (nrow / 2) b s) as [s1 [E1 [I1 [R1 T1]]]] end; [lia| | |].
  - split; auto. split; auto. intros p _. rewrite rsum_empty by lia. ring.
  - intros i2 s' Hi (Is' & Rs' & Ts'). cbv zeta.
    assert (R0 : 0 <= 2 * i2 < nrow) by lia. assert (R1 : 0 <= 2 * i2 + 1 < nrow) by lia.
    rewrite (H1 _ R0), (H1 _ R1). cbn [bind].
    pose (P2 := fun (j : Z) (x : K * K * St) => let '(a, b, s2) := x in I s2 /\ intact (2 * i2) j s2 /\
      a = rsum 0 j (fun j => av (2 * i2)%Z j * x0 j) /\ b = rsum 0 j (fun j => av (2 * i2 + 1)%Z j * x0 j) /\
      forall p, D p -> T p s2 = T p s' + rsum 0 j (fun j => w1 p j * (av (2 * i2)%Z j * x1 (2 * i2)%Z))
                   + rsum 0 j (fun j => w1 p j * (av (2 * i2 + 1)%Z j * x1 (2 * i2 + 1)%Z))).
    match goal with |- context [zfor 0 ncol ?b ?z] => destruct (zfor_inv P2 0 ncol b z) as [[[a b'] s2] [E2 (I2 & C2 & Ea & Eb & T2)]] end; [lia| | |].
    + unfold P2. rewrite !rsum_empty by lia. do 4 (split; auto). intros p _. rewrite !rsum_empty by lia. ring.
    + intros j [[a b'] s2] Hj (I2 & C2 & Ea & Eb & T2). rewrite H0 by lia. cbn [bind]. rewrite (C2 (2 * i2)%Z j), (C2 (2 * i2 + 1)%Z j) by lia. cbn [bind].
      destruct (A1 j (x1 (2 * i2)%Z * av (2 * i2)%Z j + x1 (2 * i2 + 1)%Z * av (2 * i2 + 1)%Z j) s2 ltac:(lia) I2) as (s3 & E3 & I3 & C3 & T3).
      rewrite E3. cbn [bind]. eexists; split; [reflexivity|]. unfold P2. split; auto. split; [eapply intact_add1; eauto; lia|].
      rewrite !rsum_snoc by lia. subst a b'. split; auto. split; auto.
      intros p Hp. rewrite T3, T2, !rsum_snoc by (auto; lia). ring.
    + rewrite E2. cbn [bind].
      destruct (A0 (2 * i2)%Z a s2 R0 I2) as (s3 & E3 & I3 & C3 & T3). rewrite E3. cbn [bind].
      destruct (A0 (2 * i2 + 1)%Z b' s3 R1 I3) as (s4 & E4 & I4 & C4 & T4). rewrite E4.
      eexists; split; [reflexivity|]. split; auto. split.
      { intros i' j' Hi' Hj' _. rewrite C4, C3. apply C2; lia. }
      intros p Hp. rewrite T4, T3, T2, Ts' by auto.
      replace (2 * (i2 + 1))%Z with (2 * i2 + 1 + 1)%Z by lia. rewrite !rsum_snoc by lia.
      unfold term, bi_term. subst a b'. ring.
  - rewrite E1. cbn [bind].
    pose (P3 := fun (i : Z) (s' : St) => I s' /\ intact i 0 s' /\ forall p, D p -> T p s' = T p s + rsum 0 i (term p)).
    match goal with |- context [zfor (2 * (nrow / 2)) nrow ?b s1] => destruct (zfor_inv P3 (2 * (nrow / 2))%Z nrow b s1) as [s2 [E2 [I2 [_ T2]]]] end; [lia| | |].
    + split; auto.
    + intros i s' Hi (Is' & Rs' & Ts'). rewrite H1 by lia. cbn [bind].
      pose (P2 := fun (j : Z) (x : K * St) => let '(a, s2) := x in I s2 /\ intact i j s2 /\
        a = rsum 0 j (fun j => av i j * x0 j) /\
        forall p, D p -> T p s2 = T p s' + rsum 0 j (fun j => w1 p j * (av i j * x1 i))).
      match goal with |- context [zfor 0 ncol ?b ?z] => destruct (zfor_inv P2 0 ncol b z) as [[a s2] [E2 (I2 & C2 & Ea & T2)]] end; [lia| | |].
      * unfold P2. rewrite !rsum_empty by lia. do 3 (split; auto). intros p _. rewrite !rsum_empty by lia. ring.
      * intros j [a s2] Hj (I2 & C2 & Ea & T2). rewrite (C2 i j) by lia. cbn [bind]. rewrite H0 by lia. cbn [bind].
        destruct (A1 j (x1 i * av i j) s2 ltac:(lia) I2) as (s3 & E3 & I3 & C3 & T3).
        rewrite E3. cbn [bind]. eexists; split; [reflexivity|]. unfold P2. split; auto. split; [eapply intact_add1; eauto; lia|].
        rewrite !rsum_snoc by lia. subst a. split; auto.
        intros p Hp. rewrite T3, T2, !rsum_snoc by (auto; lia). ring.
      * rewrite E2. cbn [bind]. destruct (A0 i a s2 ltac:(lia) I2) as (s3 & E3 & I3 & C3 & T3). rewrite E3.
        eexists; split; [reflexivity|]. split; auto. split.
        { intros i' j' Hi' Hj' _. rewrite C3. apply C2; lia. }
        intros p Hp. rewrite T3, T2, Ts', rsum_snoc by (auto; lia).
        unfold term, bi_term. subst a. ring.
    + exists s2. auto.
Qed.
End BiG.

(** ** Kernel blocks *)
Section Kern.
Variable kern : list F -> list F -> Z -> Z -> K.
Variables (dim kdim : Z) (cs0 : mem F) (o0 ld0 n0 : Z) (cs1 : mem F) (o1 ld1 n1 : Z) (P Q : Z -> list F).
Hypothesis Hk : 1 <= kdim.
Hypothesis Hn0 : 0 <= n0.
Hypothesis Hn1 : 0 <= n1.
Hypothesis HP : forall i, 0 <= i < n0 -> point dim cs0 o0 ld0 i = Some (P i).
Hypothesis HQ : forall j, 0 <= j < n1 -> point dim cs1 o1 ld1 j = Some (Q j).
(** Entry (r, c) of the block. *)
Definition kval (r c : Z) : K := kern (P (r / kdim)) (Q (c / kdim)) (r mod kdim) (c mod kdim).

Context {St : Type}.
Variables (I : St -> Prop) (D : Z -> Prop) (T : Z -> St -> K) (w0 w1 : Z -> Z -> K) (x0 x1 : Z -> K).
Let term := bi_term (n1 * kdim)%Z w0 w1 kval x0 x1.

(** *** Evaluation in row blocks *)
Section Eval.
Variables (in0 in1 : Z -> option K) (add0 add1 : Z -> K -> mem K * St -> option (mem K * St)) (blk L : Z).
Hypothesis Hblk : 1 <= blk.
Hypothesis HL : (blk * kdim * (n1 * kdim) <= L)%Z.
Hypothesis H0 : forall j, 0 <= j < n1 * kdim -> in0 j = Some (x0 j).
Hypothesis H1 : forall i, 0 <= i < n0 * kdim -> in1 i = Some (x1 i).
Hypothesis A0 : forall i v d s, 0 <= i < n0 * kdim -> zlen d = L -> I s -> exists d' s', add0 i v (d, s) = Some (d', s') /\ zlen d' = L /\ I s' /\
  (forall k, ld d' k = ld d k) /\ forall p, D p -> T p s' = T p s + w0 p i * v.
Hypothesis A1 : forall j v d s, 0 <= j < n1 * kdim -> zlen d = L -> I s -> exists d' s', add1 j v (d, s) = Some (d', s') /\ zlen d' = L /\ I s' /\
  (forall k, k <> j -> ld d' k = ld d k) /\ forall p, D p -> T p s' = T p s + w1 p j * v.

Lemma eval_loop_spec : forall fuel bs d s, 0 <= bs -> n0 - bs <= Z.of_nat fuel -> zlen d = L -> I s ->
  exists d' s', eval_bimv_loop kern dim kdim cs0 o0 ld0 n0 cs1 o1 ld1 n1 in0 in1 add0 add1 blk fuel bs (d, s) = Some (d', s') /\
    zlen d' = L /\ I s' /\ forall p, D p -> T p s' = T p s + rsum (bs * kdim)%Z (n0 * kdim)%Z (term p).
Proof.
  induction fuel as [|fuel IH]; intros bs d s Hbs Hf Zd Is.
  - cbn [eval_bimv_loop]. destruct (Z.ltb_spec bs n0); [lia|]. exists d, s. split; auto. split; auto. split; auto.
    intros p _. rewrite rsum_empty by nia. ring.
  - cbn [eval_bimv_loop]. destruct (Z.ltb_spec bs n0).
    2:{ exists d, s. split; auto. split; auto. split; auto. intros p _. rewrite rsum_empty by nia. ring. }
    set (npt := (if n0 <? bs + blk then n0 - bs else blk)%Z). cbv zeta. cbn [fst snd].
    assert (Hnpt : 1 <= npt <= blk /\ bs + npt <= n0 /\ (bs + npt = n0 \/ npt = blk)%Z).
    { unfold npt. destruct (Z.ltb_spec n0 (bs + blk)); lia. }
    destruct Hnpt as (N1 & N2 & N3).
    assert (Sz : (npt * kdim * (n1 * kdim) <= L)%Z).
    { assert (npt * kdim <= blk * kdim)%Z by (apply Z.mul_le_mono_nonneg_r; lia).
      assert (npt * kdim * (n1 * kdim) <= blk * kdim * (n1 * kdim))%Z by (apply Z.mul_le_mono_nonneg_r; nia). lia. }
    destruct (krnl_eval_spec kern dim kdim cs0 (o0 + bs)%Z ld0 npt cs1 o1 ld1 n1 (fun i => P (bs + i)%Z) Q d 0) as (m & Em & Zm & Gm); auto; try lia.
    { intros i Hi. specialize (HP (bs + i)%Z ltac:(lia)). unfold point in *. rewrite <- HP. f_equal. apply map_ext. intros e. f_equal. lia. }
    rewrite Em. cbn [bind].
    assert (Cell : forall i j, 0 <= i < npt * kdim -> 0 <= j < n1 * kdim -> ld m (i * (n1 * kdim) + j) = Some (kval (bs * kdim + i) j)).
    { intros i j Hi Hj. destruct (Gm (i * (n1 * kdim) + j)%Z) as [(_ & V)|(Hn & _)].
      - rewrite V, Z.sub_0_r. destruct (divmod_comp (n1 * kdim) i j) as [E1 E2]; [lia|lia|]. rewrite E1, E2. unfold kval. do 2 f_equal.
        + destruct (comp_range kdim npt i Hk Hi) as (_ & C2 & C3). rewrite C3 at 2.
          replace (bs * kdim + (i / kdim * kdim + i mod kdim))%Z with ((bs + i / kdim) * kdim + i mod kdim)%Z by lia.
          f_equal. symmetry. now apply divmod_comp.
        + destruct (comp_range kdim npt i Hk Hi) as (_ & C2 & C3). rewrite C3 at 2.
          replace (bs * kdim + (i / kdim * kdim + i mod kdim))%Z with ((bs + i / kdim) * kdim + i mod kdim)%Z by lia.
          symmetry. now apply divmod_comp.
      - exfalso. apply Hn. unfold in_reg. assert (i * (n1 * kdim) <= (npt * kdim - 1) * (n1 * kdim))%Z by (apply Z.mul_le_mono_nonneg_r; lia). nia. }
    assert (Hs0 : 0 <= bs * kdim) by nia. assert (Hse : (bs * kdim + npt * kdim <= n0 * kdim)%Z) by nia.
    destruct (bi_gemv_g_spec (St := mem K * St) (fun x => zlen (fst x) = L /\ I (snd x)) D (fun p x => T p (snd x)) (npt * kdim)%Z (n1 * kdim)%Z
      (fun k y => ld (fst y) k) (n1 * kdim)%Z in0 (fun i => in1 (bs * kdim + i)%Z) (fun i => add0 (bs * kdim + i)%Z) add1
      (fun p i => w0 p (bs * kdim + i)%Z) w1 (fun i j => kval (bs * kdim + i) j) x0 (fun i => x1 (bs * kdim + i)%Z)) with (s := (m, s)) as ([d2 s2] & E2 & [Z2 I2] & T2); auto; try nia.
    { intros i Hi. apply H1. lia. }
    { intros i v [d1 s1] Hi [Z1 I1]. cbn [fst snd] in *. destruct (A0 (bs * kdim + i)%Z v d1 s1 ltac:(lia) Z1 I1) as (d' & s' & B1 & B2 & B3 & B4 & B5).
      exists (d', s'). cbn [fst snd]. auto. }
    { intros j v [d1 s1] Hj [Z1 I1]. cbn [fst snd] in *. destruct (A1 j v d1 s1 Hj Z1 I1) as (d' & s' & B1 & B2 & B3 & B4 & B5).
      exists (d', s'). cbn [fst snd]. auto. }
    { cbn [fst snd]. split; auto. lia. }
    { intros i j Hi Hj _. apply Cell; auto. }
    cbn [fst snd] in *. rewrite E2. cbn [bind].
    destruct (IH (bs + blk)%Z d2 s2 ltac:(lia) ltac:(lia) Z2 I2) as (d3 & s3 & E3 & Z3 & I3 & T3).
    exists d3, s3. split; auto. split; auto. split; auto. intros p Hp. rewrite T3, T2 by auto.
    rewrite (rsum_split (bs * kdim) (bs * kdim + npt * kdim) (n0 * kdim)) by nia.
    assert (Esh : rsum (bs * kdim)%Z (bs * kdim + npt * kdim)%Z (term p) = rsum 0 (npt * kdim)%Z (fun i => term p (i + bs * kdim)%Z)).
    { rewrite <- rsum_shift. f_equal; lia. }
    rewrite Esh.
    rewrite (rsum_ext 0 (npt * kdim) (fun i => term p (i + bs * kdim)%Z)
      (bi_term (n1 * kdim)%Z (fun p i => w0 p (bs * kdim + i)%Z) w1 (fun i j => kval (bs * kdim + i) j) x0 (fun i => x1 (bs * kdim + i)%Z) p)).
    2:{ intros i Hi. unfold term, bi_term. rewrite (Z.add_comm i). reflexivity. }
    assert (Er : rsum ((bs + blk) * kdim)%Z (n0 * kdim)%Z (term p) = rsum (bs * kdim + npt * kdim)%Z (n0 * kdim)%Z (term p)).
    { destruct N3 as [N3|N3]; [|f_equal; nia]. rewrite !rsum_empty by nia. reflexivity. }
    rewrite Er. ring.
Qed.

Lemma krnl_eval_bimv_spec d s : zlen d = L -> I s ->
  exists d' s', krnl_eval_bimv kern dim kdim cs0 o0 ld0 n0 cs1 o1 ld1 n1 in0 in1 add0 add1 blk (d, s) = Some (d', s') /\
    zlen d' = L /\ I s' /\ forall p, D p -> T p s' = T p s + rsum 0 (n0 * kdim)%Z (term p).
Proof. intros Zd Is. apply (eval_loop_spec (Z.to_nat n0) 0); auto; lia. Qed.
End Eval.
End Kern.
End Blk.
