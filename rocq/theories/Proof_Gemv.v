(** The numerical kernels of the matvec. *)
From Coq Require Import ZArith List Lia Bool Permutation.
From Verif Require Import Base Mem Num CRing Model_Utils Model_Dense Model_Matvec.
Import ListNotations.
Open Scope Z_scope.

Section Gemv.
Context {K : cring}.
Add Ring Kring : (cth K).
Local Open Scope ring_K.

Lemma madd_spec (m : mem K) i v c : ld m i = Some c ->
  exists m', madd m i v = Some m' /\ zlen m' = zlen m /\
    forall j, ld m' j = if i =? j then Some (c + v) else ld m j.
Proof.
  intros H. unfold madd. rewrite H. cbn [bind].
  destruct (st_Some m i (c + v)) as [m' E]; [eapply ld_range; eauto|].
  exists m'. split; auto. split; [eapply st_zlen; eauto|]. intros j. apply (ld_st _ _ _ _ _ E).
Qed.

(** A dot product loop. *)
Lemma dot_spec (m : Z) (a b : Z -> option K) (av bv : Z -> K) : 0 <= m ->
  (forall r, 0 <= r < m -> a r = Some (av r)) -> (forall r, 0 <= r < m -> b r = Some (bv r)) ->
  zfor 0 m (fun r v => x <- a r; y <- b r; Some (v + x * y)) c0 = Some (rsum 0 m (fun r => av r * bv r)).
Proof.
  intros Hm Ha Hb.
  destruct (zfor_sum (fun _ _ => True) (fun v : K => v) 0 m (fun r v => x <- a r; y <- b r; Some (v + x * y))
    (fun r => av r * bv r) c0) as (v & E & _ & T); auto.
  - intros i s Hi _. rewrite Ha, Hb by lia. cbn [bind]. eexists; split; [reflexivity|]. auto.
  - rewrite E. f_equal. rewrite T. ring.
Qed.

Lemma gemv_t_spec m n (A : mem K) aoff lda (x : Z -> option K) acc (y : mem K) (av : Z -> Z -> K) (xv yv : Z -> K) :
  0 < m -> 0 <= n <= zlen y ->
  (forall r c, 0 <= r < m -> 0 <= c < n -> ld A (aoff + r * lda + c)%Z = Some (av r c)) ->
  (forall r, 0 <= r < m -> x r = Some (xv r)) ->
  (acc = true -> forall c, 0 <= c < n -> ld y c = Some (yv c)) ->
  exists y', gemv_t m n A aoff lda x acc y = Some y' /\ zlen y' = zlen y /\
    forall c, 0 <= c < n -> ld y' c = Some ((if acc then yv c else c0) + rsum 0 m (fun r => av r c * xv r)).
Proof.
  intros Hm Hn HA Hx Hy. unfold gemv_t.
  destruct (Z.eqb_spec m 0); [lia|]. destruct (Z.eqb_spec n 0); cbn [orb].
  { exists y. split; auto. split; auto. intros; lia. }
  pose (P := fun (i : Z) (d : mem K) => zlen d = zlen y /\
    forall c, 0 <= c < n -> if c <? i then ld d c = Some ((if acc then yv c else c0) + rsum 0 m (fun r => av r c * xv r))
      else ld d c = ld y c).
  match goal with |- context [zfor 0 n ?b y] => destruct (zfor_inv P 0 n b y) as [d [E [P1 P2]]] end; auto; [lia| | |].
  - split; auto. intros c Hc. destruct (Z.ltb_spec c 0); auto; lia.
  - intros i d Hi [P1 P2]. rewrite (dot_spec m _ _ (fun r => av r i) xv) by (auto; lia). cbn [bind].
    destruct acc.
    + destruct (madd_spec d i (rsum 0 m (fun r => av r i * xv r)) (yv i)) as (d' & E & Z' & G).
      { specialize (P2 i Hi). rewrite Z.ltb_irrefl in P2. rewrite P2. auto. }
      exists d'. split; auto. split; [lia|]. intros c Hc. rewrite !G. specialize (P2 c Hc).
      destruct (Z.eqb_spec i c); destruct (Z.ltb_spec c (i + 1)); destruct (Z.ltb_spec c i); subst; auto; lia.
    + destruct (st_Some d i (rsum 0 m (fun r => av r i * xv r))) as [d' E]; [lia|].
      exists d'. split; auto. split; [rewrite (st_zlen _ _ _ _ E); auto|]. intros c Hc. rewrite !(ld_st _ _ _ _ _ E). specialize (P2 c Hc).
      destruct (Z.eqb_spec i c); destruct (Z.ltb_spec c (i + 1)); destruct (Z.ltb_spec c i); subst; auto; try lia.
      f_equal. ring.
  - exists d. split; auto. split; auto. intros c Hc. specialize (P2 c Hc). destruct (Z.ltb_spec c n); auto; lia.
Qed.

Lemma gemv_n_spec m n (A : mem K) aoff lda (x : Z -> option K) acc (y : mem K) yoff (av : Z -> Z -> K) (xv yv : Z -> K) :
  0 <= m -> 0 < n -> 0 <= yoff -> yoff + m <= zlen y ->
  (forall r c, 0 <= r < m -> 0 <= c < n -> ld A (aoff + r * lda + c)%Z = Some (av r c)) ->
  (forall c, 0 <= c < n -> x c = Some (xv c)) ->
  (acc = true -> forall r, 0 <= r < m -> ld y (yoff + r)%Z = Some (yv r)) ->
  exists y', gemv_n m n A aoff lda x acc y yoff = Some y' /\ zlen y' = zlen y /\
    (forall r, 0 <= r < m -> ld y' (yoff + r)%Z = Some ((if acc then yv r else c0) + rsum 0 n (fun c => av r c * xv c))) /\
    (forall j, ~ (yoff <= j < yoff + m) -> ld y' j = ld y j).
Proof.
  intros Hm Hn Hyo Hyl HA Hx Hy. unfold gemv_n.
  destruct (Z.eqb_spec n 0); [lia|]. rewrite Bool.orb_false_r. destruct (Z.eqb_spec m 0).
  { exists y. split; auto. split; auto. split; auto. intros; lia. }
  pose (P := fun (i : Z) (d : mem K) => zlen d = zlen y /\
    (forall r, 0 <= r < i -> ld d (yoff + r)%Z = Some ((if acc then yv r else c0) + rsum 0 n (fun c => av r c * xv c))) /\
    (forall j, ~ (yoff <= j < yoff + i) -> ld d j = ld y j)).
  match goal with |- context [zfor 0 m ?b y] => destruct (zfor_inv P 0 m b y) as [d [E [P1 [P2 P3]]]] end; auto.
  - split; auto. split; auto. intros; lia.
  - intros i d Hi (P1 & P2 & P3). rewrite (dot_spec n _ _ (fun c => av i c) xv) by (auto; lia). cbn [bind].
    destruct acc.
    + destruct (madd_spec d (yoff + i)%Z (rsum 0 n (fun c => av i c * xv c)) (yv i)) as (d' & E & Z' & G).
      { rewrite P3 by lia. auto. }
      exists d'. split; auto. split; [lia|]. split.
      * intros r Hr. rewrite G. destruct (Z.eqb_spec (yoff + i) (yoff + r)).
        { replace r with i by lia. auto. } { apply P2. lia. }
      * intros j Hj. rewrite G. destruct (Z.eqb_spec (yoff + i) j); [lia|]. apply P3. lia.
    + destruct (st_Some d (yoff + i)%Z (rsum 0 n (fun c => av i c * xv c))) as [d' E]; [lia|].
      exists d'. split; auto. split; [rewrite (st_zlen _ _ _ _ E); auto|]. split.
      * intros r Hr. rewrite !(ld_st _ _ _ _ _ E). destruct (Z.eqb_spec (yoff + i) (yoff + r)).
        { replace r with i by lia. f_equal. ring. } { apply P2. lia. }
      * intros j Hj. rewrite !(ld_st _ _ _ _ _ E). destruct (Z.eqb_spec (yoff + i) j); [lia|]. apply P3. lia.
  - exists d. auto.
Qed.

(** CBLAS_BI_GEMV: any quantity [T p s] (for [p] in some index set) that grows
    by [w0 p i * v] when v is added to x_out_0[i], and by [w1 p j * v] when v is
    added to x_out_1[j], grows by w0^T (A x_in_0) + w1^T (A^T x_in_1). *)
Section Bi.
Context {St P : Type}.
Variable I : St -> Prop.
Variable T : P -> St -> K.
Variables (nrow ncol : Z) (mat : mem K) (moff ldm : Z) (in0 in1 : Z -> option K)
  (add0 add1 : Z -> K -> St -> option St) (w0 w1 : P -> Z -> K) (av : Z -> Z -> K) (x0 x1 : Z -> K).
Hypothesis Hnrow : 0 <= nrow.
Hypothesis Hncol : 0 <= ncol.
Hypothesis Hm : forall i j, 0 <= i < nrow -> 0 <= j < ncol -> ld mat (moff + i * ldm + j)%Z = Some (av i j).
Hypothesis H0 : forall j, 0 <= j < ncol -> in0 j = Some (x0 j).
Hypothesis H1 : forall i, 0 <= i < nrow -> in1 i = Some (x1 i).
Hypothesis A0 : forall i v s, 0 <= i < nrow -> I s -> exists s', add0 i v s = Some s' /\ I s' /\ forall p, T p s' = T p s + w0 p i * v.
Hypothesis A1 : forall j v s, 0 <= j < ncol -> I s -> exists s', add1 j v s = Some s' /\ I s' /\ forall p, T p s' = T p s + w1 p j * v.

Definition bi_term (p : P) (i : Z) : K :=
  w0 p i * rsum 0 ncol (fun j => av i j * x0 j) + rsum 0 ncol (fun j => w1 p j * (av i j * x1 i)).

Lemma bi_gemv_spec s : I s ->
  exists s', bi_gemv nrow ncol mat moff ldm in0 in1 add0 add1 s = Some s' /\ I s' /\
    forall p, T p s' = T p s + rsum 0 nrow (bi_term p).
Proof.
  intros Is. unfold bi_gemv.
  pose proof (Z.div_mod nrow 2 ltac:(lia)) as Hd. pose proof (Z.mod_pos_bound nrow 2 ltac:(lia)) as Hb.
  pose (P1 := fun (i2 : Z) (s' : St) => I s' /\ forall p, T p s' = T p s + rsum 0 (2 * i2)%Z (bi_term p)).
  match goal with |- context [zfor 0 (nrow / 2) ?b s] => destruct (zfor_inv P1 0 (nrow / 2) b s) as [s1 [E1 [I1 T1]]] end; [lia| | |].
  - split; auto. intros p. rewrite rsum_empty by lia. ring.
  - intros i2 s' Hi (Is' & Ts'). cbv zeta.
    assert (R0 : 0 <= 2 * i2 < nrow) by lia. assert (R1 : 0 <= 2 * i2 + 1 < nrow) by lia.
    rewrite (H1 _ R0), (H1 _ R1). cbn [bind].
    pose (P2 := fun (j : Z) (x : K * K * St) => let '(a, b, s2) := x in I s2 /\
      a = rsum 0 j (fun j => av (2 * i2)%Z j * x0 j) /\ b = rsum 0 j (fun j => av (2 * i2 + 1)%Z j * x0 j) /\
      forall p, T p s2 = T p s' + rsum 0 j (fun j => w1 p j * (av (2 * i2)%Z j * x1 (2 * i2)%Z))
                   + rsum 0 j (fun j => w1 p j * (av (2 * i2 + 1)%Z j * x1 (2 * i2 + 1)%Z))).
    match goal with |- context [zfor 0 ncol ?b ?z] => destruct (zfor_inv P2 0 ncol b z) as [[[a b'] s2] [E2 (I2 & Ea & Eb & T2)]] end; auto.
    + unfold P2. rewrite !rsum_empty by lia. repeat split; auto. intros p. rewrite !rsum_empty by lia. ring.
    + intros j [[a b'] s2] Hj (I2 & Ea & Eb & T2). rewrite H0, !Hm by lia. cbn [bind].
      destruct (A1 j (x1 (2 * i2)%Z * av (2 * i2)%Z j + x1 (2 * i2 + 1)%Z * av (2 * i2 + 1)%Z j) s2 ltac:(lia) I2) as (s3 & E3 & I3 & T3).
      rewrite E3. cbn [bind]. eexists; split; [reflexivity|]. unfold P2. split; auto.
      rewrite !rsum_snoc by lia. subst a b'. split; auto. split; auto.
      intros p. rewrite T3, T2, !rsum_snoc by lia. ring.
    + rewrite E2. cbn [bind].
      destruct (A0 (2 * i2)%Z a s2 R0 I2) as (s3 & E3 & I3 & T3). rewrite E3. cbn [bind].
      destruct (A0 (2 * i2 + 1)%Z b' s3 R1 I3) as (s4 & E4 & I4 & T4). rewrite E4.
      eexists; split; [reflexivity|]. split; auto. intros p. rewrite T4, T3, T2, Ts'.
      replace (2 * (i2 + 1))%Z with (2 * i2 + 1 + 1)%Z by lia. rewrite !rsum_snoc by lia.
      unfold bi_term. subst a b'. ring.
  - rewrite E1. cbn [bind].
    pose (P3 := fun (i : Z) (s' : St) => I s' /\ forall p, T p s' = T p s + rsum 0 i (bi_term p)).
    match goal with |- context [zfor (2 * (nrow / 2)) nrow ?b s1] => destruct (zfor_inv P3 (2 * (nrow / 2))%Z nrow b s1) as [s2 [E2 [I2 T2]]] end; [lia| | |].
    + split; auto.
    + intros i s' Hi (Is' & Ts'). rewrite H1 by lia. cbn [bind].
      pose (P2 := fun (j : Z) (x : K * St) => let '(a, s2) := x in I s2 /\
        a = rsum 0 j (fun j => av i j * x0 j) /\
        forall p, T p s2 = T p s' + rsum 0 j (fun j => w1 p j * (av i j * x1 i))).
      match goal with |- context [zfor 0 ncol ?b ?z] => destruct (zfor_inv P2 0 ncol b z) as [[a s2] [E2 (I2 & Ea & T2)]] end; auto.
      * unfold P2. rewrite !rsum_empty by lia. repeat split; auto. intros p. rewrite !rsum_empty by lia. ring.
      * intros j [a s2] Hj (I2 & Ea & T2). rewrite H0, !Hm by lia. cbn [bind].
        destruct (A1 j (x1 i * av i j) s2 ltac:(lia) I2) as (s3 & E3 & I3 & T3).
        rewrite E3. cbn [bind]. eexists; split; [reflexivity|]. unfold P2. split; auto.
        rewrite !rsum_snoc by lia. subst a. split; auto.
        intros p. rewrite T3, T2, !rsum_snoc by lia. ring.
      * rewrite E2. cbn [bind]. destruct (A0 i a s2 ltac:(lia) I2) as (s3 & E3 & I3 & T3). rewrite E3.
        eexists; split; [reflexivity|]. split; auto. intros p. rewrite T3, T2, Ts', rsum_snoc by lia.
        unfold bi_term. subst a. ring.
    + exists s2. auto.
Qed.
End Bi.
End Gemv.
