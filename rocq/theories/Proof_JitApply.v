(** Applying one kernel block on either of the two paths (Model_JIT.v apply_block). *)
From Coq Require Import ZArith List Lia Bool Permutation.
From Verif Require Import Base Mem Num CRing Conc Model_Utils Model_Dense Spec_Dense Model_Partition Model_Matvec Spec_Matvec Proof_Gemv Proof_MvFwd Proof_MvBwd Model_Build Model_JIT Proof_JitBlk Proof_JitExt.
Import ListNotations.
Open Scope Z_scope.

(** Position of component k: kernel dimension outermost for the bi-matvec, as it
    is otherwise. *)
Definition lay (b : bool) (kd ld k : Z) : Z := if b then (k mod kd) * ld + k / kd else k.
Lemma lay_range b kd n k : 1 <= kd -> 0 <= k < n * kd -> 0 <= lay b kd n k < n * kd.
Proof.
  intros Hk H. unfold lay. destruct b; [|lia]. destruct (comp_range kd n k Hk H) as (A & B & C).
  rewrite (Z.mul_comm n kd). apply grid_range; auto.
Qed.
Lemma lay_inj b kd n k k' : 1 <= kd -> 0 <= k < n * kd -> 0 <= k' < n * kd -> lay b kd n k = lay b kd n k' -> k = k'.
Proof.
  intros Hk H H' E. unfold lay in E. destruct b; [|lia]. destruct (comp_range kd n k Hk H) as (A & B & C).
  destruct (comp_range kd n k' Hk H') as (A' & B' & C'). apply grid_inj in E as [E1 E2]; auto. rewrite C, C', E1, E2. auto.
Qed.
Lemma lay_comp kd ld i a : 1 <= kd -> 0 <= a < kd -> lay true kd ld (i * kd + a) = a * ld + i.
Proof. intros Hk Ha. unfold lay. destruct (divmod_comp kd i a Hk Ha) as [-> ->]. reflexivity. Qed.
Lemma lay_shift b kd ld ps k : 1 <= kd -> lay b kd ld (kd * ps + k) = (if b then ps else kd * ps) + lay b kd ld k.
Proof.
  intros Hk. unfold lay. destruct b; [|lia].
  replace (kd * ps + k) with (k + ps * kd) by lia. rewrite Z.mod_add, Z.div_add by lia. lia.
Qed.
Lemma lay_one b ld k : lay b 1 ld k = k.
Proof. unfold lay. destruct b; auto. rewrite Z.mod_1_r, Z.div_1_r. lia. Qed.

Section Apply.
Context {F : num} {K : cring}.
Add Ring Kring : (cth K).
Local Open Scope ring_K.
Variable kern : list F -> list F -> Z -> Z -> K.
Variables (simd : Z) (h : h2rep F K) (c : jctx F).
Notation kd := (h_kdim h).
Notation b := (jx_bimv c).
Hypothesis Hs : 1 <= simd.
Hypothesis Hd : 0 <= jx_dim c.
Hypothesis Hk : 1 <= kd.
Variables (I : mvst K -> Prop) (D : Z -> Prop) (T : Z -> mvst K -> K).
Hypothesis HIm : forall s, I s -> m0_ok h (s_m0 s).
Hypothesis HI : forall s l, I s -> m0_ok h l -> I (set_m0 s l) /\ forall p, D p -> T p (set_m0 s l) = T p s.

Lemma put_m0_spec tid m s : I s -> 0 <= tid < h_nthread h -> dm_ok m ->
  exists s', put_m0 tid m s = Some s' /\ I s' /\ (forall p, D p -> T p s' = T p s) /\ getz (s_m0 s') tid = Some m /\ exists l, s' = set_m0 s l.
Proof.
  intros Is Ht Om. unfold put_m0. destruct (HIm s Is) as [Zm Fm]. destruct (setz_Some (s_m0 s) tid m) as [l El]; [lia|]. rewrite El. cbn [bind].
  assert (Ol : m0_ok h l). { split; [rewrite (setz_zlen _ _ _ _ El); auto|]. eapply Forall_setz; eauto. }
  destruct (HI s l Is Ol) as [I' T']. eexists. split; [reflexivity|]. split; auto. split; auto. split; eauto. cbn. rewrite (getz_setz _ _ _ _ _ El), Z.eqb_refl. auto.
Qed.
Lemma get_m0_spec tid nrow ncol s : I s -> 0 <= tid < h_nthread h -> (0 <= nrow * ncol)%Z ->
  exists m, get_m0 tid nrow ncol s = Some m /\ dm_ok m /\ dm_nrow m = nrow /\ dm_ncol m = ncol /\ (nrow * ncol <= zlen (dm_data m))%Z.
Proof.
  intros Is Ht Hn. destruct (HIm s Is) as [Zm Fm]. destruct (getz_in (s_m0 s) tid ltac:(lia)) as [m Em]. unfold get_m0. rewrite Em. cbn [bind].
  eexists. split; [reflexivity|]. destruct (dm_resize_ok m nrow ncol) as (A & B & C & _ & E); auto. eapply Forall_getz; eauto.
Qed.

Section Block.
Variables (cs0 : mem F) (o0 ld0 n0 : Z) (cs1 : mem F) (o1 ld1 n1 : Z) (P Q : Z -> list F).
Hypothesis Hn0 : 0 <= n0.
Hypothesis Hn1 : 0 <= n1.
Hypothesis HP : forall i, 0 <= i < n0 -> point (jx_dim c) cs0 o0 ld0 i = Some (P i).
Hypothesis HQ : forall j, 0 <= j < n1 -> point (jx_dim c) cs1 o1 ld1 j = Some (Q j).
Variables (w0 w1 : Z -> Z -> K) (x0 x1 : Z -> K) (in0 in1 : Z -> option K) (ldi0 ldi1 ldo0 ldo1 : Z) (add0 add1 : Z -> K -> mvst K -> option (mvst K)).
Hypothesis H0 : forall j, 0 <= j < n1 * kd -> in0 (lay b kd ldi0 j) = Some (x0 j).
Hypothesis H1 : forall i, 0 <= i < n0 * kd -> in1 (lay b kd ldi1 i) = Some (x1 i).
Hypothesis A0 : forall i v s, 0 <= i < n0 * kd -> I s -> exists s', add0 (lay b kd ldo0 i) v s = Some s' /\ I s' /\
  forall p, D p -> T p s' = T p s + w0 p i * v.
Hypothesis A1 : forall j v s, 0 <= j < n1 * kd -> I s -> exists s', add1 (lay b kd ldo1 j) v s = Some s' /\ I s' /\
  forall p, D p -> T p s' = T p s + w1 p j * v.

Lemma in_grid n i a : 0 <= i < n -> 0 <= a < kd -> 0 <= i * kd + a < n * kd.
Proof. intros. nia. Qed.

Lemma apply_block_spec tid blk s : I s -> 0 <= tid < h_nthread h ->
  (b = false -> 1 <= blk /\ exists m, getz (s_m0 s) tid = Some m /\ (blk * kd * (n1 * kd) <= zlen (dm_data m))%Z) ->
  exists s', apply_block kern simd h c (cs0, o0, ld0, n0) (cs1, o1, ld1, n1) in0 in1 ldi0 ldi1 ldo0 ldo1 add0 add1 tid blk s = Some s' /\ I s' /\
    forall p, D p -> T p s' = T p s + rsum 0 (n0 * kd)%Z (bi_term (n1 * kd)%Z w0 w1 (kval kern kd P Q) x0 x1 p).
Proof.
  intros Is Ht Hb. unfold apply_block. revert H0 H1 A0 A1 Hb. destruct b; intros H0 H1 A0 A1 Hb.
  - apply ext_krnl_bimv_spec with (P := P) (Q := Q); auto.
    + intros a j Ha Hj. specialize (H0 (j * kd + a)%Z (in_grid n1 j a Hj Ha)). now rewrite lay_comp in H0.
    + intros a j Ha Hj. specialize (H1 (j * kd + a)%Z (in_grid n0 j a Hj Ha)). now rewrite lay_comp in H1.
    + intros a i v s' Ha Hi Is'. specialize (A0 (i * kd + a)%Z v s' (in_grid n0 i a Hi Ha) Is'). now rewrite lay_comp in A0.
    + intros a i v s' Ha Hi Is'. specialize (A1 (i * kd + a)%Z v s' (in_grid n1 i a Hi Ha) Is'). now rewrite lay_comp in A1.
  - destruct Hb as (Hblk & m & Em & Lm); auto. rewrite Em. cbn [bind].
    destruct (krnl_eval_bimv_spec kern (jx_dim c) kd cs0 o0 ld0 n0 cs1 o1 ld1 n1 P Q Hk Hn1 HP HQ I D T w0 w1 x0 x1 in0 in1
      (fun k v x => s <- add0 k v (snd x); Some (fst x, s)) (fun k v x => s <- add1 k v (snd x); Some (fst x, s)) blk (zlen (dm_data m))) with (d := dm_data m) (s := s)
      as (d' & s' & E & Zd & I' & T'); auto.
    + intros i v d s1 Hi Zd1 I1. destruct (A0 i v s1 Hi I1) as (s2 & E2 & I2 & T2). unfold lay in E2. exists d, s2. cbn [fst snd]. rewrite E2. cbn [bind]. auto.
    + intros i v d s1 Hi Zd1 I1. destruct (A1 i v s1 Hi I1) as (s2 & E2 & I2 & T2). unfold lay in E2. exists d, s2. cbn [fst snd]. rewrite E2. cbn [bind]. auto.
    + match type of E with ?L = _ => match goal with |- context [bind ?e _] => change e with L end end. rewrite E. cbn [bind]. destruct (put_m0_spec tid (dm_set_data m d') s' I' Ht) as (s2 & E2 & I2 & T2 & _).
      { apply dm_set_data_ok; auto. destruct (HIm s Is) as [_ Fm]. eapply Forall_getz; eauto. }
      exists s2. split; auto. split; auto. intros p Hp. rewrite T2, T' by auto. reflexivity.
Qed.
End Block.
End Apply.
