(** Proofs for Model_Build.v: contents of the blocks. *)
From Coq Require Import ZArith List Lia Bool Permutation.
From Verif Require Import Base Mem Num CRing Conc Model_Utils Spec_Utils Proof_Utils Model_Dense Model_CSR Spec_CSR Model_Partition Model_Pairs Model_Matvec Spec_Matvec Proof_MvMid Model_Build Proof_Build.
Import ListNotations.
Open Scope Z_scope.

(** Cell [c] belongs to the region of [n] cells from [p] on. *)
Definition in_reg (p n c : Z) : Prop := p <= c < p + n.

Section Fill.
Context {F : num} {K : Type}.
Variable kern : list F -> list F -> Z -> Z -> K.

Lemma krnl_eval_spec dim kdim cs0 o0 ld0 n0 cs1 o1 ld1 n1 (P Q : Z -> list F) mat off : 1 <= kdim -> 0 <= n0 -> 0 <= n1 ->
  (forall i, 0 <= i < n0 -> point dim cs0 o0 ld0 i = Some (P i)) ->
  (forall j, 0 <= j < n1 -> point dim cs1 o1 ld1 j = Some (Q j)) ->
  0 <= off -> off + (n0 * kdim) * (n1 * kdim) <= zlen mat ->
  exists m', krnl_eval kern dim kdim cs0 o0 ld0 n0 cs1 o1 ld1 n1 mat off (n1 * kdim) = Some m' /\ zlen m' = zlen mat /\
    forall c, (in_reg off ((n0 * kdim) * (n1 * kdim)) c /\
                 ld m' c = Some (kern (P ((c - off) / (n1 * kdim) / kdim)) (Q ((c - off) mod (n1 * kdim) / kdim))
                                   (((c - off) / (n1 * kdim)) mod kdim) (((c - off) mod (n1 * kdim)) mod kdim)))
           \/ (~ in_reg off ((n0 * kdim) * (n1 * kdim)) c /\ getz m' c = getz mat c).
Proof.
  intros Hk H0 H1 HP HQ Ho Hz. set (ldm := n1 * kdim) in *.
  set (g := fun c => kern (P ((c - off) / ldm / kdim)) (Q ((c - off) mod ldm / kdim)) (((c - off) / ldm) mod kdim) (((c - off) mod ldm) mod kdim)).
  assert (Hcell : forall i j a b, 0 <= i < n0 -> 0 <= j < n1 -> 0 <= a < kdim -> 0 <= b < kdim ->
    0 <= i * kdim + a < n0 * kdim /\ 0 <= j * kdim + b < ldm /\
    g (off + (i * kdim + a) * ldm + (j * kdim + b)) = kern (P i) (Q j) a b).
  { intros i j a b Hi Hj Ha Hb. assert (C1 : 0 <= i * kdim + a < n0 * kdim) by nia. assert (C2 : 0 <= j * kdim + b < ldm) by (unfold ldm; nia).
    split; auto. split; auto. unfold g.
    replace (off + (i * kdim + a) * ldm + (j * kdim + b) - off) with ((j * kdim + b) + (i * kdim + a) * ldm) by lia.
    rewrite Z.div_add, Z.mod_add by lia. rewrite (Z.div_small (j * kdim + b) ldm), (Z.mod_small (j * kdim + b) ldm) by lia. rewrite Z.add_0_l.
    replace (i * kdim + a) with (a + i * kdim) by lia. replace (j * kdim + b) with (b + j * kdim) by lia.
    rewrite !Z.div_add, !Z.mod_add by lia. now rewrite !Z.div_small, !Z.mod_small by lia. }
  unfold krnl_eval.
  destruct (zfor_fill (zlen mat) g (fun i c => exists j, 0 <= j < n1 /\ exists a, 0 <= a < kdim /\ exists b, 0 <= b < kdim /\ c = off + (i * kdim + a) * ldm + (j * kdim + b)) 0 n0
    (fun i m => p <- point dim cs0 o0 ld0 i; zfor 0 n1 (fun j m => q <- point dim cs1 o1 ld1 j;
      zfor 0 kdim (fun a m => zfor 0 kdim (fun b m => st m (off + (i * kdim + a) * ldm + (j * kdim + b)) (kern p q a b)) m) m) m) mat eq_refl) as (m' & E & Zm & G).
  - intros i m Hi Zm. rewrite (HP i Hi). cbn [bind].
    apply (zfor_fill (zlen mat) g (fun j c => exists a, 0 <= a < kdim /\ exists b, 0 <= b < kdim /\ c = off + (i * kdim + a) * ldm + (j * kdim + b))); auto.
    clear m Zm. intros j m Hj Zm. rewrite (HQ j Hj). cbn [bind].
    apply (zfor_fill (zlen mat) g (fun a c => exists b, 0 <= b < kdim /\ c = off + (i * kdim + a) * ldm + (j * kdim + b))); auto.
    clear m Zm. intros a m Ha Zm.
    apply (zfor_fill (zlen mat) g (fun b c => c = off + (i * kdim + a) * ldm + (j * kdim + b))); auto.
    clear m Zm. intros b m Hb Zm. destruct (Hcell i j a b Hi Hj Ha Hb) as (C1 & C2 & C3).
    assert ((i * kdim + a) * ldm <= (n0 * kdim - 1) * ldm) by (apply Z.mul_le_mono_nonneg_r; lia).
    destruct (st_Some m (off + (i * kdim + a) * ldm + (j * kdim + b)) (kern (P i) (Q j) a b)) as [m2 E2]; [nia|].
    exists m2. split; auto. split; [rewrite (st_zlen _ _ _ _ E2); auto|]. intros c.
    destruct (Z.eq_dec c (off + (i * kdim + a) * ldm + (j * kdim + b))) as [->|Hne].
    + left. split; auto. rewrite C3. eapply ld_st_same; eauto.
    + right. split; auto. rewrite (getz_st _ _ _ _ c E2). destruct (Z.eqb_spec (off + (i * kdim + a) * ldm + (j * kdim + b)) c); [congruence|auto].
  - exists m'. split; [exact E|]. split; auto. intros c. destruct (G c) as [((i & Hi & j & Hj & a & Ha & b & Hb & ->) & V)|(Hn & V)].
    + left. destruct (Hcell i j a b Hi Hj Ha Hb) as (C1 & C2 & C3). split; auto. unfold in_reg.
      assert ((i * kdim + a) * ldm <= (n0 * kdim - 1) * ldm) by (apply Z.mul_le_mono_nonneg_r; lia). nia.
    + right. split; auto. intros Hr. apply Hn. unfold in_reg in Hr. assert (Hl : 0 < ldm).
      { destruct (Z.eq_dec ldm 0) as [El|]; [rewrite El in Hr; lia|unfold ldm in *; nia]. }
      set (x := c - off) in *. pose proof (Z.div_mod x ldm ltac:(lia)) as D1. pose proof (Z.mod_pos_bound x ldm Hl) as D2.
      assert (D3 : 0 <= x / ldm < n0 * kdim) by (split; [apply Z.div_pos; lia|apply Z.div_lt_upper_bound; nia]).
      pose proof (Z.div_mod (x / ldm) kdim ltac:(lia)) as D4. pose proof (Z.mod_pos_bound (x / ldm) kdim ltac:(lia)) as D5.
      pose proof (Z.div_mod (x mod ldm) kdim ltac:(lia)) as D6. pose proof (Z.mod_pos_bound (x mod ldm) kdim ltac:(lia)) as D7.
      exists (x / ldm / kdim). split; [split; [apply Z.div_pos; lia|apply Z.div_lt_upper_bound; lia]|].
      exists (x mod ldm / kdim). split; [split; [apply Z.div_pos; lia|apply Z.div_lt_upper_bound; unfold ldm in *; lia]|].
      exists ((x / ldm) mod kdim). split; auto. exists ((x mod ldm) mod kdim). split; auto.
      replace (x / ldm / kdim * kdim + (x / ldm) mod kdim) with (x / ldm) by lia.
      replace (x mod ldm / kdim * kdim + (x mod ldm) mod kdim) with (x mod ldm) by lia. unfold x in *. lia.
Qed.

End Fill.

(** ** Filling all blocks *)
Section Blocks.
Context {A : Type}.
Variables (n : Z) (size : Z -> Z) (value : Z -> Z -> A).
Hypothesis Hsize : forall k, 0 <= k < n -> 0 <= size k.
Let off k := zsumf size 0 k.

Lemma off_mono k k' : 0 <= k < k' -> k' <= n -> off k + size k <= off k'.
Proof.
  intros Hk Hk'. unfold off. rewrite (zsumf_split size 0 (k + 1) k') by lia. rewrite zsumf_snoc by lia.
  pose proof (zsumf_nonneg size (k + 1) k' ltac:(intros; apply Hsize; lia)). lia.
Qed.
Lemma off_pos k : 0 <= k <= n -> 0 <= off k.
Proof. intros. apply zsumf_nonneg. intros; apply Hsize; lia. Qed.
Lemma off_end k : 0 <= k < n -> off k + size k <= off n.
Proof. intros. apply off_mono; lia. Qed.
Lemma off_disjoint k k' c : 0 <= k < n -> 0 <= k' < n -> in_reg (off k) (size k) c -> in_reg (off k') (size k') c -> k = k'.
Proof.
  unfold in_reg. intros Hk Hk' H1 H2. destruct (Z.lt_total k k') as [L|[L|L]]; auto.
  - pose proof (off_mono k k' ltac:(lia) ltac:(lia)). lia.
  - pose proof (off_mono k' k ltac:(lia) ltac:(lia)). lia.
Qed.

Lemma run_blocks {E} (blk : E -> Z) (item : E -> mem A -> option (mem A)) (evs : list E) :
  (forall e, In e evs -> 0 <= blk e < n) ->
  (forall e m, In e evs -> zlen m = off n -> exists m', item e m = Some m' /\ zlen m' = off n /\
     forall c, (in_reg (off (blk e)) (size (blk e)) c /\ ld m' c = Some (value (blk e) (c - off (blk e)))) \/
               (~ in_reg (off (blk e)) (size (blk e)) c /\ getz m' c = getz m c)) ->
  (forall k, 0 <= k < n -> 0 < size k -> exists e, In e evs /\ blk e = k) ->
  exists m', run (map item evs) (alloc (off n)) = Some m' /\ zlen m' = off n /\
    forall k c, 0 <= k < n -> 0 <= c < size k -> ld m' (off k + c) = Some (value k c).
Proof.
  intros Hb Hi Hall.
  assert (G : forall evs m, incl evs evs -> (forall e, In e evs -> 0 <= blk e < n) ->
    (forall e m, In e evs -> zlen m = off n -> exists m', item e m = Some m' /\ zlen m' = off n /\
     forall c, (in_reg (off (blk e)) (size (blk e)) c /\ ld m' c = Some (value (blk e) (c - off (blk e)))) \/
               (~ in_reg (off (blk e)) (size (blk e)) c /\ getz m' c = getz m c)) ->
    zlen m = off n -> exists m', run (map item evs) m = Some m' /\ zlen m' = off n /\
      (forall k c, 0 <= k < n -> 0 <= c < size k -> (exists e, In e evs /\ blk e = k) \/ ld m (off k + c) = Some (value k c) -> ld m' (off k + c) = Some (value k c))).
  { clear evs Hb Hi Hall. induction evs as [|e evs IH]; intros m _ Hb Hi Zm; cbn [map run].
    - exists m. split; auto. split; auto. intros k c _ _ [(e & [] & _)|H]; auto.
    - destruct (Hi e m (or_introl eq_refl) Zm) as (m1 & E1 & Z1 & G1). rewrite E1. cbn [bind].
      destruct (IH m1 (incl_refl _)) as (m2 & E2 & Z2 & G2); [intros; apply Hb; now right|intros; apply Hi; auto; now right|auto|].
      exists m2. split; auto. split; auto. intros k c Hk Hc Hor. apply G2; auto.
      specialize (Hb e (or_introl eq_refl)).
      assert (Hreg : in_reg (off k) (size k) (off k + c)) by (unfold in_reg; lia).
      destruct (G1 (off k + c)) as [[Hr V]|[Hr V]].
      + right. assert (blk e = k) as <- by (eapply off_disjoint; eauto). rewrite V. f_equal. f_equal. lia.
      + destruct Hor as [(e' & [<-|He'] & Hk')|V']; [subst k; contradiction|left; eauto|right]. unfold ld in *. now rewrite V. }
  pose proof (zsumf_nonneg size 0 n ltac:(intros; apply Hsize; lia)) as Hn.
  destruct (G evs (alloc (off n)) (incl_refl _) Hb Hi) as (m' & E' & Z' & G'); [now apply zlen_alloc|].
  exists m'. split; auto. split; auto. intros k c Hk Hc. apply G'; auto. left. apply Hall; auto. lia.
Qed.
End Blocks.
