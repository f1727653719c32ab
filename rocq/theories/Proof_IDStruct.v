(** What holds of the QR step whatever the arithmetic: the column order is a
    permutation that keeps the blocks of kdim columns together, and the rank is
    within bounds. *)
From Coq Require Import ZArith QArith List Lia Bool Permutation.
From Verif Require Import Base Mem FNum Model_Utils Model_Dense Model_CSR Model_Build Model_ID Proof_IDMem Proof_IDQR Proof_IDIndex Proof_IDQRk.
Import ListNotations.
Open Scope Z_scope.

(** Blocks of kdim consecutive columns stay together, in order. *)
Definition blocked (kdim nblk : Z) (p : Z -> Z) : Prop :=
  exists q, perm_on nblk q /\ forall c, 0 <= c < nblk * kdim -> p c = q (c / kdim) * kdim + c mod kdim.

Lemma sw_range i j n c : 0 <= i < n -> 0 <= j < n -> 0 <= c < n -> 0 <= sw i j c < n.
Proof. unfold sw. intros. destruct (Z.eqb_spec c i); destruct (Z.eqb_spec c j); lia. Qed.
Lemma sw_inj i j c c' : sw i j c = sw i j c' -> c = c'.
Proof. unfold sw. destruct (Z.eqb_spec c i); destruct (Z.eqb_spec c j); destruct (Z.eqb_spec c' i); destruct (Z.eqb_spec c' j); lia. Qed.
Lemma perm_sw n p i j : perm_on n p -> 0 <= i < n -> 0 <= j < n -> perm_on n (fun c => p (sw i j c)).
Proof.
  intros [H1 H2] Hi Hj. split.
  - intros c Hc. apply H1. now apply sw_range.
  - intros c c' Hc Hc' E. apply H2 in E; try now apply sw_range. now apply sw_inj in E.
Qed.
Lemma perm_id n : perm_on n (fun c => c). Proof. split; auto. Qed.

Lemma blk_lt kdim nblk c : 0 < kdim -> 0 <= c < nblk * kdim -> 0 <= c / kdim < nblk.
Proof.
  intros Hk Hc. split; [apply Z.div_pos; lia|]. apply Z.div_lt_upper_bound; lia.
Qed.
Lemma blk_in kdim nblk b t : 0 < kdim -> 0 <= b < nblk -> 0 <= t < kdim -> 0 <= b * kdim + t < nblk * kdim.
Proof.
  intros Hk Hb Ht. assert (0 <= b * kdim) by (apply Z.mul_nonneg_nonneg; lia). assert ((b + 1) * kdim <= nblk * kdim) by (apply Z.mul_le_mono_nonneg_r; lia). lia.
Qed.
Lemma blk_divmod kdim b t : 0 <= t < kdim -> (b * kdim + t) / kdim = b /\ (b * kdim + t) mod kdim = t.
Proof. intros Ht. split; [symmetry; apply (Z.div_unique _ _ _ t); lia|symmetry; apply (Z.mod_unique _ _ b); lia]. Qed.
Lemma blocked_perm kdim nblk p : 0 < kdim -> blocked kdim nblk p -> perm_on (nblk * kdim) p.
Proof.
  intros Hk (q & [Q1 Q2] & Hp). split.
  - intros c Hc. rewrite Hp by auto. apply blk_in; auto; [apply Q1; apply blk_lt; auto|apply Z.mod_pos_bound; auto].
  - intros c c' Hc Hc' E. rewrite !Hp in E by auto. pose proof (Z.mod_pos_bound c kdim Hk) as B1. pose proof (Z.mod_pos_bound c' kdim Hk) as B2.
    destruct (blk_divmod kdim (q (c / kdim)) (c mod kdim) B1) as [D1 D2]. rewrite E in D1, D2. destruct (blk_divmod kdim (q (c' / kdim)) (c' mod kdim) B2) as [D3 D4].
    rewrite D3 in D1. rewrite D4 in D2. apply Q2 in D1; try (apply blk_lt; auto).
    rewrite (Z.div_mod c kdim), (Z.div_mod c' kdim) by lia. rewrite D1, D2. reflexivity.
Qed.
Lemma blocked_swb kdim nblk p i j : 0 < kdim -> blocked kdim nblk p -> 0 <= i < nblk -> 0 <= j < nblk -> blocked kdim nblk (fun c => p (swb kdim i j c)).
Proof.
  intros Hk (q & Hq & Hp) Hi Hj. exists (fun b => q (sw i j b)). split; [apply perm_sw; auto|]. intros c Hc. unfold swb. pose proof (Z.mod_pos_bound c kdim Hk) as B1.
  pose proof (blk_lt kdim nblk c Hk Hc). rewrite Hp by (apply blk_in; auto; apply sw_range; auto). destruct (blk_divmod kdim (sw i j (c / kdim)) (c mod kdim) B1) as [-> ->]. reflexivity.
Qed.
Lemma blocked_id kdim nblk : 0 < kdim -> blocked kdim nblk (fun c => c).
Proof. intros Hk. exists (fun c => c). split; [apply perm_id|]. intros c Hc. pose proof (Z.div_mod c kdim ltac:(lia)). lia. Qed.
Lemma blocked_one n p : perm_on n p -> blocked 1 n p.
Proof. intros Hp. exists p. split; auto. intros c Hc. rewrite Z.div_1_r, Z.mod_1_r. lia. Qed.

Section Struct.
Context {F : fnum}.
Variables (dbl : bool) (nrow ncol : Z).

Definition pos_inv (stop_rank i : Z) (s : @fst_ F) : Prop :=
  perm_on ncol (f_p s) /\ (f_rank s = -1 -> i < ncol -> i <= f_piv s < ncol) /\ (f_rank s <> -1 -> 0 <= f_rank s <= i) /\ (f_rank s = -1 -> i <= Z.max 0 stop_rank) /\
  (f_rank s <= Z.max 0 stop_rank) /\ ((if f_rank s =? -1 then i else f_rank s) = 0 -> forall c, f_p s c = c).

Lemma fq_struct rel tol_rank (tol_norm : F) A s : 0 <= nrow -> 0 <= ncol -> fq_run dbl nrow ncol rel tol_rank tol_norm A = Some s ->
  perm_on ncol (f_p s) /\ 0 <= final_rank nrow ncol s <= Z.min nrow ncol /\ final_rank nrow ncol s <= Z.max 0 tol_rank /\ (final_rank nrow ncol s = 0 -> forall c, f_p s c = c).
Proof.
  intros Hn Hc E. unfold fq_run in E. set (sr := Z.min (Z.min nrow ncol) tol_rank) in *. set (sn := stop_norm dbl rel nrow tol_norm (f_np (fq_init nrow ncol A))) in *.
  assert (I : pos_inv sr (Z.min nrow ncol) s).
  { apply (zfor_inv_partial (pos_inv sr) 0 (Z.min nrow ncol) _ _ s E ltac:(lia)).
    - unfold pos_inv, fq_init. cbn [f_p f_piv f_rank]. split; [apply perm_id|]. split; [intros; apply fpiv_range; auto|]. split; [lia|]. split; [lia|]. split; [lia|auto].
    - intros i t t' Hi (P & Pv & R1 & R2 & R3 & Id). unfold fq_step. revert Id. destruct (Z.eqb_spec (f_rank t) (-1)) as [Er|Er]; cbn [negb]; intros Id.
      2:{ intros E1. injection E1 as <-. unfold pos_inv. destruct (Z.eqb_spec (f_rank t) (-1)); [lia|]. split; auto. split; [intros; lia|]. split; [lia|]. split; [intros; lia|]. auto. }
      destruct (flt (f_np t) sn || (sr <=? i)) eqn:Es.
      { intros E1. injection E1 as <-. unfold pos_inv. cbn [f_p f_piv f_rank]. destruct (Z.eqb_spec i (-1)); [lia|]. split; auto. split; [lia|]. split; [lia|]. split; [lia|]. split; [apply R2; auto|auto]. }
      destruct (hinv _ _); [|discriminate]. cbn [bind]. intros E1. injection E1 as <-. unfold pos_inv. cbn [f_p f_piv f_rank]. rewrite Z.eqb_refl.
      apply orb_false_iff in Es as [_ Es]. apply Z.leb_gt in Es. specialize (Pv Er ltac:(lia)).
      split; [apply perm_sw; auto; lia|]. split; [intros; apply fpiv_range; auto|]. split; [lia|]. split; [lia|]. split; [lia|]. lia. }
  destruct I as (P & _ & R1 & R2 & R3 & Id). unfold final_rank. revert Id R1 R2. destruct (Z.eqb_spec (f_rank s) (-1)) as [Er|Er]; intros Id R1 R2; (split; [exact P|]); (split; [lia|]); (split; [|exact Id]); unfold sr in *; lia.
Qed.

Lemma fq_total rel tol_rank (tol_norm : F) A : 0 <= nrow -> 0 <= ncol -> ~ @fdiv_undef F -> exists s, fq_run dbl nrow ncol rel tol_rank tol_norm A = Some s.
Proof.
  intros Hn Hc Hd. unfold fq_run. match goal with |- context [zfor 0 (Z.min nrow ncol) ?b ?s] => destruct (zfor_inv (fun _ _ => True) 0 (Z.min nrow ncol) b s) as (s' & E & _); auto; try lia end; [|eauto].
  intros i t Hi _. unfold fq_step. destruct (negb _); [eauto|]. destruct (_ || _); [eauto|].
  destruct (hinv _ _) eqn:Eh; [cbn [bind]; eauto|]. exfalso. apply Hd. unfold hinv in Eh. red. eauto.
Qed.

Variables (kdim nblk : Z).
Lemma fk_struct stop_rank (sn : F) A i s : 0 < kdim -> 0 <= nblk -> ncol = nblk * kdim -> fk_reach dbl kdim nrow ncol nblk stop_rank sn A i s ->
  blocked kdim nblk (f_p s) /\ (f_rank s = -1 -> i < nblk -> i <= f_piv s < nblk) /\
  (exists q, (if f_rank s =? -1 then i * kdim else f_rank s) = q * kdim /\ 0 <= q <= i /\ q <= Z.max 0 stop_rank /\ (q = 0 -> forall c, f_p s c = c)) /\ 0 <= i.
Proof.
  intros Hk Hnb Hnc H. induction H as [|i s s' H IH Hi Hs].
  - unfold fk_init. cbn [f_p f_piv f_rank]. split; [apply blocked_id; auto|]. split; [intros; apply fpiv_range; auto|]. rewrite Z.eqb_refl. split; [|lia]. exists 0. split; [lia|]. split; [lia|]. split; [lia|auto].
  - destruct IH as (P & Pv & (q & Eq & Q1 & Q2 & Q3) & I0).
    assert (Hin : i < nblk).
    { assert (Z.min nrow ncol / kdim <= ncol / kdim) by (apply Z.div_le_mono; lia). assert (ncol / kdim = nblk) by (rewrite Hnc; apply Z.div_mul; lia). lia. }
    destruct Hs as [Er|Er Es|Mk V W Er Es M bn HS HW M' bn' pv]; cbn [f_p f_piv f_rank].
    + split; auto. split; [intros; contradiction|]. split; [|lia]. destruct (Z.eqb_spec (f_rank s) (-1)); [contradiction|]. exists q. split; auto. split; [lia|]. auto.
    + split; auto. revert Eq. rewrite Er. rewrite Z.eqb_refl. intros Eq. assert (0 <= i * kdim) by (apply Z.mul_nonneg_nonneg; lia). split; [intros; lia|]. split; [|lia]. destruct (Z.eqb_spec (i * kdim) (-1)); [lia|].
      exists q. split; auto. split; [lia|]. auto.
    + revert Eq. rewrite Er. rewrite Z.eqb_refl. intros Eq. assert (q = i) by (apply (Z.mul_reg_r _ _ kdim); lia). subst q. specialize (Pv Er Hin).
      apply orb_false_iff in Es as [_ Es]. apply Z.leb_gt in Es.
      split; [apply blocked_swb; auto; lia|]. split; [intros; apply fpiv_range; auto|]. split; [|lia]. exists (i + 1). split; [reflexivity|]. split; [lia|]. split; [lia|]. lia.
Qed.
End Struct.
