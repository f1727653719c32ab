(** Random sampling. *)
From Coq Require Import ZArith List Lia Bool.
From Verif Require Import Base Mem Num CRing Model_Utils Model_Dense Model_FSAI Model_Rand Spec_Rand.
Import ListNotations.
Open Scope Z_scope.

Lemma fd_nodup v p l q : first_different v p l q -> NoDup l.
Proof. induction 1 as [|l q q1 H IH Hq Hin Hno]; [constructor|]. apply (NoDup_Add (a := v q1) (l := l)); [|auto]. rewrite <- (app_nil_r l) at 1. apply Add_app. Qed.
Lemma fd_in v p l q x : first_different v p l q -> In x l -> exists r, x = v r.
Proof. induction 1 as [|l q q1 H IH Hq Hin Hno]; [intros []|]. intros Hc. apply in_app_or in Hc. destruct Hc as [Hc|[Hc|[]]]; [auto|]. exists q1. now symmetry. Qed.
Lemma fd_le v p l q : first_different v p l q -> p + zlen l <= q.
Proof. induction 1 as [|l q q1 H IH Hq Hin Hno]; [zlia|]. rewrite zlen_app. change (zlen [v q1]) with 1. lia. Qed.
Lemma fd_fun v p l q : first_different v p l q -> forall l' q', first_different v p l' q' -> zlen l = zlen l' -> l = l' /\ q = q'.
Proof.
  induction 1 as [|l q q1 H IH Hq Hin Hno]; intros l' q' H' Z'.
  - inversion H'; subst; auto. rewrite zlen_app in Z'. change (zlen [v q'0]) with 1 in Z'. cbn in Z'. zlia.
  - inversion H' as [|l2 q2 q3 K Kq Kin Kno]; subst.
    + exfalso. revert Z'. rewrite zlen_app. change (zlen [v q1]) with 1. change (zlen (@nil Z)) with 0. zlia.
    + rewrite !zlen_app in Z'. change (zlen [v q1]) with 1 in Z'. change (zlen [v q3]) with 1 in Z'. destruct (IH _ _ K) as (<- & <-); [lia|].
      assert (q1 = q3) as <-. { destruct (Z.lt_trichotomy q1 q3) as [Hc|[Hc|Hc]]; auto; exfalso; [apply Hno, Kin|apply Kno, Hin]; lia. } auto.
Qed.
Lemma zlen_le n (l : list Z) : NoDup l -> (forall x, In x l -> 0 <= x < n) -> 0 <= n -> zlen l <= n.
Proof.
  intros Nd Hl Hn. assert (H : (length l <= length (zrange 0 n))%nat) by (apply NoDup_incl_length; auto; intros x Hx; apply In_zrange; auto).
  enough (zlen l <= zlen (zrange 0 n)) by (pose proof (zlen_zrange 0 n); lia). unfold zlen. lia.
Qed.
Lemma missing n (l : list Z) : NoDup l -> zlen l < n -> exists x, 0 <= x < n /\ ~ In x l.
Proof.
  intros Nd Hl. destruct (existsb (fun x => negb (if in_dec Z.eq_dec x l then true else false)) (zrange 0 n)) eqn:E.
  - apply existsb_exists in E. destruct E as (x & Hx & Hn). exists x. split; [now apply In_zrange|]. destruct (in_dec Z.eq_dec x l); [discriminate|auto].
  - exfalso. assert (H : forall x, In x (zrange 0 n) -> In x l).
    { intros x Hx. destruct (in_dec Z.eq_dec x l) as [|Hn]; auto. exfalso. enough (existsb (fun x => negb (if in_dec Z.eq_dec x l then true else false)) (zrange 0 n) = true) by congruence.
      apply existsb_exists. exists x. split; auto. destruct (in_dec Z.eq_dec x l); [contradiction|auto]. }
    assert (Hz : (length (zrange 0 n) <= length l)%nat) by (apply NoDup_incl_length; auto; apply NoDup_zrange).
    assert (0 <= zlen l) by zlia. assert (zlen (zrange 0 n) <= zlen l) by (unfold zlen; lia). pose proof (zlen_zrange 0 n). lia.
Qed.

Section Sample.
Variable rnd : Z -> Z.
Hypothesis Hr : rand_ok rnd.
Definition flagged (n : Z) (flag : mem Z) (l : list Z) : Prop := n <= zlen flag /\ forall v, 0 <= v < n -> ld flag v = Some (if in_dec Z.eq_dec v l then 1 else 0).

Lemma rem_mod n q : 0 < n -> Z.rem (rnd q) n = rnd q mod n.
Proof. intros Hn. apply Z.rem_mod_nonneg; auto. Qed.
Lemma unused_spec n l flag : 0 < n -> flagged n flag l -> forall fuel p idx p', rand_unused rnd fuel n flag p = Some (idx, p') ->
  exists q, p <= q /\ p' = q + 1 /\ idx = rnd q mod n /\ ~ In idx l /\ forall r, p <= r < q -> In (rnd r mod n) l.
Proof.
  intros Hn (Zf & Hf). induction fuel as [|fuel IH]; intros p idx p'; cbn [rand_unused]; [discriminate|].
  rewrite (proj2 (Z.eqb_neq n 0)) by lia. cbn [bind]. rewrite rem_mod, Hf by (auto; apply Z.mod_pos_bound; auto). cbn [bind].
  destruct (in_dec Z.eq_dec (rnd p mod n) l) as [Hi|Hi]; cbn.
  - intros H. destruct (IH _ _ _ H) as (q & Hq & -> & -> & Hn' & Hall). exists q. repeat (split; [lia || auto|]); auto.
    intros r Hrr. destruct (Z.eq_dec r p) as [->|]; auto. apply Hall. lia.
  - injection 1 as <- <-. exists p. split; [lia|]. split; auto. split; auto. split; auto. intros; lia.
Qed.
Lemma unused_mono n flag : forall fuel fuel' p r, (fuel <= fuel')%nat -> rand_unused rnd fuel n flag p = Some r -> rand_unused rnd fuel' n flag p = Some r.
Proof.
  induction fuel as [|fuel IH]; intros fuel' p r Hle; [discriminate|]. destruct fuel' as [|fuel']; [lia|]. cbn [rand_unused].
  destruct (if n =? 0 then None else Some (Z.rem (rnd p) n)) as [i|]; cbn [bind]; auto. destruct (ld flag i) as [f|]; cbn [bind]; auto.
  destruct (f =? 1); auto. apply IH. lia.
Qed.
Lemma unused_term n l flag : 0 < n -> flagged n flag l -> forall fuel p q, p <= q -> ~ In (rnd q mod n) l -> (Z.to_nat (q - p) < fuel)%nat ->
  exists r, rand_unused rnd fuel n flag p = Some r.
Proof.
  intros Hn (Zf & Hf). induction fuel as [|fuel IH]; intros p q Hq Hi Hl; [lia|]. cbn [rand_unused].
  rewrite (proj2 (Z.eqb_neq n 0)) by lia. cbn [bind]. rewrite rem_mod, Hf by (auto; apply Z.mod_pos_bound; auto). cbn [bind].
  destruct (in_dec Z.eq_dec (rnd p mod n) l) as [Hi'|Hi']; cbn; [|eexists; reflexivity]. assert (p <> q) by (intros ->; auto). apply (IH (p + 1) q); auto; lia.
Qed.

(** The state of the loop after i samples. *)
Definition sampled (n p0 : Z) (samples0 : mem Z) (so i : Z) (x : mem Z * mem Z * Z) : Prop :=
  let '(samples, flag, p) := x in exists l, zlen l = i /\ first_different (fun q => rnd q mod n) p0 l p /\ flagged n flag l /\
    zlen samples = zlen samples0 /\ forall c, ld samples c = if (so <=? c) && (c <? so + i) then getz l (c - so) else ld samples0 c.
Definition sample_step (fuel : nat) (n so : Z) := fun i (x : mem Z * mem Z * Z) => let '(samples, flag, p) := x in
    '(idx, p) <- rand_unused rnd fuel n flag p;
    samples <- st samples (so + i) idx;
    flag <- st flag idx 1;
    Some (samples, flag, p).
Lemma sampled_range n p0 s0 so i s f p l : 0 < n -> first_different (fun q => rnd q mod n) p0 l p -> sampled n p0 s0 so i (s, f, p) -> forall x, In x l -> 0 <= x < n.
Proof. intros Hn H _ x Hx. destruct (fd_in _ _ _ _ _ H Hx) as (r & ->). now apply Z.mod_pos_bound. Qed.
Lemma step_sampled fuel n p0 s0 so i x x' : 0 < n -> 0 <= i -> sampled n p0 s0 so i x -> sample_step fuel n so i x = Some x' -> sampled n p0 s0 so (i + 1) x'.
Proof.
  destruct x as ((s & f) & p). intros Hn Hi (l & Zl & Hd & Hf & Zs & Ls) E. unfold sample_step in E.
  destruct (rand_unused rnd fuel n f p) as [(idx, p1)|] eqn:E1; [|discriminate]. cbn [bind] in E.
  destruct (unused_spec n l f Hn Hf _ _ _ _ E1) as (q & Hq & -> & -> & Hno & Hall).
  destruct (st s (so + i) (rnd q mod n)) as [s1|] eqn:Es; [|discriminate]. cbn [bind] in E.
  destruct (st f (rnd q mod n) 1) as [f1|] eqn:Ef; [|discriminate]. cbn [bind] in E. injection E as <-.
  exists (l ++ [rnd q mod n]). split; [rewrite zlen_app; change (zlen [rnd q mod n]) with 1; lia|]. split.
  { apply (fd_next (fun q => rnd q mod n) p0 l p q); auto. }
  split.
  { destruct Hf as (Zf & Hf). split; [rewrite (st_zlen _ _ _ _ Ef); auto|]. intros v Hv. rewrite (ld_st _ _ _ _ _ Ef), Hf by auto.
    destruct (Z.eqb_spec (rnd q mod n) v) as [Eq|Ne]; destruct (in_dec Z.eq_dec v (l ++ [rnd q mod n])) as [H1|H1]; auto.
    - exfalso. apply H1, in_or_app. right. left. auto.
    - destruct (in_dec Z.eq_dec v l); auto. apply in_app_or in H1. destruct H1 as [|[|[]]]; [contradiction|contradiction].
    - destruct (in_dec Z.eq_dec v l); auto. exfalso. apply H1, in_or_app. auto. }
  split; [rewrite (st_zlen _ _ _ _ Es); auto|]. intros c. rewrite (ld_st _ _ _ _ _ Es), Ls.
  destruct (Z.eqb_spec (so + i) c) as [<-|Ne].
  - rewrite (proj2 (Z.leb_le _ _)), (proj2 (Z.ltb_lt _ _)) by lia. cbn. rewrite getz_app2 by lia. replace (so + i - so - zlen l) with 0 by lia. reflexivity.
  - destruct (Z.leb_spec so c), (Z.ltb_spec c (so + i)), (Z.ltb_spec c (so + (i + 1))); cbn; auto; try lia. rewrite getz_app1 by lia. auto.
Qed.
Lemma init_flag n flag : 0 <= n <= zlen flag -> exists f, zfor 0 n (fun i f => st f i 0) flag = Some f /\ zlen f = zlen flag /\ flagged n f [].
Proof.
  intros Hn. destruct (zfor_inv (fun i f => zlen f = zlen flag /\ forall v, 0 <= v < i -> ld f v = Some 0) 0 n (fun i f => st f i 0) flag) as (f & E & Z1 & H1); try lia.
  - split; auto. intros; lia.
  - intros i x Hi (Zx & Hx). destruct (st_Some x i 0) as (y & Ey); [lia|]. exists y. split; auto. split; [rewrite (st_zlen _ _ _ _ Ey); auto|].
    intros v Hv. rewrite (ld_st _ _ _ _ _ Ey). destruct (Z.eqb_spec i v); auto. apply Hx. lia.
  - exists f. split; auto. split; auto. split; [lia|]. intros v Hv. cbn. auto.
Qed.
Lemma sampled_init n p (s f : mem Z) so : flagged n f [] -> sampled n p s so 0 (s, f, p).
Proof.
  intros Hf. exists []. split; [reflexivity|]. split; [constructor|]. split; auto. split; auto. intros c. destruct (Z.leb_spec so c), (Z.ltb_spec c (so + 0)); cbn; auto; lia.
Qed.
Theorem rand_sample_partial fuel n k (samples : mem Z) so flag p s f q : 0 < n -> 0 <= k -> n <= zlen flag ->
  rand_sample rnd fuel n k samples so flag p = Some (s, f, q) -> sampled n p samples so k (s, f, q).
Proof.
  intros Hn Hk Hf E. unfold rand_sample in E. destruct (init_flag n flag) as (f0 & E0 & Z0 & F0); [lia|]. rewrite E0 in E. cbn [bind] in E.
  pose proof (zfor_inv_partial (fun i x => sampled n p samples so i x) _ _ _ _ _ E ltac:(lia)) as H. apply H.
  - now apply sampled_init.
  - intros i x x' Hi Hx Ex. eapply step_sampled; eauto. lia.
Qed.
Theorem rand_sample_total n k (samples : mem Z) so flag p : 0 < n -> 0 <= k <= n -> n <= zlen flag -> 0 <= so -> so + k <= zlen samples -> fair rnd n ->
  exists fuel0 s f q, forall fuel, (fuel0 <= fuel)%nat -> rand_sample rnd fuel n k samples so flag p = Some (s, f, q).
Proof.
  intros Hn Hk Hf Hso Hs Fair. destruct (init_flag n flag) as (f0 & E0 & Z0 & F0); [lia|].
  enough (H : forall m : nat, Z.of_nat m <= k -> exists fuel0 x, zlen (snd (fst x)) = zlen flag /\ sampled n p samples so (Z.of_nat m) x /\
     forall fuel, (fuel0 <= fuel)%nat -> zfor 0 (Z.of_nat m) (sample_step fuel n so) (samples, f0, p) = Some x).
  { destruct (H (Z.to_nat k) ltac:(lia)) as (fu & ((s & f) & q) & _ & _ & Hx). exists fu, s, f, q. intros fuel Hfu. unfold rand_sample. rewrite E0. cbn [bind]. refine (eq_trans _ (Hx fuel Hfu)). rewrite Z2Nat.id by lia. reflexivity. }
  induction m as [|m IH]; intros Hm.
  - exists O, (samples, f0, p). split; auto. split; [now apply sampled_init|]. intros fuel _. now rewrite zfor_empty by lia.
  - destruct IH as (fu & ((s & f) & q) & Zf & Hx & IH); [lia|]. cbn [fst snd] in Zf. pose proof Hx as (l & Zl & Hd & Hfl & Zs & Ls).
    destruct (missing n l (fd_nodup _ _ _ _ Hd)) as (v & Hv & Hno); [lia|]. destruct (Fair v q Hv) as (r & Hqr & Er).
    destruct (unused_term n l f Hn Hfl (Z.to_nat (r - q) + 1) q r Hqr ltac:(now rewrite Er) ltac:(lia)) as ((idx & q1) & Eu).
    destruct (unused_spec n l f Hn Hfl _ _ _ _ Eu) as (q2 & H2 & -> & Ei & Hno2 & _).
    destruct (st_Some s (so + Z.of_nat m) idx) as (s1 & Es); [lia|]. destruct (st_Some f idx 1) as (f1 & Ef).
    { subst idx. pose proof (Z.mod_pos_bound (rnd q2) n Hn). lia. }
    assert (Es' : forall fuel, (Z.to_nat (r - q) + 1 <= fuel)%nat -> sample_step fuel n so (Z.of_nat m) (s, f, q) = Some (s1, f1, q2 + 1)).
    { intros fuel Hfu. unfold sample_step. rewrite (unused_mono _ _ _ _ _ _ Hfu Eu). cbn [bind]. rewrite Es. cbn [bind]. rewrite Ef. reflexivity. }
    exists (Nat.max fu (Z.to_nat (r - q) + 1)), (s1, f1, q2 + 1). split; [cbn; rewrite (st_zlen _ _ _ _ Ef); auto|]. split.
    { rewrite Nat2Z.inj_succ. unfold Z.succ. apply (step_sampled _ _ _ _ _ _ _ _ Hn (Zle_0_nat m) Hx (Es' _ (Nat.le_refl _))). }
    intros fuel Hfu. rewrite Nat2Z.inj_succ. unfold Z.succ. rewrite zfor_last by lia. rewrite IH by lia. cbn [bind]. apply Es'. lia.
Qed.
Lemma rand_sample_0 fuel k (samples : mem Z) so flag p x : 0 < k -> rand_sample rnd fuel 0 k samples so flag p = Some x -> False.
Proof.
  intros Hk. unfold rand_sample. rewrite zfor_empty by lia. cbn [bind]. rewrite zfor_step by lia. destruct fuel; cbn; discriminate.
Qed.
End Sample.
