(** Farthest point sampling (Model_AFN.v). *)
From Coq Require Import ZArith QArith List Lia Bool Permutation.
From Verif Require Import Base Mem Num CRing Model_Utils Spec_Utils Proof_Utils Proof_Build Model_FSAI Spec_FSAI Proof_FSAIKnn Model_AFN Spec_AFN.
Import ListNotations.
Open Scope Z_scope.

Lemma total_flip {A} (lt : A -> A -> bool) : total_lt lt -> total_lt (fun a b => lt b a).
Proof. intros [H1 H2]. split; [auto|]. intros a b c E1 E2. eapply H2; eauto. Qed.

Section Best.
Context {F : num}.
Variable better : F -> F -> bool.
Hypothesis Hb : total_lt better.
Lemma better_le a b c : better b a = false -> better c a = true -> better c b = true.
Proof. intros H1 H2. destruct (better c b) eqn:E; auto. rewrite (tl_trans _ Hb _ _ _ H1 E) in H2. discriminate. Qed.
Lemma first_best_unique v lo hi k k' : first_best better v lo hi k -> first_best better v lo hi k' -> k = k'.
Proof.
  intros (A1 & A2 & A3) (B1 & B2 & B3). destruct (Z.lt_trichotomy k k') as [H|[H|H]]; auto.
  - specialize (B3 k ltac:(lia)). rewrite A2 in B3 by lia. discriminate.
  - specialize (A3 k' ltac:(lia)). rewrite B2 in A3 by lia. discriminate.
Qed.
Lemma first_best_step v lo j idx : lo < j -> first_best better v lo j idx ->
  first_best better v lo (j + 1) (if better (v j) (v idx) then j else idx).
Proof.
  intros Hj (A1 & A2 & A3). destruct (better (v j) (v idx)) eqn:E.
  - split; [lia|]. split.
    + intros i Hi. destruct (Z.eq_dec i j) as [->|]. { destruct (better (v j) (v j)) eqn:E'; auto. now rewrite (tl_asym _ Hb _ _ E') in E'. }
      destruct (better (v i) (v j)) eqn:E'; auto. specialize (A2 i ltac:(lia)). pose proof (tl_asym _ Hb _ _ E') as N. rewrite (tl_trans _ Hb _ _ _ A2 N) in E. discriminate.
    + intros i Hi. eapply better_le; [apply A2; lia|exact E].
  - split; [lia|]. split; auto. intros i Hi. destruct (Z.eq_dec i j) as [->|]; auto. apply A2. lia.
Qed.
Lemma fps_best_spec (v : mem F) (f : Z -> F) spos epos : spos < epos -> (forall j, spos <= j < epos -> ld v j = Some (f j)) ->
  exists k, fps_best better v spos epos = Some (k, f k) /\ first_best better f spos epos k.
Proof.
  intros H Hv. unfold fps_best. rewrite Hv by lia. cbn [bind].
  destruct (zfor_inv (fun j (s : Z * F) => snd s = f (fst s) /\ first_best better f spos j (fst s)) (spos + 1) epos
    (fun j (s : Z * F) => let '(idx, val) := s in x <- ld v j; Some (if better x val then (j, x) else (idx, val))) (spos, f spos)) as ((k & x) & E & P1 & P2); try lia.
  - cbn. split; auto. split; [lia|]. split; [|intros; lia]. intros j Hj. replace j with spos by lia. destruct (better (f spos) (f spos)) eqn:E'; auto. now rewrite (tl_asym _ Hb _ _ E') in E'.
  - intros j (idx & val) Hj (P1 & P2). cbn in P1, P2. subst val. rewrite Hv by lia. cbn [bind]. eexists. split; [reflexivity|].
    pose proof (first_best_step f spos j idx ltac:(lia) P2) as S. destruct (better (f j) (f idx)); cbn; auto.
  - cbn in P1, P2. subst x. exists k. split; [exact E|auto].
Qed.

(** Blocks of a partition: the reduction over threads. *)
Lemma fps_reduce_spec n nt (f : Z -> F) (bi : Z -> Z) midx mval : 1 <= nt <= n ->
  (forall t s l, 0 <= t < nt -> calc_block_spos_len n nt t = Some (s, l) -> first_best better f s (s + l) (bi t) /\ ld midx t = Some (bi t) /\ ld mval t = Some (f (bi t))) ->
  exists k, fps_reduce better nt midx mval = Some k /\ first_best better f 0 n k.
Proof.
  intros Hn H. destruct (cb_tiles n nt ltac:(lia) ltac:(lia)) as (T1 & T2 & T3).
  assert (HH : forall t, 0 <= t < nt -> exists s l, calc_block_spos_len n nt t = Some (s, l) /\ 0 <= s /\ s + l <= n /\ first_best better f s (s + l) (bi t) /\ ld midx t = Some (bi t) /\ ld mval t = Some (f (bi t))).
  { intros t Ht. destruct (T1 t Ht) as (s & l & E & B1 & B2 & B3). exists s, l. destruct (H t s l Ht E) as (Q1 & Q2 & Q3). auto 10. }
  unfold fps_reduce. destruct (HH 0 ltac:(lia)) as (s0 & l0 & _ & _ & _ & _ & _ & M0). rewrite M0. cbn [bind].
  destruct (zfor_inv (fun t (s : Z * F) => snd s = f (bi (fst s)) /\ first_best better (fun t => f (bi t)) 0 t (fst s)) 1 nt
    (fun t (s : Z * F) => let '(idx, val) := s in x <- ld mval t; Some (if better x val then (t, x) else (idx, val))) (0, f (bi 0))) as ((t2 & x) & E & P1 & P2); try lia.
  - cbn. split; auto. split; [lia|]. split; [|intros; lia]. intros j Hj. replace j with 0 by lia. destruct (better (f (bi 0)) (f (bi 0))) eqn:E'; auto. now rewrite (tl_asym _ Hb _ _ E') in E'.
  - intros t (idx & val) Ht (P1 & P2). cbn in P1, P2. subst val. destruct (HH t ltac:(lia)) as (s & l & _ & _ & _ & _ & _ & Mt). rewrite Mt. cbn [bind]. eexists. split; [reflexivity|].
    pose proof (first_best_step (fun t => f (bi t)) 0 t idx ltac:(lia) P2) as S. cbv beta in S. destruct (better (f (bi t)) (f (bi idx))); cbn; auto.
  - cbn in P1, P2. subst x. rewrite E. cbn [bind]. destruct P2 as (R1 & R2 & R3). destruct (HH t2 R1) as (s & l & Es & B1 & B2 & (Q1 & Q2 & Q3) & Mi & Mv). exists (bi t2). split; auto.
    split; [lia|]. split.
    + intros j Hj. destruct (T2 j Hj) as (t & s' & l' & Ht & Es' & Hjs). destruct (H t s' l' Ht Es') as ((_ & W2 & _) & _). eapply (tl_trans _ Hb); [apply R2; exact Ht|apply W2; lia].
    + intros j Hj. destruct (T2 j ltac:(lia)) as (t & s' & l' & Ht & Es' & Hjs). destruct (H t s' l' Ht Es') as ((W1 & W2 & W3) & _).
      destruct (Z.lt_trichotomy t t2) as [Hlt|[->|Hgt]].
      * eapply better_le; [apply W2; lia|]. apply R3. lia.
      * rewrite Es in Es'. injection Es' as <- <-. apply Q3. lia.
      * destruct (T3 t2 t s l s' l' ltac:(lia) ltac:(lia) Es Es') as (D & _). lia.
Qed.
End Best.

Section FPS.
Context {F : num}.
Variable big : F.
Hypothesis HT : total_lt (nlt (n := F)).
Variables (npt dim : Z) (coord : mem F) (X : Z -> Z -> F).
Hypothesis Hdim : 0 <= dim.
Hypothesis HX : coords_at coord 0 npt npt dim X.
Let pt := pt_of dim X.

Definition dk (r : Z -> F) (k j : Z) : F := fold_left (fun s d => let t := nsub (X j d) (r d) in nadd s (nmul t t)) (zrange 0 k) (nlit 0%Q).
Lemma dk_dist r j : dk r dim j = dist2 (pt j) (map r (zrange 0 dim)).
Proof. unfold dk, dist2, pt, pt_of. rewrite combine_map, fold_left_map. reflexivity. Qed.
Lemma dk_snoc r k j : 0 <= k -> dk r (k + 1) j = nadd (dk r k j) (nmul (nsub (X j k) (r k)) (nsub (X j k) (r k))).
Proof. intros. unfold dk. rewrite zrange_snoc, fold_left_app by lia. reflexivity. Qed.

Lemma fill_from {A} (g : Z -> A) spos epos (m : mem A) (body : Z -> mem A -> option (mem A)) : 0 <= spos <= epos -> epos <= zlen m ->
  (forall j m', spos <= j < epos -> zlen m' = zlen m -> ld m' j = ld m j -> body j m' = st m' j (g j)) ->
  exists m', zfor spos epos body m = Some m' /\ zlen m' = zlen m /\ forall c, ld m' c = if (spos <=? c) && (c <? epos) then Some (g c) else ld m c.
Proof.
  intros H1 H2 H.
  destruct (zfor_inv (fun k m' => zlen m' = zlen m /\ forall c, ld m' c = if (spos <=? c) && (c <? k) then Some (g c) else ld m c) spos epos body m) as (m' & E & P1 & P2); auto; try lia.
  - split; auto. intros c. destruct (Z.leb_spec spos c), (Z.ltb_spec c spos); cbn; auto; lia.
  - intros i s Hi (P1 & P2). assert (Li : ld s i = ld m i) by (rewrite P2; destruct (Z.ltb_spec i i); [lia|]; now rewrite andb_false_r).
    rewrite H by auto. destruct (st_Some s i (g i) ltac:(lia)) as (s' & Es). exists s'. split; auto. rewrite (st_zlen _ _ _ _ Es). split; auto. intros c.
    rewrite (ld_st _ _ _ _ _ Es), P2. destruct (Z.eqb_spec i c) as [<-|].
    + destruct (Z.leb_spec spos i), (Z.ltb_spec i (i + 1)); cbn; auto; lia.
    + destruct (Z.leb_spec spos c), (Z.ltb_spec c i), (Z.ltb_spec c (i + 1)); cbn; auto; lia.
  - exists m'. auto.
Qed.

Lemma fps_dist_spec ref (r : Z -> F) spos epos (t : mem F) : 0 <= spos <= epos -> epos <= npt -> zlen t = npt -> (forall d, 0 <= d < dim -> ref d = Some (r d)) ->
  exists t', fps_dist npt dim coord ref spos epos t = Some t' /\ zlen t' = npt /\
    forall c, ld t' c = if (spos <=? c) && (c <? epos) then Some (dist2 (pt c) (map r (zrange 0 dim))) else ld t c.
Proof.
  intros H1 H2 Zt Hr. unfold fps_dist.
  destruct (fill_from (fun _ => nlit 0%Q) spos epos t (fun j t => st t j (nlit 0%Q))) as (t0 & E0 & Z0 & L0); auto; try lia. rewrite E0. cbn [bind].
  destruct (zfor_inv (fun k (t' : mem F) => zlen t' = npt /\ forall c, ld t' c = if (spos <=? c) && (c <? epos) then Some (dk r k c) else ld t c) 0 dim
    (fun d t => r <- ref d; zfor spos epos (fun j t => x <- ld coord (d * npt + j); a <- ld t j; let diff := nsub x r in st t j (nadd a (nmul diff diff))) t) t0) as (t' & E & P1 & P2); auto.
  - split; [lia|]. intros c. rewrite L0. reflexivity.
  - intros d t' Hd (P1 & P2). rewrite Hr by auto. cbn [bind].
    destruct (fill_from (fun c => dk r (d + 1) c) spos epos t' (fun j t => x <- ld coord (d * npt + j); a <- ld t j; let diff := nsub x (r d) in st t j (nadd a (nmul diff diff)))) as (t'' & E & Z1 & L1); auto; try lia.
    + intros j m' Hj Zm Lm. pose proof (HX j d ltac:(lia) Hd) as Hx. rewrite Z.add_0_l in Hx. rewrite Hx. cbn [bind]. rewrite Lm, P2, (proj2 (Z.leb_le _ _)), (proj2 (Z.ltb_lt _ _)) by lia. cbn [andb bind].
      cbv zeta. rewrite dk_snoc by lia. reflexivity.
    + exists t''. split; auto. split; [lia|]. intros c. rewrite L1, P2. destruct ((spos <=? c) && (c <? epos)); auto.
  - exists t'. split; auto. split; auto. intros c. rewrite P2, dk_dist. auto.
Qed.

Lemma fps_center_spec : exists c, fps_center npt dim coord = Some c /\ zlen c = dim /\
  forall d, 0 <= d < dim -> ld c d = Some (ndiv (fold_left (fun a j => nadd a (X j d)) (zrange 0 npt) (nlit 0%Q)) (nlit (inject_Z npt))).
Proof.
  unfold fps_center. set (sum := fun k d => fold_left (fun a j => nadd a (X j d)) (zrange 0 k) (nlit 0%Q)).
  destruct (fill_from (fun _ => nlit (n := F) 0%Q) 0 dim (alloc dim) (fun j t => st t j (nlit (n := F) 0%Q))) as (c0 & E0 & Z0 & L0); auto; try lia. { rewrite zlen_alloc by lia. lia. }
  rewrite zlen_alloc in Z0 by lia. rewrite E0. cbn [bind].
  destruct (zfor_inv (fun k (c : mem F) => zlen c = dim /\ (forall d, 0 <= d < k -> ld c d = Some (ndiv (sum npt d) (nlit (inject_Z npt)))) /\ forall d, k <= d < dim -> ld c d = Some (nlit 0%Q)) 0 dim
    (fun i c => c <- zfor 0 npt (fun j c => a <- ld c i; x <- ld coord (i * npt + j); st c i (nadd a x)) c; a <- ld c i; st c i (ndiv a (nlit (inject_Z npt)))) c0) as (c & E & P1 & P2 & P3); auto.
  - split; auto. split; [intros; lia|]. intros d Hd. rewrite L0, (proj2 (Z.leb_le _ _)), (proj2 (Z.ltb_lt _ _)) by lia. auto.
  - intros i c Hi (P1 & P2 & P3).
    assert (E1 : exists c', zfor 0 npt (fun j c => a <- ld c i; x <- ld coord (i * npt + j); st c i (nadd a x)) c = Some c' /\ zlen c' = dim /\ ld c' i = Some (sum npt i) /\ forall d, d <> i -> ld c' d = ld c d).
    { destruct (Z.le_gt_cases 0 npt) as [Hp|Hp].
      - destruct (zfor_inv (fun k (c' : mem F) => zlen c' = dim /\ ld c' i = Some (sum k i) /\ forall d, d <> i -> ld c' d = ld c d) 0 npt (fun j c => a <- ld c i; x <- ld coord (i * npt + j); st c i (nadd a x)) c) as (c' & E & Q); auto.
        + split; auto. split; auto. apply P3. lia.
        + intros j c' Hj (Q1 & Q2 & Q3). rewrite Q2. cbn [bind]. pose proof (HX j i Hj Hi) as Hx. rewrite Z.add_0_l in Hx. rewrite Hx. cbn [bind].
          destruct (st_Some c' i (nadd (sum j i) (X j i)) ltac:(lia)) as (c2 & E2). exists c2. split; auto. rewrite (st_zlen _ _ _ _ E2). split; auto. split.
          * rewrite (ld_st _ _ _ _ _ E2), Z.eqb_refl. unfold sum. rewrite zrange_snoc, fold_left_app by lia. reflexivity.
          * intros d Hd. rewrite (ld_st _ _ _ _ _ E2). destruct (Z.eqb_spec i d); [congruence|]. auto.
        + eauto.
      - rewrite zfor_empty by lia. exists c. split; auto. split; auto. split; auto. rewrite P3 by lia. unfold sum. rewrite zrange_empty by lia. auto. }
    destruct E1 as (c' & E1 & Q1 & Q2 & Q3). rewrite E1. cbn [bind]. rewrite Q2. cbn [bind].
    destruct (st_Some c' i (ndiv (sum npt i) (nlit (inject_Z npt))) ltac:(lia)) as (c2 & E2). exists c2. split; auto. rewrite (st_zlen _ _ _ _ E2). split; auto. split.
    + intros d Hd. rewrite (ld_st _ _ _ _ _ E2). destruct (Z.eqb_spec i d) as [->|]; auto. rewrite Q3 by lia. apply P2. lia.
    + intros d Hd. rewrite (ld_st _ _ _ _ _ E2). destruct (Z.eqb_spec i d) as [->|]; [lia|]. rewrite Q3 by lia. apply P3. lia.
  - exists c. auto.
Qed.

Variables (nt : Z) (ord : Z -> list Z).
Hypothesis Hnt : 1 <= nt <= npt.
Hypothesis Hord : forall i, any_order nt (ord i).

(** The state after all threads have finished a pass. *)
Definition fps_after (better : F -> F -> bool) (md f : Z -> F) (s : fpsst) : Prop :=
  let '(tmp_d, min_d, midx, mval) := s in zlen tmp_d = npt /\ zlen min_d = npt /\ zlen midx = nt /\ zlen mval = nt /\
  (forall j, 0 <= j < npt -> ld min_d j = Some (md j)) /\
  exists bi, forall t s l, 0 <= t < nt -> calc_block_spos_len npt nt t = Some (s, l) -> first_best better f s (s + l) (bi t) /\ ld midx t = Some (bi t) /\ ld mval t = Some (f (bi t)).

Lemma blk t : 0 <= t < nt -> exists s l, calc_block_spos_len npt nt t = Some (s, l) /\ 0 <= s /\ 1 <= l /\ s + l <= npt.
Proof.
  intros Ht. rewrite cb_eq by lia. assert (1 <= npt / nt) by (apply Z.div_le_lower_bound; lia). pose proof (Z.mod_pos_bound npt nt ltac:(lia)). pose proof (Z.div_mod npt nt ltac:(lia)).
  do 2 eexists. split; [reflexivity|]. destruct (Z.ltb_spec t (npt mod nt)); nia.
Qed.

(** A pass in which thread tid sets its part of min_d to md and records its best
    entry of f. *)
Lemma pass_spec better (md f : Z -> F) (body : Z -> fpsst -> option fpsst) o s (old : Z -> option F) :
  any_order nt o -> (let '(tmp_d, min_d, midx, mval) := s in zlen tmp_d = npt /\ zlen min_d = npt /\ zlen midx = nt /\ zlen mval = nt /\ forall j, ld min_d j = old j) ->
  (forall t sp l tmp_d min_d midx mval, 0 <= t < nt -> calc_block_spos_len npt nt t = Some (sp, l) -> 0 <= sp -> 1 <= l -> sp + l <= npt ->
     zlen tmp_d = npt -> zlen min_d = npt -> zlen midx = nt -> zlen mval = nt -> (forall j, sp <= j < sp + l -> ld min_d j = old j) ->
     exists tmp_d' min_d' midx' mval' k, body t (tmp_d, min_d, midx, mval) = Some (tmp_d', min_d', midx', mval') /\ zlen tmp_d' = npt /\ zlen min_d' = npt /\
       (forall c, ld min_d' c = if (sp <=? c) && (c <? sp + l) then Some (md c) else ld min_d c) /\
       st midx t k = Some midx' /\ st mval t (f k) = Some mval' /\ first_best better f sp (sp + l) k) ->
  exists s', in_order o body s = Some s' /\ fps_after better md f s'.
Proof.
  intros Ho Hs Hbody. destruct (cb_tiles npt nt ltac:(lia) ltac:(lia)) as (T1 & T2 & T3).
  destruct (in_order_inv (fun done (s : fpsst) => let '(tmp_d, min_d, midx, mval) := s in zlen tmp_d = npt /\ zlen min_d = npt /\ zlen midx = nt /\ zlen mval = nt /\
      (forall t sp l j, In t done -> 0 <= t < nt -> calc_block_spos_len npt nt t = Some (sp, l) -> sp <= j < sp + l -> ld min_d j = Some (md j)) /\
      (forall t sp l j, ~ In t done -> 0 <= t < nt -> calc_block_spos_len npt nt t = Some (sp, l) -> sp <= j < sp + l -> ld min_d j = old j) /\
      exists bi, forall t sp l, In t done -> 0 <= t < nt -> calc_block_spos_len npt nt t = Some (sp, l) -> first_best better f sp (sp + l) (bi t) /\ ld midx t = Some (bi t) /\ ld mval t = Some (f (bi t)))
     body o [] s) as ((((td & mdd) & mi) & mv) & done & E & (Z1 & Z2 & Z3 & Z4 & L1 & L2 & bi & L3) & Hdn).
  - eapply any_order_nodup; eauto.
  - intros i _ [].
  - destruct s as (((td & mdd) & mi) & mv). destruct Hs as (Z1 & Z2 & Z3 & Z4 & L). do 4 (split; [auto|]). split; [intros t sp l j []|]. split; [auto|]. exists (fun _ => 0). intros t sp l [].
  - intros done t (((td & mdd) & mi) & mv) Ht Hnd (Z1 & Z2 & Z3 & Z4 & L1 & L2 & bi & L3). apply (any_order_in nt) in Ht; auto.
    destruct (blk t Ht) as (sp & l & Eb & B1 & B2 & B3).
    destruct (Hbody t sp l td mdd mi mv Ht Eb B1 B2 B3 Z1 Z2 Z3 Z4) as (td' & md' & mi' & mv' & k & Eq & Y1 & Y2 & Y3 & Y4 & Y5 & Y6). { intros j Hj. eapply L2; eauto. }
    exists (td', md', mi', mv'). split; [exact Eq|]. rewrite (st_zlen _ _ _ _ Y4), (st_zlen _ _ _ _ Y5). do 4 (split; [auto|]).
    assert (Disj : forall t' sp' l' j, 0 <= t' < nt -> t' <> t -> calc_block_spos_len npt nt t' = Some (sp', l') -> sp' <= j < sp' + l' -> ~ (sp <= j < sp + l)).
    { intros t' sp' l' j Ht' Hne E' Hj Hc. destruct (Z.lt_ge_cases t t').
      - destruct (T3 t t' sp l sp' l' ltac:(lia) ltac:(lia) Eb E'). lia.
      - destruct (T3 t' t sp' l' sp l ltac:(lia) ltac:(lia) E' Eb). lia. }
    split; [|split].
    + intros t' sp' l' j Hin Ht' E' Hj. rewrite Y3. destruct Hin as [<-|Hin].
      * rewrite Eb in E'. injection E' as <- <-. rewrite (proj2 (Z.leb_le _ _)), (proj2 (Z.ltb_lt _ _)) by lia. auto.
      * assert (t' <> t) by (intros ->; auto). pose proof (Disj t' sp' l' j Ht' H E' Hj). destruct (Z.leb_spec sp j), (Z.ltb_spec j (sp + l)); cbn [andb]; try (eapply L1; eauto); lia.
    + intros t' sp' l' j Hin Ht' E' Hj. rewrite Y3. assert (t' <> t) by (intros ->; apply Hin; now left). pose proof (Disj t' sp' l' j Ht' H E' Hj).
      destruct (Z.leb_spec sp j), (Z.ltb_spec j (sp + l)); cbn [andb]; try (apply (L2 t' sp' l'); auto; intros Hc; apply Hin; now right); lia.
    + exists (fun t' => if t' =? t then k else bi t'). intros t' sp' l' Hin Ht' E'. rewrite (ld_st _ _ _ _ _ Y4), (ld_st _ _ _ _ _ Y5), (Z.eqb_sym t t'). destruct (Z.eqb_spec t' t) as [->|Ne].
      * rewrite Eb in E'. injection E' as <- <-. auto.
      * destruct Hin as [<-|Hin]; [contradiction|]. eapply L3; eauto.
  - exists (td, mdd, mi, mv). split; auto. assert (Hdn' : forall t, 0 <= t < nt -> In t done) by (intros t Ht; apply Hdn; left; eapply any_order_in; eauto).
    do 4 (split; [auto|]). split.
    + intros j Hj. destruct (T2 j Hj) as (t & sp & l & Ht & Eb & Hjs). eapply L1; eauto.
    + exists bi. intros t sp l Ht Eb. eapply L3; eauto.
Qed.

Theorem FPS_spec k (idx : mem Z) : 1 <= k <= zlen idx ->
  exists idx' sel, FPS big nt ord npt dim coord k idx = Some idx' /\ zlen idx' = zlen idx /\ (forall i, 0 <= i < k -> ld idx' i = Some (sel i)) /\ farthest_points big npt dim X k sel.
Proof.
  intros Hk. unfold FPS. destruct fps_center_spec as (c & Ec & Zc & Lc). rewrite Ec. cbn [bind].
  set (ctr := fun d => ndiv (fold_left (fun a j => nadd a (X j d)) (zrange 0 npt) (nlit 0%Q)) (nlit (inject_Z npt))) in Lc.
  destruct (pass_spec nlt (fun _ => big) (fun j => dist2 (pt j) (centroid npt dim X)) (fps_first big npt dim nt coord c) (ord 0) (alloc npt, alloc npt, alloc nt, alloc nt) (fun _ => None)) as ((((td & md) & mi) & mv) & E1 & Z1 & Z2 & Z3 & Z4 & L1 & bi & L2); auto.
  { rewrite !zlen_alloc by lia. do 4 (split; [auto|]). intros j. unfold ld, alloc, arr.
    destruct (getz (repeat (@None F) (Z.to_nat npt)) j) as [[x|]|] eqn:E; auto. apply getz_In in E. apply repeat_spec in E. discriminate. }
  { intros t sp l td md mi mv Ht Eb B1 B2 B3 Y1 Y2 Y3 Y4 _. unfold fps_first. rewrite Eb. cbn [bind].
    destruct (fill_from (fun _ => big) sp (sp + l) md (fun j m => st m j big)) as (md' & Em & Zm & Lm); auto; try lia. rewrite Em. cbn [bind].
    destruct (fps_dist_spec (fun d => ld c d) ctr sp (sp + l) td) as (td' & Et & Zt & Lt); auto; try lia. rewrite Et. cbn [bind].
    destruct (fps_best_spec nlt HT td' (fun j => dist2 (pt j) (centroid npt dim X)) sp (sp + l)) as (kk & Ek & Fk); try lia.
    { intros j Hj. rewrite Lt, (proj2 (Z.leb_le _ _)), (proj2 (Z.ltb_lt _ _)) by lia. reflexivity. }
    rewrite Ek. cbn [bind]. destruct (st_Some mi t kk ltac:(lia)) as (mi' & Ei). rewrite Ei. cbn [bind].
    destruct (st_Some mv t (dist2 (pt kk) (centroid npt dim X)) ltac:(lia)) as (mv' & Ev). rewrite Ev. cbn [bind].
    exists td', md', mi', mv', kk. split; [reflexivity|]. split; [auto|]. split; [lia|]. auto. }
  rewrite E1. cbn [bind]. destruct (fps_reduce_spec nlt HT npt nt _ bi mi mv Hnt L2) as (m0 & Em & F0). rewrite Em. cbn [bind].
  destruct (st_Some idx 0 m0 ltac:(lia)) as (idx0 & Ei). rewrite Ei. cbn [bind].
  match goal with |- context [zfor 1 k ?f ?s] => set (body := f); set (s0 := s) end.
  destruct (zfor_inv (fun i (r : fpsst * Z * mem Z) => let '(s, last, ix) := r in exists sel, last = sel (i - 1) /\ zlen ix = zlen idx /\ (forall a, 0 <= a < i -> ld ix a = Some (sel a)) /\
      farthest_points big npt dim X i sel /\
      let '(td, md, mi, mv) := s in zlen td = npt /\ zlen md = npt /\ zlen mi = nt /\ zlen mv = nt /\ forall j, 0 <= j < npt -> ld md j = Some (min_dist big pt sel (Z.to_nat (i - 1)) j))
    1 k body s0) as (((s' & last') & ix') & E & sel & Hlast & Zi & Li & Hfp & _); try lia.
  - exists (fun _ => m0). split; auto. split; [eapply st_zlen; eauto|]. split; [|split].
    + intros a Ha. replace a with 0 by lia. eapply ld_st_same; eauto.
    + split; [exact F0|]. intros; lia.
    + auto 10.
  - intros i (((((td1 & md1) & mi1) & mv1) & last) & ix) Hi (sel & Hlast & Zi & Li & Hfp & Y1 & Y2 & Y3 & Y4 & Y5).
    assert (Hl : 0 <= sel (i - 1) < npt).
    { destruct Hfp as ((G1 & _) & G2). destruct (Z.eq_dec i 1) as [->|]; [exact G1|]. destruct (G2 (i - 1) ltac:(lia)) as (B & _). exact B. }
    destruct (pass_spec (fun a b => nlt b a) (min_dist big pt sel (Z.to_nat i)) (min_dist big pt sel (Z.to_nat i)) (fps_next npt dim nt coord last) (ord i) (td1, md1, mi1, mv1) (fun j => ld md1 j)) as ((((td2 & md2) & mi2) & mv2) & E2 & Z1' & Z2' & Z3' & Z4' & L1' & bi' & L2'); auto.
    { intros t sp l td' md' mi' mv' Ht Eb B1 B2 B3 W1 W2 W3 W4 W5. unfold fps_next. rewrite Eb. cbn [bind].
      destruct (fps_dist_spec (fun d => ld coord (d * npt + last)) (fun d => X last d) sp (sp + l) td') as (td'' & Et & Zt & Lt); auto; try lia.
      { intros d Hd. pose proof (HX last d ltac:(lia) Hd) as Hx. rewrite Z.add_0_l in Hx. auto. }
      rewrite Et. cbn [bind].
      destruct (fill_from (min_dist big pt sel (Z.to_nat i)) sp (sp + l) md' (fun j m => a <- ld td'' j; b <- ld m j; st m j (if nlt a b then a else b))) as (md'' & Em' & Zm & Lm); auto; try lia.
      { intros j m' Hj Zm' Lm'. rewrite Lt, (proj2 (Z.leb_le _ _)), (proj2 (Z.ltb_lt _ _)) by lia. cbn [andb bind]. rewrite Lm', W5 by lia. rewrite Y5 by lia. cbn [bind]. f_equal.
        replace (Z.to_nat i) with (S (Z.to_nat (i - 1))) by lia. cbn [min_dist]. cbv zeta. rewrite Z2Nat.id by lia. rewrite <- Hlast. reflexivity. }
      rewrite Em'. cbn [bind].
      destruct (fps_best_spec (fun a b => nlt b a) (total_flip _ HT) md'' (min_dist big pt sel (Z.to_nat i)) sp (sp + l)) as (kk & Ek & Fk); try lia.
      { intros j Hj. rewrite Lm, (proj2 (Z.leb_le _ _)), (proj2 (Z.ltb_lt _ _)) by lia. reflexivity. }
      rewrite Ek. cbn [bind]. destruct (st_Some mi' t kk ltac:(lia)) as (mi'' & Ei'). rewrite Ei'. cbn [bind].
      destruct (st_Some mv' t (min_dist big pt sel (Z.to_nat i) kk) ltac:(lia)) as (mv'' & Ev). rewrite Ev. cbn [bind].
      exists td'', md'', mi'', mv'', kk. split; [reflexivity|]. split; [auto|]. split; [lia|]. auto. }
    unfold body. rewrite E2. cbn [bind]. destruct (fps_reduce_spec (fun a b => nlt b a) (total_flip _ HT) npt nt _ bi' mi2 mv2 Hnt L2') as (m & Em' & Fm). rewrite Em'. cbn [bind].
    destruct (st_Some ix i m ltac:(lia)) as (ix2 & Eix). rewrite Eix. cbn [bind]. eexists. split; [reflexivity|]. cbv beta iota.
    set (sel' := fun a => if a =? i then m else sel a).
    assert (Hmd : forall q j, Z.of_nat q <= i -> min_dist big pt sel' q j = min_dist big pt sel q j).
    { induction q as [|q IH]; intros j Hq; [auto|]. cbn [min_dist]. cbv zeta. rewrite IH by lia. unfold sel'. destruct (Z.eqb_spec (Z.of_nat q) i); [lia|]. auto. }
    exists sel'. replace (i + 1 - 1) with i by lia. split; [unfold sel'; now rewrite Z.eqb_refl|]. split; [rewrite (st_zlen _ _ _ _ Eix); auto|]. split; [|split].
    + intros a Ha. rewrite (ld_st _ _ _ _ _ Eix). unfold sel'. rewrite (Z.eqb_sym a i). destruct (Z.eqb_spec i a); auto. apply Li. lia.
    + destruct Hfp as (G1 & G2). split.
      * unfold sel'. destruct (Z.eqb_spec 0 i); [lia|]. auto.
      * intros a Ha. unfold sel' at 2. destruct (Z.eqb_spec a i) as [->|].
        -- destruct Fm as (M1 & M2 & M3). split; auto. split; intros j Hj; fold pt; rewrite !Hmd by lia; auto.
        -- destruct (G2 a ltac:(lia)) as (M1 & M2 & M3). split; auto. split; intros j Hj; fold pt; rewrite !Hmd by lia; auto.
    + do 4 (split; [auto|]). intros j Hj. rewrite Hmd by lia. auto.
  - rewrite E. cbn [bind]. exists ix', sel. auto.
Qed.
End FPS.
