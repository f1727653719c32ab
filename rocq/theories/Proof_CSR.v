From Coq Require Import ZArith List Lia Bool Permutation.
From Verif Require Import Base Mem Model_CSR Spec_CSR Spec_Utils Proof_Utils Proof_Qsort.
Import ListNotations.
Open Scope Z_scope.

Section CSR.
Context {A : Type} (nrow nnz : Z) (row col : list Z) (val : list A).
Hypothesis Hnrow : 1 <= nrow.
Hypothesis Hnnz : 1 <= nnz.
Hypothesis Lrow : zlen row = nnz.
Hypothesis Lcol : zlen col = nnz.
Hypothesis Lval : zlen val = nnz.
Hypothesis Rrow : forall k, 0 <= k < nnz -> 0 <= nthz row k < nrow.

Let cntr (n r : Z) : Z := zcount (fun k => nthz row k =? r) (zrange 0 n).
Let off (r : Z) : Z := zsumf (cntr nnz) 0 r.

Lemma cntr_snoc n r : 0 <= n -> cntr (n + 1) r = cntr n r + (if nthz row n =? r then 1 else 0).
Proof. intros. unfold cntr. rewrite zrange_snoc, zcount_app, zcount_cons, zcount_nil by lia. lia. Qed.
Lemma cntr_nonneg n r : 0 <= cntr n r. Proof. apply zcount_nonneg. Qed.
Lemma cntr_mono n m r : 0 <= n <= m -> cntr n r <= cntr m r.
Proof. intros. unfold cntr. rewrite (zrange_app 0 n m), zcount_app by lia. pose proof (zcount_nonneg (fun k => nthz row k =? r) (zrange n m)). lia. Qed.
Lemma off_snoc r : 0 <= r -> off (r + 1) = off r + cntr nnz r.
Proof. intros. unfold off. now rewrite zsumf_snoc. Qed.
Lemma off_nonneg r : 0 <= off r. Proof. apply zsumf_nonneg. intros; apply cntr_nonneg. Qed.
Lemma off_mono r r' : 0 <= r <= r' -> off r <= off r'.
Proof.
  intros. unfold off. rewrite (zsumf_split _ 0 r r') by lia.
  pose proof (zsumf_nonneg (cntr nnz) r r' ltac:(intros; apply cntr_nonneg)). lia.
Qed.

Lemma sum_cntr n : 0 <= n <= nnz -> zsumf (cntr n) 0 nrow = n.
Proof.
  intros [H0 H]. revert H. pattern n. apply natlike_ind; auto.
  - intros _. unfold zsumf. assert (forall l, zsum (map (cntr 0) l) = 0) by (induction l; simpl; auto; rewrite IHl; reflexivity). auto.
  - intros m Hm IH Hle. unfold Z.succ in *.
    assert (E : zsumf (cntr (m + 1)) 0 nrow = zsumf (cntr m) 0 nrow + zsumf (fun r => if nthz row m =? r then 1 else 0) 0 nrow).
    { unfold zsumf. induction (zrange 0 nrow); simpl; auto. rewrite cntr_snoc by lia. lia. }
    rewrite E, IH by lia. f_equal. pose proof (Rrow m ltac:(lia)) as R.
    rewrite (zsumf_split _ 0 (nthz row m) nrow) by lia. rewrite (zsumf_split _ (nthz row m) (nthz row m + 1) nrow) by lia.
    rewrite zsumf_snoc, Z.eqb_refl by lia. rewrite (zsumf_empty _ (nthz row m) (nthz row m)) by lia.
    assert (forall lo hi, (forall r, lo <= r < hi -> r <> nthz row m) -> zsumf (fun r => if nthz row m =? r then 1 else 0) lo hi = 0) as Z0.
    { intros lo hi Hr. rewrite (zsumf_ext _ (fun _ => 0)).
      - unfold zsumf. induction (zrange lo hi); simpl; lia.
      - intros i Hi. specialize (Hr i Hi). destruct (Z.eqb_spec (nthz row m) i); congruence. }
    rewrite !Z0; lia.
Qed.

Lemma off_nrow : off nrow = nnz. Proof. apply sum_cntr. lia. Qed.

Lemma off_range r : 0 <= r < nrow -> 0 <= off r /\ off (r + 1) <= nnz.
Proof. intros. split; [apply off_nonneg|]. rewrite <- off_nrow. apply off_mono. lia. Qed.

Definition seg (n r : Z) : list (option Z * option A) :=
  map (fun k => (getz col k, getz val k)) (filter (fun k => nthz row k =? r) (zrange 0 n)).

Lemma seg_snoc n r : 0 <= n -> seg (n + 1) r = seg n r ++ (if nthz row n =? r then [(getz col n, getz val n)] else []).
Proof.
  intros. unfold seg. rewrite zrange_snoc, filter_app, map_app by lia. simpl. destruct (nthz row n =? r); reflexivity.
Qed.

Lemma off_disjoint r r' : 0 <= r -> 0 <= r' -> r <> r' -> off (r + 1) <= off r' \/ off (r' + 1) <= off r.
Proof.
  intros. destruct (Z_lt_le_dec r r'); [left|right]; apply off_mono; lia.
Qed.

(** Phases 1-3: displacements. *)
Lemma phase123 (rp0 : mem Z) : zlen rp0 = nrow + 1 ->
  exists rp, (rp <- zfor 0 (nrow + 1) (fun i p => st p i 0) rp0;
     rp <- zfor 0 nnz (fun i p => r <- getz row i; c <- ld p (r + 1); st p (r + 1) (c + 1)) rp;
     zfor 2 (nrow + 1) (fun i p => a <- ld p i; b <- ld p (i - 1); st p i (a + b)) rp) = Some rp /\
    zlen rp = nrow + 1 /\ forall r, 0 <= r <= nrow -> ld rp r = Some (off r).
Proof.
  intros Hz.
  destruct (zfor_inv (fun i (p : mem Z) => zlen p = nrow + 1 /\ forall r, 0 <= r < i -> ld p r = Some 0) 0 (nrow + 1)
     (fun i p => st p i 0) rp0) as (p1 & E1 & Z1 & L1).
  { lia. } { split; auto. intros; lia. }
  { intros i p Hi [P1 P2]. destruct (st_Some p i 0 ltac:(lia)) as [p' E]. exists p'. split; auto.
    split; [rewrite (st_zlen _ _ _ _ E); auto|]. intros r Hr. rewrite (ld_st _ _ _ _ _ E).
    destruct (Z.eqb_spec i r); auto. apply P2. lia. }
  rewrite E1. cbn [bind].
  match goal with |- context [zfor 0 nnz ?b p1] =>
    destruct (zfor_inv (fun i (p : mem Z) => zlen p = nrow + 1 /\ ld p 0 = Some 0 /\ forall r, 0 <= r < nrow -> ld p (r + 1) = Some (cntr i r)) 0 nnz b p1)
      as (p2 & E2 & Z2 & L20 & L2) end.
  { lia. } { split; auto. split; [apply L1; lia|]. intros r Hr. rewrite L1 by lia. reflexivity. }
  { intros i p Hi (P1 & P2 & P3). rewrite (getz_nthz row i) by lia. cbn [bind]. pose proof (Rrow i Hi) as R.
    rewrite P3 by lia. cbn [bind]. destruct (st_Some p (nthz row i + 1) (cntr i (nthz row i) + 1) ltac:(lia)) as [p' E].
    exists p'. split; auto. split; [rewrite (st_zlen _ _ _ _ E); auto|]. split.
    - rewrite (ld_st _ _ _ _ _ E). destruct (Z.eqb_spec (nthz row i + 1) 0); [lia|]. auto.
    - intros r Hr. rewrite (ld_st _ _ _ _ _ E), cntr_snoc by lia. destruct (Z.eqb_spec (nthz row i) r).
      + subst r. destruct (Z.eqb_spec (nthz row i + 1) (nthz row i + 1)); [|lia]. auto.
      + destruct (Z.eqb_spec (nthz row i + 1) (r + 1)); [lia|]. rewrite P3 by lia. f_equal. lia. }
  rewrite E2. cbn [bind].
  match goal with |- context [zfor 2 (nrow + 1) ?b p2] =>
    destruct (zfor_inv (fun i (p : mem Z) => zlen p = nrow + 1 /\ (forall r, 0 <= r < i -> ld p r = Some (off r)) /\
       (forall r, i <= r <= nrow -> ld p r = Some (cntr nnz (r - 1)))) 2 (nrow + 1) b p2)
      as (p3 & E3 & Z3 & L3 & _) end.
  { lia. }
  { split; auto. split.
    - intros r Hr. assert (r = 0 \/ r = 1) as [->| ->] by lia; [exact L20|].
      change 1 with (0 + 1) at 1. rewrite L2 by lia. replace 1 with (0 + 1) by lia. rewrite off_snoc by lia.
      unfold off. rewrite zsumf_empty by lia. reflexivity.
    - intros r Hr. replace r with (r - 1 + 1) at 1 by lia. apply L2. lia. }
  { intros i p Hi (P1 & P2 & P3). rewrite P3 by lia. cbn [bind]. rewrite P2 by lia. cbn [bind].
    destruct (st_Some p i (cntr nnz (i - 1) + off (i - 1)) ltac:(lia)) as [p' E]. exists p'. split; auto.
    split; [rewrite (st_zlen _ _ _ _ E); auto|]. split.
    - intros r Hr. rewrite (ld_st _ _ _ _ _ E). destruct (Z.eqb_spec i r); [|apply P2; lia]. subst r.
      replace i with (i - 1 + 1) at 3 by lia. rewrite off_snoc by lia. f_equal. lia.
    - intros r Hr. rewrite (ld_st _ _ _ _ _ E). destruct (Z.eqb_spec i r); [lia|]. apply P3; lia. }
  exists p3. split; auto. split; auto. intros r Hr. apply L3. lia.
Qed.

Lemma cells_snoc ci (va : mem A) a b : a <= b -> cells ci va a (b + 1) = cells ci va a b ++ [(ld ci b, ld va b)].
Proof. intros. unfold cells. now rewrite zrange_snoc, map_app by lia. Qed.

(** Phase 4: bucket sort. *)
Lemma phase4 (rp ci0 : mem Z) (va0 : mem A) : zlen rp = nrow + 1 -> (forall r, 0 <= r <= nrow -> ld rp r = Some (off r)) ->
  nnz <= zlen ci0 -> nnz <= zlen va0 ->
  exists p ci va, zfor 0 nnz (fun i (s : mem Z * mem Z * mem A) => let '(p, ci, va) := s in
      r <- getz row i;
      idx <- ld p r;
      c <- getz col i; ci' <- st ci idx c;
      v <- getz val i; va' <- st va idx v;
      p' <- st p r (idx + 1);
      Some (p', ci', va')) (rp, ci0, va0) = Some (p, ci, va) /\
    zlen p = nrow + 1 /\ zlen ci = zlen ci0 /\ zlen va = zlen va0 /\
    (forall r, 0 <= r < nrow -> ld p r = Some (off (r + 1))) /\ ld p nrow = Some nnz /\
    (forall r, 0 <= r < nrow -> cells ci va (off r) (off (r + 1)) = seg nnz r).
Proof.
  intros Zr Lr Zc Zv.
  match goal with |- context [zfor 0 nnz ?b _] =>
    destruct (zfor_inv (fun i (s : mem Z * mem Z * mem A) => let '(p, ci, va) := s in
       zlen p = nrow + 1 /\ zlen ci = zlen ci0 /\ zlen va = zlen va0 /\
       (forall r, 0 <= r < nrow -> ld p r = Some (off r + cntr i r)) /\ ld p nrow = Some nnz /\
       (forall r, 0 <= r < nrow -> cells ci va (off r) (off r + cntr i r) = seg i r)) 0 nnz b (rp, ci0, va0))
      as ([[p ci] va] & E & Z1 & Z2 & Z3 & L1 & L2 & L3) end.
  { lia. }
  { split; auto. split; auto. split; auto. split; [|split].
    - intros r Hr. rewrite Lr by lia. f_equal. change (cntr 0 r) with 0. lia.
    - rewrite Lr by lia. f_equal. apply off_nrow.
    - intros r Hr. change (cntr 0 r) with 0. unfold cells. now rewrite zrange_empty by lia. }
  { intros i [[p ci] va] Hi (Z1 & Z2 & Z3 & L1 & L2 & L3).
    pose proof (Rrow i Hi) as R. set (r0 := nthz row i) in *.
    rewrite (getz_nthz row i) by lia. cbn [bind]. fold r0. rewrite L1 by lia. cbn [bind].
    set (idx := off r0 + cntr i r0).
    assert (Hidx : off r0 <= idx < off (r0 + 1)).
    { unfold idx. rewrite off_snoc by lia. pose proof (cntr_nonneg i r0). pose proof (cntr_mono (i + 1) nnz r0 ltac:(lia)).
      rewrite cntr_snoc in H0 by lia. fold r0 in H0. rewrite Z.eqb_refl in H0. lia. }
    pose proof (off_range r0 R) as Ro.
    rewrite (getz_nthz col i) by lia. cbn [bind].
    destruct (st_Some ci idx (nthz col i) ltac:(lia)) as [ci' Ec]. rewrite Ec. cbn [bind].
    destruct (getz_in val i ltac:(lia)) as [vi Evi]. rewrite Evi. cbn [bind].
    destruct (st_Some va idx vi ltac:(lia)) as [va' Ev]. rewrite Ev. cbn [bind].
    destruct (st_Some p r0 (idx + 1) ltac:(lia)) as [p' Ep]. rewrite Ep. cbn [bind].
    eexists. split; [reflexivity|]. cbn beta iota.
    rewrite (st_zlen _ _ _ _ Ep), (st_zlen _ _ _ _ Ec), (st_zlen _ _ _ _ Ev).
    split; auto. split; auto. split; auto. split; [|split].
    - intros r Hr. rewrite (ld_st _ _ _ _ _ Ep), cntr_snoc by lia. fold r0. destruct (Z.eqb_spec r0 r).
      + subst r. unfold idx. f_equal. lia.
      + rewrite L1 by lia. f_equal. lia.
    - rewrite (ld_st _ _ _ _ _ Ep). destruct (Z.eqb_spec r0 nrow); [lia|auto].
    - intros r Hr. rewrite cntr_snoc, seg_snoc by lia. fold r0.
      assert (Hext : forall a b, b <= idx \/ idx < a -> cells ci' va' a b = cells ci va a b).
      { intros a b Hab. apply cells_ext. intros k Hk. rewrite (ld_st _ _ _ _ _ Ec), (ld_st _ _ _ _ _ Ev).
        destruct (Z.eqb_spec idx k); [lia|auto]. }
      destruct (Z.eqb_spec r0 r).
      + subst r. replace (off r0 + (cntr i r0 + 1)) with (idx + 1) by (unfold idx; lia).
        rewrite cells_snoc by lia. rewrite Hext by lia. unfold idx at 1. rewrite L3 by lia. f_equal.
        rewrite (ld_st _ _ _ _ _ Ec), (ld_st _ _ _ _ _ Ev), !Z.eqb_refl.
        rewrite Evi, !getz_nthz by lia. reflexivity.
      + rewrite Z.add_0_r, app_nil_r. rewrite Hext; [apply L3; auto|].
        pose proof (cntr_mono i nnz r ltac:(lia)). pose proof (cntr_nonneg i r). pose proof (off_snoc r ltac:(lia)).
        destruct (off_disjoint r r0); lia. }
  exists p, ci, va. split; auto. split; auto. split; auto. split; auto.
  assert (forall r, 0 <= r -> off r + cntr nnz r = off (r + 1)) by (intros; rewrite off_snoc; lia).
  split; [|split; auto].
  - intros r Hr. rewrite L1 by auto. now rewrite H by lia.
  - intros r Hr. rewrite <- H by lia. auto.
Qed.

(** Phases 5-6: restore the displacements. *)
Lemma phase56 (p : mem Z) : zlen p = nrow + 1 -> (forall r, 0 <= r < nrow -> ld p r = Some (off (r + 1))) -> ld p nrow = Some nnz ->
  exists rp, (rp <- zfor 0 nrow (fun k p => let i := nrow - k in a <- ld p (i - 1); st p i a) p; st rp 0 0) = Some rp /\
    zlen rp = nrow + 1 /\ forall r, 0 <= r <= nrow -> ld rp r = Some (off r).
Proof.
  intros Zp L Ln.
  match goal with |- context [zfor 0 nrow ?b p] =>
    destruct (zfor_inv (fun k (q : mem Z) => zlen q = nrow + 1 /\ (forall r, nrow - k < r <= nrow -> ld q r = Some (off r)) /\
      (forall r, 0 <= r <= nrow - k -> r < nrow -> ld q r = Some (off (r + 1)))) 0 nrow b p) as (q & E & Z1 & L1 & L2) end.
  { lia. } { split; auto. split; [intros; lia|]. intros; apply L; lia. }
  { intros k q Hk (Z1 & L1 & L2). cbn beta zeta. rewrite L2 by lia. cbn [bind].
    destruct (st_Some q (nrow - k) (off (nrow - k - 1 + 1)) ltac:(lia)) as [q' E]. exists q'. split; auto.
    split; [rewrite (st_zlen _ _ _ _ E); auto|]. split; intros r Hr; [|intros Hr2]; rewrite (ld_st _ _ _ _ _ E); destruct (Z.eqb_spec (nrow - k) r).
    - do 2 f_equal. lia. - apply L1. lia. - lia. - apply L2; lia. }
  rewrite E. cbn [bind]. destruct (st_Some q 0 0 ltac:(lia)) as [q' E']. exists q'. split; auto.
  split; [rewrite (st_zlen _ _ _ _ E'); auto|]. intros r Hr. rewrite (ld_st _ _ _ _ _ E'). destruct (Z.eqb_spec 0 r).
  - subst. f_equal. - apply L1. lia.
Qed.

(** Phase 7: sort rows in any order. *)
Lemma seg_inited r k : In k (seg nnz r) -> (exists a, fst k = Some a) /\ exists b, snd k = Some b.
Proof.
  intros H. unfold seg in H. apply in_map_iff in H as (i & <- & Hi). apply filter_In in Hi as [Hi _]. apply In_zrange in Hi.
  simpl. split; apply getz_in; lia.
Qed.

Lemma cells_in key (va : mem A) a b k : a <= k < b -> In (ld key k, ld va k) (cells key va a b).
Proof. intros. unfold cells. apply in_map_iff. exists k. split; auto. now apply In_zrange. Qed.

Lemma perm_seg_inited ci (va : mem A) r : Permutation (cells ci va (off r) (off (r + 1))) (seg nnz r) ->
  inited ci (off r) (off (r + 1)) /\ inited va (off r) (off (r + 1)).
Proof.
  intros P. split; intros k Hk; pose proof (Permutation_in _ P (cells_in ci va _ _ k Hk)) as H; apply seg_inited in H as [H1 H2]; auto.
Qed.

Lemma locate k : 0 <= k < nnz -> exists r, 0 <= r < nrow /\ off r <= k < off (r + 1).
Proof.
  intros Hk. assert (forall n, 0 <= n <= nrow -> k < off n -> exists r, 0 <= r < nrow /\ off r <= k < off (r + 1)) as H.
  { intros n [Hn0 Hn]. revert Hn. pattern n. apply natlike_ind; auto.
    - intros _ H. unfold off in H. rewrite zsumf_empty in H by lia. lia.
    - intros m Hm IH Hle H. unfold Z.succ in *. destruct (Z_lt_le_dec k (off m)); [apply IH; auto; lia|].
      exists m. repeat split; auto; lia. }
  apply (H nrow); [lia|]. rewrite off_nrow. lia.
Qed.

Definition all_rows (ci : mem Z) (va : mem A) : Prop := nnz <= zlen ci /\ nnz <= zlen va /\
  forall r, 0 <= r < nrow -> Permutation (cells ci va (off r) (off (r + 1))) (seg nnz r).

Lemma qsort_empty ci (va : mem A) a : 0 <= a <= nnz -> inited ci 0 nnz -> qsort_kv 1 ci va a (a - 1) = Some (ci, va).
Proof.
  intros Ha Hi. cbn [qsort_kv].
  assert (exists m, ld ci (Z.quot (a + (a - 1)) 2) = Some m) as [m E].
  { apply Hi. destruct (Z.eq_dec a 0) as [->|].
    - change (Z.quot (0 + (0 - 1)) 2) with 0. lia.
    - rewrite Z.quot_div_nonneg by lia. pose proof (Z.div_mod (a + (a - 1)) 2 ltac:(lia)).
      pose proof (Z.mod_pos_bound (a + (a - 1)) 2 ltac:(lia)). lia. }
  rewrite E. cbn [bind]. replace (Z.to_nat (a - 1 - a + 3)) with 2%nat by lia. cbn [part_loop].
  destruct (Z.leb_spec a (a - 1)); [lia|]. cbn [bind].
  destruct (Z.ltb_spec a (a - 1)); [lia|]. reflexivity.
Qed.

Lemma phase7 (rp : mem Z) ord : (forall r, 0 <= r <= nrow -> ld rp r = Some (off r)) ->
  forall ci va done, all_rows ci va -> (forall r, In r done -> 0 <= r < nrow /\ sorted_cells ci (off r) (off (r + 1))) ->
  NoDup (ord ++ done) -> (forall r, In r ord -> 0 <= r < nrow) ->
  exists ci' va', fold_left (fun (s : option (mem Z * mem A)) i =>
      '(ci, va) <- s;
      a <- ld rp i; b <- ld rp (i + 1);
      qsort_kv (Z.to_nat (b - 1 - a + 2)) ci va a (b - 1)) ord (Some (ci, va)) = Some (ci', va') /\
    zlen ci' = zlen ci /\ zlen va' = zlen va /\
    all_rows ci' va' /\ forall r, In r (ord ++ done) -> sorted_cells ci' (off r) (off (r + 1)).
Proof.
  intros Lr. induction ord as [|r0 ord IH]; intros ci va done Ha Hd Hnd Hr; simpl.
  - exists ci, va. split; auto. split; auto. split; auto. split; auto. intros r H. apply Hd. auto.
  - pose proof (Hr r0 (or_introl eq_refl)) as R0. destruct Ha as (Zc & Zv & Hp).
    rewrite !Lr by lia. cbn [bind]. pose proof (off_range r0 R0) as Ro. pose proof (off_mono r0 (r0 + 1) ltac:(lia)) as Hm.
    assert (Hin : inited ci 0 nnz).
    { intros k Hk. destruct (locate k Hk) as (r & Hrr & Hkr). apply (perm_seg_inited ci va r); auto. }
    destruct (perm_seg_inited ci va r0 (Hp r0 R0)) as [Ik Iv].
    assert (exists ci1 va1, qsort_kv (Z.to_nat (off (r0 + 1) - 1 - off r0 + 2)) ci va (off r0) (off (r0 + 1) - 1) = Some (ci1, va1) /\
       qs_post ci va ci1 va1 (off r0) (off (r0 + 1) - 1)) as (ci1 & va1 & E & Q).
    { destruct (Z.eq_dec (off r0) (off (r0 + 1))) as [Eq|Ne].
      - rewrite <- Eq. replace (Z.to_nat (off r0 - 1 - off r0 + 2)) with 1%nat by lia.
        exists ci, va. split; [apply qsort_empty; auto; lia|]. split; [auto|]. split; [auto|]. split; [intros k ?; auto|]. split; [intros k ?; auto|]. split; [auto|].
        split; intros; lia.
      - apply qsort_kv_spec; try lia.
        + replace (off (r0 + 1) - 1 + 1) with (off (r0 + 1)) by lia. auto.
        + replace (off (r0 + 1) - 1 + 1) with (off (r0 + 1)) by lia. auto. }
    rewrite E. destruct Q as (Q1 & Q2 & Q3 & Q4 & Q5 & Q6).
    replace (off (r0 + 1) - 1 + 1) with (off (r0 + 1)) in * by lia.
    assert (Hoth : forall r, 0 <= r < nrow -> r <> r0 -> forall k, off r <= k < off (r + 1) -> ld ci1 k = ld ci k /\ ld va1 k = ld va k).
    { intros r H1 H2 k Hk. destruct (off_disjoint r r0); try lia; split; [apply Q3|apply Q4|apply Q3|apply Q4]; lia. }
    assert (Ha1 : all_rows ci1 va1).
    { split; [lia|]. split; [lia|]. intros r H1. destruct (Z.eq_dec r r0) as [->|Hne].
      - eapply Permutation_trans; [exact Q5|]. auto.
      - rewrite (cells_ext ci1 va1 ci va); [auto|]. intros k Hk. apply (Hoth r); auto. }
    simpl in Hnd. inversion Hnd as [|x l Hx Hl]; subst.
    destruct (IH ci1 va1 (r0 :: done)) as (ci' & va' & E' & Y1 & Y2 & Y3 & Y4); auto.
    + intros r [<-|Hrd]; [split; auto|]. destruct (Hd r Hrd) as [D1 [D2 D3]]. split; auto.
      assert (r <> r0) by (intros ->; apply Hx; apply in_or_app; auto).
      split.
      * intros k Hk. destruct (Hoth r D1 H k Hk) as [-> _]. auto.
      * intros k k' a b H1 H2 Hka Hkb. rewrite (proj1 (Hoth r D1 H k ltac:(lia))) in Hka. rewrite (proj1 (Hoth r D1 H k' ltac:(lia))) in Hkb.
        apply (D3 k k'); auto.
    + apply (NoDup_Add (Add_app r0 ord done)). auto.
    + intros r Hrr. apply Hr. now right.
    + exists ci', va'. split; auto. split; [lia|]. split; [lia|]. split; auto.
      intros r Hrr. apply Y4. apply in_or_app. destruct Hrr as [<-|Hrr]; [right; now left|].
      apply in_app_or in Hrr as [Hrr|Hrr]; auto. right; now right.
Qed.

Lemma coo_to_csr_spec (rp0 ci0 : mem Z) (va0 : mem A) ord :
  zlen rp0 = nrow + 1 -> nnz <= zlen ci0 -> nnz <= zlen va0 -> Permutation ord (zrange 0 nrow) ->
  exists rp ci va, coo_to_csr nrow nnz row col val rp0 ci0 va0 ord = Some (rp, ci, va) /\
    is_csr nrow nnz row col val rp ci va.
Proof.
  intros Zr Zc Zv Hord. unfold coo_to_csr.
  destruct (phase123 rp0 Zr) as (rp1 & E1 & Z1 & L1).
  destruct (zfor 0 (nrow + 1) (fun i p => st p i 0) rp0) as [q1|]; [|discriminate]. cbn [bind] in *.
  match type of E1 with context [zfor 0 nnz ?b q1] => destruct (zfor 0 nnz b q1) as [q2|]; [|discriminate] end. cbn [bind] in *.
  rewrite E1. cbn [bind].
  destruct (phase4 rp1 ci0 va0 Z1 L1 Zc Zv) as (p & ci & va & E4 & Z4 & Zci & Zva & L4 & L4n & C4).
  rewrite E4. cbn [bind].
  destruct (phase56 p Z4 L4 L4n) as (rp & E5 & Z5 & L5).
  match type of E5 with context [zfor 0 nrow ?b p] => destruct (zfor 0 nrow b p) as [q3|]; [|discriminate] end. cbn [bind] in *.
  rewrite E5. cbn [bind].
  assert (Hr : forall r, In r ord <-> 0 <= r < nrow).
  { intros r. rewrite <- In_zrange. split; apply Permutation_in; auto. now apply Permutation_sym. }
  destruct (phase7 rp ord L5 ci va []) as (ci' & va' & E7 & Y1 & Y2 & (_ & _ & Y3) & Y4).
  - split; [lia|]. split; [lia|]. intros r H. rewrite C4 by auto. auto.
  - intros r [].
  - rewrite app_nil_r. eapply Permutation_NoDup; [apply Permutation_sym; exact Hord|apply NoDup_zrange].
  - intros r H. now apply Hr.
  - rewrite E7. cbn [bind]. do 3 eexists. split; [reflexivity|].
    split; [auto|]. split; [rewrite L5 by lia; reflexivity|]. split; [rewrite L5 by lia; f_equal; apply off_nrow|].
    intros r H. exists (off r), (off (r + 1)). rewrite !L5 by lia. pose proof (off_range r H). pose proof (off_mono r (r + 1) ltac:(lia)).
    split; [auto|]. split; [auto|]. split; [lia|]. split; [lia|]. split; [apply Y3; auto|].
    apply Y4. rewrite app_nil_r. apply Hr. auto.
Qed.
End CSR.

(** ** Element access *)

Section Access.
Context (nrow nnz : Z) (row col val : list Z) (rp ci va : mem Z).
Hypothesis Lcol : zlen col = nnz.
Hypothesis Lval : zlen val = nnz.
Hypothesis Hcsr : is_csr nrow nnz row col val rp ci va.

(** Cells of a row are input entries and vice versa. *)
Lemma row_cell r a b c : 0 <= r < nrow -> ld rp r = Some a -> ld rp (r + 1) = Some b -> a <= c < b ->
  exists k, 0 <= k < nnz /\ nthz row k = r /\ ld ci c = Some (nthz col k) /\ ld va c = Some (nthz val k).
Proof.
  intros Hr Ha Hb Hc. destruct Hcsr as (_ & _ & _ & H). destruct (H r Hr) as (a' & b' & A & B & R1 & R2 & P & S).
  assert (a' = a) by congruence. assert (b' = b) by congruence. subst a' b'.
  pose proof (Permutation_in _ P (cells_in ci va _ _ c Hc)) as Hin. unfold coo_row in Hin.
  apply in_map_iff in Hin as (k & E & Hk). apply filter_In in Hk as [Hk1 Hk2]. apply In_zrange in Hk1. apply Z.eqb_eq in Hk2.
  injection E as E1 E2. exists k. rewrite <- E1, <- E2. rewrite !getz_nthz by lia. auto.
Qed.
Lemma cell_of k : 0 <= k < nnz -> 0 <= nthz row k < nrow -> exists a b c, ld rp (nthz row k) = Some a /\
  ld rp (nthz row k + 1) = Some b /\ a <= c < b /\ ld ci c = Some (nthz col k) /\ ld va c = Some (nthz val k).
Proof.
  intros Hk Hr. destruct Hcsr as (_ & _ & _ & H). destruct (H _ Hr) as (a & b & A & B & R1 & R2 & P & S).
  assert (Hin : In (getz col k, getz val k) (coo_row nnz row col val (nthz row k))).
  { unfold coo_row. apply in_map_iff. exists k. split; auto. apply filter_In. split; [now apply In_zrange|apply Z.eqb_refl]. }
  apply (Permutation_in _ (Permutation_sym P)) in Hin. unfold cells in Hin. apply in_map_iff in Hin as (c & E & Hc). apply In_zrange in Hc.
  injection E as E1 E2. exists a, b, c. rewrite E1, E2, !getz_nthz by lia. auto.
Qed.

Lemma csr_get_spec r c : 0 <= r < nrow ->
  exists v, csr_get rp ci va r c = Some v /\
    ((exists k, 0 <= k < nnz /\ nthz row k = r /\ nthz col k = c /\ v = nthz val k) \/
     ((forall k, 0 <= k < nnz -> 0 <= nthz row k < nrow -> nthz row k = r -> nthz col k <> c) /\ v = 0)).
Proof.
  intros Hr. unfold csr_get. pose proof Hcsr as (_ & _ & _ & H). destruct (H r Hr) as (a & b & A & B & R1 & R2 & P & S).
  rewrite A, B. cbn [bind].
  match goal with |- context [zfor a b ?f _] =>
    destruct (zfor_inv (fun i (s : bool * Z) => 
       (fst s = true -> exists k, 0 <= k < nnz /\ nthz row k = r /\ nthz col k = c /\ snd s = nthz val k) /\
       (fst s = false -> snd s = 0 /\ forall j, a <= j < i -> ld ci j <> Some c)) a b f (false, 0)) as (s & E & P1 & P2) end.
  - lia.
  - simpl. split; [discriminate|]. intros _. split; auto. intros; lia.
  - intros i [fd v] Hi [P1 P2]. simpl in *. destruct fd.
    + eexists. split; [reflexivity|]. simpl. split; [auto|discriminate].
    + destruct (row_cell r a b i Hr A B ltac:(lia)) as (k & K1 & K2 & K3 & K4). rewrite K3. cbn [bind].
      destruct (Z.eqb_spec (nthz col k) c).
      * rewrite K4. cbn [bind]. eexists. split; [reflexivity|]. simpl. split; [|discriminate]. intros _. exists k. auto.
      * eexists. split; [reflexivity|]. simpl. split; [discriminate|]. intros _. destruct (P2 eq_refl) as [Q1 Q2]. split; auto.
        intros j Hj. destruct (Z.eq_dec j i) as [->|]; [rewrite K3; congruence|]. apply Q2. lia.
  - rewrite E. cbn [bind]. exists (snd s). split; auto. destruct (fst s) eqn:Ef.
    + left. destruct (P1 eq_refl) as (k & K1 & K2 & K3 & K4). exists k. auto.
    + right. destruct (P2 eq_refl) as [Q1 Q2]. split; auto.
      intros k Hk Hk' Hkr Hkc. destruct (cell_of k Hk Hk') as (a' & b' & cc & A' & B' & Hcc & C1 & C2).
      rewrite Hkr in A', B'. assert (a' = a) by congruence. assert (b' = b) by congruence. subst a' b'. apply (Q2 cc Hcc). congruence.
Qed.

(** With distinct coordinates, [csr_set] at a stored coordinate yields the CSR of
    the input with that one value replaced. *)
Lemma csr_set_spec k0 new : coords_distinct nnz row col -> 0 <= k0 < nnz -> 0 <= nthz row k0 < nrow ->
  (forall k, 0 <= k < nnz -> 0 <= nthz row k < nrow) ->
  nnz <= zlen va ->
  exists va', csr_set rp ci va (nthz row k0) (nthz col k0) new = Some va' /\
    is_csr nrow nnz row col (upd val (Z.to_nat k0) new) rp ci va'.
Proof.
  intros Hd Hk Hr Hrr Hzv. unfold csr_set. destruct (cell_of k0 Hk Hr) as (a & b & c0 & A & B & Hc0 & C1 & C2).
  rewrite A, B. cbn [bind].
  assert (Rab : 0 <= a /\ b <= nnz).
  { destruct Hcsr as (_ & _ & _ & H). destruct (H _ Hr) as (a' & b' & A' & B' & R1 & R2 & _). 
    assert (a' = a) by congruence. assert (b' = b) by congruence. subst a' b'. lia. }
  (* the matching cell is unique in the row *)
  assert (Huniq : forall c, a <= c < b -> ld ci c = Some (nthz col k0) -> c = c0).
  { intros c Hc Ec. pose proof Hcsr as (_ & _ & _ & H). destruct (H _ Hr) as (a' & b' & A' & B' & R1 & R2 & P & _).
    assert (a' = a) by congruence. assert (b' = b) by congruence. subst a' b'.
    (* indices of the row's entries form a duplicate-free list of columns *)
    assert (ND : NoDup (map fst (cells ci va a b))).
    { eapply Permutation_NoDup; [apply Permutation_map; apply Permutation_sym; exact P|].
      unfold coo_row. rewrite map_map. simpl.
      assert (forall l, NoDup l -> (forall x, In x l -> 0 <= x < nnz /\ nthz row x = nthz row k0) -> NoDup (map (fun k => getz col k) l)) as HN.
      { induction l; intros N HH; simpl; [constructor|]. inversion N as [|? ? N1 N2]. constructor.
        - intros Hin. apply in_map_iff in Hin as (y & Ey & Hy). destruct (HH a0 (or_introl eq_refl)). destruct (HH y (or_intror Hy)).
          rewrite !getz_nthz in Ey by lia. injection Ey as Ey. assert (y = a0) by (apply Hd; auto; congruence). subst y. contradiction.
        - apply IHl; auto. intros; apply HH; now right. }
      apply HN. { apply NoDup_filter. apply NoDup_zrange. }
      intros x Hx. apply filter_In in Hx as [Hx1 Hx2]. apply In_zrange in Hx1. apply Z.eqb_eq in Hx2. auto. }
    unfold cells in ND. rewrite map_map in ND. simpl in ND.
    assert (forall l, NoDup (map (fun k => ld ci k) l) -> forall x y, In x l -> In y l -> ld ci x = ld ci y -> x = y) as HI.
    { induction l; simpl; intros N x y Hx Hy Exy; [contradiction|]. inversion N as [|? ? N1 N2].
      destruct Hx as [->|Hx], Hy as [->|Hy]; auto.
      - exfalso. apply N1. rewrite Exy. apply (in_map (fun k => ld ci k)). auto.
      - exfalso. apply N1. rewrite <- Exy. apply (in_map (fun k => ld ci k)). auto. }
    apply (HI _ ND); [now apply In_zrange|now apply In_zrange|congruence]. }
  match goal with |- context [zfor a b ?f _] =>
    destruct (zfor_inv (fun i (s : bool * mem Z) => zlen (snd s) = zlen va /\
       (i <= c0 -> s = (false, va)) /\ (c0 < i -> st va c0 new = Some (snd s) /\ fst s = true)) a b f (false, va)) as (s & E & P0 & P1 & P2) end.
  - lia.
  - simpl. split; auto. split; auto. intros; lia.
  - intros i s Hi (P0 & P1 & P2). destruct (Z_lt_le_dec c0 i) as [Hlt|Hle].
    + destruct (P2 Hlt) as [Q1 Q2]. rewrite Q2. exists s. split; auto. split; auto. split; [intros; lia|auto].
    + rewrite (P1 Hle). cbn [fst snd]. destruct (row_cell _ a b i Hr A B ltac:(lia)) as (k & K1 & K2 & K3 & K4). rewrite K3. cbn [bind].
      destruct (Z.eqb_spec (nthz col k) (nthz col k0)) as [Ek|Ek].
      * assert (i = c0) by (apply Huniq; auto; congruence). subst i.
        destruct (st_Some va c0 new ltac:(lia)) as [va' Es]. rewrite Es. cbn [bind]. eexists. split; [reflexivity|]. simpl.
        split; [apply (st_zlen _ _ _ _ Es)|]. split; [intros; lia|]. auto.
      * assert (i <> c0) by (intros ->; congruence). exists (false, va). split; auto. simpl. split; auto. split; auto. intros; lia.
  - rewrite E. cbn [bind]. exists (snd s). split; auto. destruct (P2 ltac:(lia)) as [Q1 Q2].
    destruct Hcsr as (H1 & H2 & H3 & H4). split; auto. split; auto. split; auto.
    intros r Hr'. destruct (H4 r Hr') as (a' & b' & A' & B' & R1 & R2 & P & S). exists a', b'. repeat split; auto; try lia; try apply S.
    destruct (Z.eq_dec r (nthz row k0)) as [->|Hne].
    + assert (a' = a) by congruence. assert (b' = b) by congruence. subst a' b'.
      (* apply the value map (col, v) -> (col, new if col matches) to both sides *)
      set (g := fun x : option Z * option Z => if match fst x with Some c => c =? nthz col k0 | None => false end then (fst x, Some new) else x).
      assert (G1 : cells ci (snd s) a b = map g (cells ci va a b)).
      { unfold cells. rewrite map_map. apply map_ext_in. intros c Hc. apply In_zrange in Hc. unfold g. simpl.
        rewrite (ld_st _ _ _ _ _ Q1).
        destruct (row_cell _ a b c Hr A B Hc) as (k & K1 & K2 & K3 & K4). rewrite K3.
        destruct (Z.eqb_spec (nthz col k) (nthz col k0)).
        - assert (c = c0) by (apply Huniq; auto; congruence). subst c. now rewrite Z.eqb_refl.
        - destruct (Z.eqb_spec c0 c) as [<-|]; [congruence|]. reflexivity. }
      assert (G2 : coo_row nnz row col (upd val (Z.to_nat k0) new) (nthz row k0) = map g (coo_row nnz row col val (nthz row k0))).
      { unfold coo_row. rewrite map_map. apply map_ext_in. intros k Hkk. apply filter_In in Hkk as [Hk1 Hk2]. apply In_zrange in Hk1. apply Z.eqb_eq in Hk2.
        unfold g. simpl. rewrite getz_upd by lia. rewrite !getz_nthz by lia. destruct (Z.eqb_spec k0 k).
        - subst k. now rewrite Z.eqb_refl.
        - destruct (Z.eqb_spec (nthz col k) (nthz col k0)); [|reflexivity]. exfalso. apply n. symmetry. apply Hd; auto. }
      rewrite G1, G2. now apply Permutation_map.
    + assert (G1 : cells ci (snd s) a' b' = cells ci va a' b').
      { apply cells_ext. intros c Hc. split; auto. rewrite (ld_st _ _ _ _ _ Q1). destruct (Z.eqb_spec c0 c); [|auto]. subst c. exfalso.
        destruct (row_cell r a' b' c0 Hr' A' B' Hc) as (k & K1 & K2 & K3 & K4).
        (* rows own disjoint ranges *)
        assert (Hmono : forall x y p q, 0 <= x <= y -> y <= nrow -> ld rp x = Some p -> ld rp y = Some q -> p <= q).
        { intros x y p q [Hx Hxy]. replace y with (x + (y - x)) by lia. assert (0 <= y - x) as Hd0 by lia. revert Hd0 q. generalize (y - x) as d. intros d Hd0.
          pattern d. apply natlike_ind; auto.
          - intros q _ Hp Hq. rewrite Z.add_0_r in Hq. assert (p = q) by congruence. lia.
          - intros d0 Hd1 IH q Hle Hp Hq. unfold Z.succ in *. destruct (H4 (x + d0) ltac:(lia)) as (aa & bb & AA & BB & RR & _).
            replace (x + d0 + 1) with (x + (d0 + 1)) in BB by lia. assert (bb = q) by congruence. subst bb.
            specialize (IH aa ltac:(lia) Hp AA). lia. }
        destruct (Z_lt_le_dec r (nthz row k0)).
        - pose proof (Hmono (r + 1) (nthz row k0) b' a ltac:(lia) ltac:(lia) B' A). lia.
        - pose proof (Hmono (nthz row k0 + 1) r b a' ltac:(lia) ltac:(lia) B A'). lia. }
      rewrite G1. replace (coo_row nnz row col (upd val (Z.to_nat k0) new) r) with (coo_row nnz row col val r); auto.
      unfold coo_row. apply map_ext_in. intros k Hkk. apply filter_In in Hkk as [Hk1 Hk2]. apply In_zrange in Hk1. apply Z.eqb_eq in Hk2.
      rewrite getz_upd by lia. destruct (Z.eqb_spec k0 k); [congruence|reflexivity].
Qed.
End Access.
