(** The index arrays of the interpolative decomposition (Model_ID.id_index):
    sorting the skeleton and the row permutation, for any arithmetic. *)
From Coq Require Import ZArith QArith List Lia Bool Permutation.
From Verif Require Import Base Mem FNum Model_Utils Model_Dense Model_CSR Model_Build Spec_CSR Proof_Qsort Model_ID Proof_IDMem Proof_IDQR.
Import ListNotations.
Open Scope Z_scope.

(** p maps [0, n) to itself without repetitions. *)
Definition perm_on (n : Z) (p : Z -> Z) : Prop :=
  (forall c, 0 <= c < n -> 0 <= p c < n) /\ (forall c c', 0 <= c < n -> 0 <= c' < n -> p c = p c' -> c = c').

Lemma NoDup_map_on {A B} (f : A -> B) l : NoDup l -> (forall x y, In x l -> In y l -> f x = f y -> x = y) -> NoDup (map f l).
Proof.
  induction 1 as [|a l Ha Hl IH]; intros Hf; cbn [map]; constructor.
  - intros Hin. apply in_map_iff in Hin as (b & E & Hb). apply Ha. rewrite (Hf a b); auto; [now left|now right].
  - apply IH. intros x y Hx Hy. apply Hf; now right.
Qed.
Lemma perm_on_list n p : perm_on n p -> Permutation (map p (zrange 0 n)) (zrange 0 n).
Proof.
  intros [H1 H2]. apply NoDup_Permutation_bis.
  - apply NoDup_map_on; [apply NoDup_zrange|]. intros x y Hx Hy. apply In_zrange in Hx, Hy. apply H2; lia.
  - rewrite map_length. lia.
  - intros x Hx. apply in_map_iff in Hx as (c & <- & Hc). apply In_zrange in Hc. apply In_zrange. apply H1. lia.
Qed.
Lemma perm_on_surj n p k : perm_on n p -> 0 <= k < n -> exists c, 0 <= c < n /\ p c = k.
Proof.
  intros HP Hk. assert (In k (map p (zrange 0 n))) as H by (apply (Permutation_in _ (Permutation_sym (perm_on_list n p HP))); now apply In_zrange).
  apply in_map_iff in H as (c & E & Hc). apply In_zrange in Hc. exists c. split; auto; lia.
Qed.

(** Scattering through an injective map. *)
Lemma scatter_spec {A} (m : mem A) n (s : Z -> Z) (y : Z -> A) (body : Z -> mem A -> option (mem A)) : 0 <= n -> perm_on n s -> n <= zlen m ->
  (forall i m1, 0 <= i < n -> body i m1 = st m1 (s i) (y i)) ->
  exists m', zfor 0 n body m = Some m' /\ zlen m' = zlen m /\ forall i, 0 <= i < n -> ld m' (s i) = Some (y i).
Proof.
  intros Hn [P1 P2] Hm Hb.
  destruct (zfor_inv (fun j m1 => zlen m1 = zlen m /\ forall i, 0 <= i < j -> ld m1 (s i) = Some (y i)) 0 n body m) as (m' & E & Z1 & G); try lia.
  - split; auto. lia.
  - intros j m1 Hj (Z1 & G). rewrite Hb by auto. pose proof (P1 j Hj). destruct (st_Some m1 (s j) (y j)) as (m2 & E2); [lia|]. exists m2. split; auto.
    split; [rewrite (st_zlen _ _ _ _ E2); auto|]. intros i Hi. rewrite (ld_st _ _ _ _ (s i) E2). destruct (Z.eqb_spec (s j) (s i)) as [E|N].
    + apply P2 in E; [subst; auto|lia|lia].
    + apply G. destruct (Z.eq_dec i j); [subst; congruence|lia].
  - exists m'. auto.
Qed.

Lemma qsort_kv_empty key (val : mem Z) : 0 < zlen key -> (exists v, ld key 0 = Some v) -> qsort_kv (Z.to_nat (0 + 1)) key val 0 (0 - 1) = Some (key, val).
Proof. intros H (v & E). change (Z.to_nat (0 + 1)) with 1%nat. cbn [qsort_kv]. change (Z.quot (0 + (0 - 1)) 2) with 0. rewrite E. reflexivity. Qed.

(** After sorting: position c of the sorted skeleton (or of the rest) is row
    p (s c). *)
Lemma id_index_spec n r (J : mem Z) p : 1 <= n -> 0 <= r <= n -> holdsv J n p -> perm_on n p ->
  exists J' i0 p1 s q, id_index n r J = Some (J', i0, p1) /\ zlen J' = zlen J /\
    holdsv J' n (fun c => p (s c)) /\ holdsv i0 n s /\ holdsv p1 n q /\ zlen p1 = n /\
    perm_on n s /\ (forall c, r <= c < n -> s c = c) /\ (forall c, 0 <= c < r -> 0 <= s c < r) /\
    (forall c c', 0 <= c < c' -> c' < r -> p (s c) < p (s c')) /\
    (forall c, 0 <= c < n -> q (p (s c)) = c) /\ (forall i, 0 <= i < n -> 0 <= q i < n).
Proof.
  intros Hn Hr HJ HP. pose proof HP as [P1 P2]. unfold id_index.
  (* p0, i0 *)
  assert (L1 : exists p0 i0, zfor 0 n (fun i (x : mem Z * mem Z) => let '(p0, i0) := x in
      ji <- ld J i; p0 <- st p0 ji i; i0 <- st i0 i i; Some (p0, i0)) (alloc n, alloc n) = Some (p0, i0) /\ zlen p0 = n /\ zlen i0 = n /\
      (forall i, 0 <= i < n -> ld p0 (p i) = Some i) /\ (forall i, 0 <= i < n -> ld i0 i = Some i)).
  { destruct (zfor_inv (fun j (x : mem Z * mem Z) => zlen (fst x) = n /\ zlen (snd x) = n /\ (forall i, 0 <= i < j -> ld (fst x) (p i) = Some i) /\ (forall i, 0 <= i < j -> ld (snd x) i = Some i)) 0 n
      (fun i (x : mem Z * mem Z) => let '(p0, i0) := x in ji <- ld J i; p0 <- st p0 ji i; i0 <- st i0 i i; Some (p0, i0)) (alloc n, alloc n)) as ((p0 & i0) & E & Z1 & Z2 & G1 & G2); try lia.
    - cbn [fst snd]. rewrite !zlen_alloc by lia. do 2 (split; [reflexivity|]). split; lia.
    - intros j (a & b) Hj (Z1 & Z2 & G1 & G2). cbn [fst snd] in *. rewrite (HJ j Hj). cbn [bind]. pose proof (P1 j Hj).
      destruct (st_Some a (p j) j) as (a' & Ea); [lia|]. rewrite Ea. cbn [bind]. destruct (st_Some b j j) as (b' & Eb); [lia|]. rewrite Eb. cbn [bind].
      exists (a', b'). split; auto. cbn [fst snd]. rewrite (st_zlen _ _ _ _ Ea), (st_zlen _ _ _ _ Eb). do 2 (split; [lia|]). split.
      + intros i Hi. rewrite (ld_st _ _ _ _ (p i) Ea). destruct (Z.eqb_spec (p j) (p i)) as [E|N]; [apply P2 in E; [subst; auto|lia|lia]|]. apply G1. destruct (Z.eq_dec i j); [subst; congruence|lia].
      + intros i Hi. rewrite (ld_st _ _ _ _ i Eb). destruct (Z.eqb_spec j i); [subst; auto|]. apply G2. lia.
    - exists p0, i0. auto. }
  destruct L1 as (p0 & i0 & -> & Zp0 & Zi0 & Gp0 & Gi0). cbn [bind].
  (* sort *)
  assert (L2 : exists J' i0' s, qsort_kv (Z.to_nat (r + 1)) J i0 0 (r - 1) = Some (J', i0') /\ zlen J' = zlen J /\ zlen i0' = n /\ holdsv J' n (fun c => p (s c)) /\ holdsv i0' n s /\
      perm_on n s /\ (forall c, r <= c < n -> s c = c) /\ (forall c, 0 <= c < r -> 0 <= s c < r) /\ (forall c c', 0 <= c < c' -> c' < r -> p (s c) < p (s c'))).
  { destruct (Z.eq_dec r 0) as [->|Nr].
    - exists J, i0, (fun c => c). rewrite qsort_kv_empty; [|apply (ld_range _ _ _ (HJ 0 ltac:(lia)))|eexists; apply HJ; lia].
      split; auto. do 2 (split; [auto|]). do 2 (split; [assumption|]). split; [split; auto|]. split; auto. split; lia.
    - assert (zlen J >= n) by (pose proof (ld_range _ _ _ (HJ (n - 1) ltac:(lia))); lia).
      destruct (qsort_kv_spec (Z.to_nat (r + 1)) J i0 0 (r - 1)) as (J' & i0' & E & Q1 & Q2 & Q3 & Q4 & Q5 & Q6); try lia.
      { intros k Hk. eexists. apply HJ. lia. }
      { intros k Hk. eexists. apply Gi0. lia. }
      replace (r - 1 + 1) with r in * by lia.
      set (s := fun c => if (0 <=? c) && (c <? r) then match ld i0' c with Some v => v | None => 0 end else c).
      assert (C0 : cells J i0 0 r = map (fun k => (Some (p k), Some k)) (zrange 0 r)).
      { unfold cells. apply map_ext_in. intros k Hk. apply In_zrange in Hk. rewrite HJ, Gi0 by lia. reflexivity. }
      rewrite C0 in Q5.
      assert (Cs : forall c, 0 <= c < r -> 0 <= s c < r /\ ld i0' c = Some (s c) /\ ld J' c = Some (p (s c))).
      { intros c Hc. assert (In (ld J' c, ld i0' c) (cells J' i0' 0 r)) as Hin by (unfold cells; apply in_map_iff; exists c; split; auto; apply In_zrange; lia).
        apply (Permutation_in _ Q5) in Hin. apply in_map_iff in Hin as (k & Ek & Hk). apply In_zrange in Hk. injection Ek as E1 E2.
        assert (s c = k) as ->. { unfold s. destruct (Z.leb_spec 0 c); destruct (Z.ltb_spec c r); try lia. cbn [andb]. now rewrite <- E2. }
        split; [lia|]. split; congruence. }
      assert (So : forall c, r <= c -> s c = c) by (intros c Hc; unfold s; destruct (Z.leb_spec 0 c); destruct (Z.ltb_spec c r); cbn [andb]; lia).
      assert (ND : NoDup (cells J' i0' 0 r)).
      { apply (Permutation_NoDup (Permutation_sym Q5)). apply NoDup_map_on; [apply NoDup_zrange|]. intros x y Hx Hy E1. now injection E1. }
      assert (Inj : forall c c', 0 <= c < r -> 0 <= c' < r -> s c = s c' -> c = c').
      { intros c c' Hc Hc' Es. destruct (Cs c Hc) as (_ & A1 & A2). destruct (Cs c' Hc') as (_ & B1 & B2).
        destruct (Z.eq_dec c c') as [|N]; auto. exfalso.
        assert (G : forall a b, 0 <= a < b -> b < r -> (ld J' a, ld i0' a) <> (ld J' b, ld i0' b)).
        { intros a b Ha Hb Eab. unfold cells in ND. rewrite (zrange_app 0 b r), (zrange_cons b r), map_app in ND by lia. cbn [map] in ND. apply NoDup_remove_2 in ND. apply ND. apply in_or_app. left.
          apply in_map_iff. exists a. split; auto. apply In_zrange. lia. }
        destruct (Z.lt_ge_cases c c') as [L|L]; [apply (G c c'); try lia; congruence|apply (G c' c); try lia; congruence]. }
      exists J', i0', s. split; auto. split; [lia|]. split; [lia|].
      split; [|split; [|split; [|split; [|split]]]].
      + intros c Hc. destruct (Z.lt_ge_cases c r); [apply Cs; lia|]. rewrite (So c) by lia. rewrite Q3 by lia. apply HJ. lia.
      + intros c Hc. destruct (Z.lt_ge_cases c r); [apply Cs; lia|]. rewrite (So c) by lia. rewrite Q4 by lia. apply Gi0. lia.
      + split.
        * intros c Hc. destruct (Z.lt_ge_cases c r); [pose proof (proj1 (Cs c ltac:(lia))); lia|rewrite So by lia; lia].
        * intros c c' Hc Hc' Es. destruct (Z.lt_ge_cases c r); destruct (Z.lt_ge_cases c' r).
          -- apply Inj; auto; lia.
          -- rewrite (So c') in Es by lia. pose proof (proj1 (Cs c ltac:(lia))). lia.
          -- rewrite (So c) in Es by lia. pose proof (proj1 (Cs c' ltac:(lia))). lia.
          -- rewrite !So in Es by lia. auto.
      + intros c Hc. apply So. lia.
      + intros c Hc. apply Cs; auto.
      + intros c c' Hc Hc'. destruct (Cs c ltac:(lia)) as (R1 & _ & A2). destruct (Cs c' ltac:(lia)) as (R2 & _ & B2).
        pose proof (proj2 Q6 c c' _ _ ltac:(lia) ltac:(lia) A2 B2) as Hle. assert (p (s c) <> p (s c')); [|lia].
        intros Ep. apply P2 in Ep; try lia. apply Inj in Ep; lia. }
  destruct L2 as (J' & i0' & s & -> & ZJ & Zi & HJ' & Hi0 & Ps & So & Sr & Inc). cbn [bind].
  destruct (scatter_spec (@alloc Z n) n s (fun i => i) (fun i i1 => k <- ld i0' i; st i1 k i)) as (i1 & E1 & Z1 & G1); auto; try lia.
  { rewrite zlen_alloc by lia. lia. }
  { intros i m1 Hi. now rewrite (Hi0 i Hi). }
  rewrite E1. cbn [bind].
  set (q := fun i => match (k <- ld p0 i; ld i1 k) with Some v => v | None => 0 end).
  assert (Hq : forall c, 0 <= c < n -> ld p0 (p (s c)) = Some (s c) /\ ld i1 (s c) = Some c).
  { intros c Hc. split; [apply Gp0; apply Ps; auto|apply G1; auto]. }
  destruct (zfor_cells 0 0 n q (fun i p1 => k <- ld p0 i; v <- ld i1 k; st p1 i v) (@alloc Z n)) as (p1 & E2 & S2 & G2); try lia.
  { rewrite zlen_alloc by lia. lia. }
  { intros i m1 Hi _. destruct (perm_on_surj n p i HP Hi) as (c1 & Hc1 & <-). destruct (perm_on_surj n s c1 Ps Hc1) as (c & Hc & <-).
    destruct (Hq c Hc) as [H1 H2]. unfold q. rewrite H1. cbn [bind]. rewrite H2. cbn [bind]. reflexivity. }
  rewrite E2. cbn [bind]. exists J', i0', p1, s, q. split; auto. split; auto. split; auto. split; auto. split; [intros i Hi; apply G2; auto|].
  split; [rewrite (proj1 S2), zlen_alloc by lia; auto|]. do 4 (split; [assumption|]).
  assert (Hqc : forall c, 0 <= c < n -> q (p (s c)) = c). { intros c Hc. destruct (Hq c Hc) as [H1 H2]. unfold q. rewrite H1. cbn [bind]. now rewrite H2. }
  split; auto. intros i Hi. destruct (perm_on_surj n p i HP Hi) as (c1 & Hc1 & <-). destruct (perm_on_surj n s c1 Ps Hc1) as (c & Hc & <-). now rewrite Hqc.
Qed.
