(** Distinct selected points, and the permutation built from them. *)
From Coq Require Import ZArith QArith List Lia Bool Permutation.
From Verif Require Import Base Mem Num CRing Model_Utils Proof_Build Model_FSAI Spec_FSAI Proof_FSAIKnn Model_AFN Spec_AFN Proof_FPS.
Import ListNotations.
Open Scope Z_scope.

Lemma fresh_index (n i : Z) (sel : Z -> Z) : 0 <= i < n -> exists u, 0 <= u < n /\ forall a, 0 <= a < i -> sel a <> u.
Proof.
  intros Hi. destruct (Forall_dec (fun u => In u (map sel (zrange 0 i))) (fun u => in_dec Z.eq_dec u _) (zrange 0 n)) as [H|H].
  - exfalso. assert (HL : (length (zrange 0 n) <= length (map sel (zrange 0 i)))%nat) by (apply NoDup_incl_length; [apply NoDup_zrange|intros x Hx; rewrite Forall_forall in H; auto]).
    rewrite map_length in HL. pose proof (zlen_zrange 0 n ltac:(lia)). pose proof (zlen_zrange 0 i ltac:(lia)). unfold zlen in *. lia.
  - apply neg_Forall_Exists_neg in H; [|intros x; apply in_dec, Z.eq_dec]. apply Exists_exists in H. destruct H as (u & Hu & Hn). exists u. split; [now apply In_zrange|].
    intros a Ha E. apply Hn. rewrite <- E. apply in_map. now apply In_zrange.
Qed.

Section Distinct.
Context {F : num}.
Variable big : F.
Hypothesis HT : total_lt (nlt (n := F)).
Variables (n dim : Z) (X : Z -> Z -> F).
Let pt := pt_of dim X.
Let zd (j : Z) := dist2 (pt j) (pt j).
Hypothesis HD : distinct_points big n dim X.

Lemma min_selected sel i a : 0 <= a < Z.of_nat i -> nlt (zd (sel a)) (min_dist big pt sel i (sel a)) = false.
Proof.
  induction i as [|i IH]; intros Ha; [lia|]. cbn [min_dist]. cbv zeta. destruct (Z.eq_dec a (Z.of_nat i)) as [->|].
  - fold (zd (sel (Z.of_nat i))). destruct (nlt (zd (sel (Z.of_nat i))) (min_dist big pt sel i (sel (Z.of_nat i)))) eqn:E; auto.
    destruct (nlt (zd (sel (Z.of_nat i))) (zd (sel (Z.of_nat i)))) eqn:E'; auto. now rewrite (tl_asym _ HT _ _ E') in E'.
  - specialize (IH ltac:(lia)). destruct (nlt (dist2 (pt (sel a)) (pt (sel (Z.of_nat i)))) (min_dist big pt sel i (sel a))) eqn:E; auto.
    apply (tl_trans _ HT _ _ _ (tl_asym _ HT _ _ E) IH).
Qed.
Lemma min_fresh sel i u p : 0 <= u < n -> 0 <= p < n -> 2 <= n -> (forall a, 0 <= a < Z.of_nat i -> 0 <= sel a < n /\ sel a <> u) -> nlt (zd p) (min_dist big pt sel i u) = true.
Proof.
  intros Hu Hp Hn. induction i as [|i IH]; intros H; cbn [min_dist].
  - destruct (HD p 0 1) as (_ & H2); auto; lia.
  - cbv zeta. destruct (nlt (dist2 (pt u) (pt (sel (Z.of_nat i)))) (min_dist big pt sel i u)).
    + destruct (H (Z.of_nat i) ltac:(lia)) as (H1 & H2). destruct (HD p u (sel (Z.of_nat i))) as (H3 & _); auto.
    + apply IH. intros a Ha. apply H. lia.
Qed.

Theorem farthest_distinct k sel : 1 <= k <= n -> farthest_points big n dim X k sel ->
  (forall i, 0 <= i < k -> 0 <= sel i < n) /\ forall i j, 0 <= i < k -> 0 <= j < k -> sel i = sel j -> i = j.
Proof.
  intros Hk (F0 & F1).
  assert (R : forall i, 0 <= i < k -> 0 <= sel i < n).
  { intros i Hi. destruct (Z.eq_dec i 0) as [->|]; [apply F0|]. destruct (F1 i ltac:(lia)) as (B & _). exact B. }
  split; auto.
  assert (Hlt : forall i a, 0 <= a < i -> i < k -> sel i <> sel a).
  { intros i a Ha Hi E.
    destruct (fresh_index n i sel ltac:(lia)) as (u & Hu & Hf).
    destruct (F1 i ltac:(lia)) as (B1 & B2 & B3). specialize (B2 u Hu). cbv beta in B2. rewrite E in B2.
    pose proof (min_selected sel (Z.to_nat i) a ltac:(lia)) as M1. fold pt in B2.
    pose proof (tl_trans _ HT _ _ _ B2 M1) as C. rewrite (min_fresh sel (Z.to_nat i) u (sel a)) in C; [discriminate|auto|apply R; lia|lia|].
    intros b Hb. split; [apply R; lia|]. apply Hf. lia. }
  intros i j Hi Hj E. destruct (Z.lt_trichotomy i j) as [H|[H|H]]; auto.
  - symmetry in E. now apply Hlt in E; try lia.
  - now apply Hlt in E; try lia.
Qed.
End Distinct.

(** The permutation. *)
Lemma filter_snoc {A} (f : A -> bool) l x : filter f (l ++ [x]) = filter f l ++ if f x then [x] else [].
Proof. rewrite filter_app. cbn. destruct (f x); auto. Qed.

Theorem fps_perm_spec n n1 (perm : mem Z) sel : 0 <= n1 <= n -> zlen perm = n -> (forall i, 0 <= i < n1 -> ld perm i = Some (sel i)) ->
  (forall i, 0 <= i < n1 -> 0 <= sel i < n) -> (forall i j, 0 <= i < n1 -> 0 <= j < n1 -> sel i = sel j -> i = j) ->
  exists perm' ps, fps_perm n n1 perm = Some perm' /\ perm_ok n perm' ps /\ forall i, 0 <= i < n1 -> ps i = sel i.
Proof.
  intros Hn Zp Lp R Inj. unfold fps_perm.
  destruct (st_loop0 (fun _ => 0) n (alloc n)) as (f0 & E0 & Z0 & L0); try lia. { rewrite zlen_alloc by lia. lia. }
  rewrite zlen_alloc in Z0 by lia. rewrite E0. cbn [bind].
  set (selp := fun k x => existsb (fun i => sel i =? x) (zrange 0 k)).
  assert (Hsel : forall k x, selp k x = true <-> exists i, 0 <= i < k /\ sel i = x).
  { intros k x. unfold selp. rewrite existsb_exists. split.
    - intros (i & Hi & E). apply In_zrange in Hi. apply Z.eqb_eq in E. eauto.
    - intros (i & Hi & E). exists i. split; [now apply In_zrange|now apply Z.eqb_eq]. }
  destruct (zfor_inv (fun k (f : mem Z) => zlen f = n /\ forall x, 0 <= x < n -> ld f x = Some (if selp k x then 1 else 0)) 0 n1 (fun i f => p <- ld perm i; st f p 1) f0) as (f1 & E1 & Z1 & L1); try lia.
  - split; auto. intros x Hx. rewrite L0. destruct (Z.leb_spec 0 x), (Z.ltb_spec x n); cbn; auto; lia.
  - intros i f Hi (Zf & Lf). rewrite Lp by lia. cbn [bind]. pose proof (R i Hi) as Ri. destruct (st_Some f (sel i) 1 ltac:(lia)) as (f' & Ef). exists f'. split; auto. rewrite (st_zlen _ _ _ _ Ef). split; auto.
    intros x Hx. rewrite (ld_st _ _ _ _ _ Ef), Lf by auto. unfold selp. rewrite zrange_snoc, existsb_app by lia. cbn. rewrite orb_false_r. destruct (Z.eqb_spec (sel i) x); [now rewrite orb_true_r|now rewrite orb_false_r].
  - rewrite E1. cbn [bind]. set (un := fun x => negb (selp n1 x)). set (U := fun i => filter un (zrange 0 i)).
    assert (HU : forall i x, In x (U i) <-> 0 <= x < i /\ forall a, 0 <= a < n1 -> sel a <> x).
    { intros i x. unfold U, un. rewrite filter_In, In_zrange, negb_true_iff. split; intros (H1 & H2); split; auto.
      - intros a Ha E. assert (selp n1 x = true) by (apply Hsel; eauto). congruence.
      - destruct (selp n1 x) eqn:E; auto. apply Hsel in E. destruct E as (a & Ha & Ea). destruct (H2 a Ha Ea). }
    set (L := fun i => map sel (zrange 0 n1) ++ U i).
    assert (HL : forall i, i <= n -> NoDup (L i) /\ forall x, In x (L i) -> 0 <= x < n).
    { intros i Hi. split.
      - unfold L. apply NoDup_app_intro.
        + apply NoDup_map_inj; [|apply NoDup_zrange]. intros a b Ha Hb. apply In_zrange in Ha, Hb. apply Inj; auto.
        + unfold U. apply NoDup_filter, NoDup_zrange.
        + intros x Hx Hu. apply in_map_iff in Hx. destruct Hx as (a & <- & Ha). apply In_zrange in Ha. apply HU in Hu. destruct Hu as (_ & Hu). now apply (Hu a).
      - unfold L. intros x Hx. apply in_app_or in Hx. destruct Hx as [Hx|Hx].
        + apply in_map_iff in Hx. destruct Hx as (a & <- & Ha). apply In_zrange in Ha. auto.
        + apply HU in Hx. lia. }
    assert (Zm : zlen (map sel (zrange 0 n1)) = n1) by (rewrite zlen_map, zlen_zrange; lia).
    assert (Hlen : forall i, i <= n -> n1 + zlen (U i) <= n).
    { intros i Hi. destruct (HL i Hi) as (Nd & Rg). assert (H : (length (L i) <= length (zrange 0 n))%nat) by (apply NoDup_incl_length; auto; intros x Hx; apply In_zrange; auto).
      pose proof (zlen_zrange 0 n ltac:(lia)). assert (zlen (L i) = n1 + zlen (U i)) by (unfold L; rewrite zlen_app; lia). unfold zlen in *. lia. }
    destruct (zfor_inv (fun i (s : mem Z * Z) => zlen (fst s) = n /\ snd s = n1 + zlen (U i) /\ forall a, 0 <= a < n1 + zlen (U i) -> ld (fst s) a = getz (L i) a) 0 n
      (fun i (s : mem Z * Z) => let '(perm, idx) := s in f <- ld f1 i; if f =? 0 then perm <- st perm idx i; Some (perm, idx + 1) else Some (perm, idx)) (perm, n1)) as ((p' & ix) & E2 & Z2 & X2 & L2); try lia.
    + cbn. unfold U. rewrite zrange_empty by lia. cbn. split; auto. split; [zlia|]. intros a Ha. assert (0 <= a < n1) by zlia. rewrite Lp by auto. unfold L, U. rewrite zrange_empty with (lo := 0) (hi := 0) by lia. cbn [filter]. rewrite app_nil_r, getz_map, getz_zrange by lia. auto.
    + intros i (p & ix) Hi (P1 & P2 & P3). cbn in P1, P2, P3. rewrite L1 by auto. cbn [bind].
      assert (HS : U (i + 1) = U i ++ if un i then [i] else []) by (unfold U; rewrite zrange_snoc, filter_snoc by lia; auto).
      destruct (selp n1 i) eqn:Es.
      * cbn [Z.eqb]. eexists. split; [reflexivity|]. cbn. assert (HS' : U (i + 1) = U i) by (rewrite HS; unfold un; rewrite Es; cbn; now rewrite app_nil_r). unfold L. rewrite HS'. auto.
      * cbn [Z.eqb]. assert (HS' : U (i + 1) = U i ++ [i]) by (rewrite HS; unfold un; now rewrite Es). pose proof (Hlen (i + 1) ltac:(lia)) as Hl. rewrite HS', zlen_app in Hl. change (zlen [i]) with 1 in Hl.
        pose proof (zlen_nonneg (U i)). destruct (st_Some p ix i ltac:(lia)) as (p2 & Ep). rewrite Ep. cbn [bind]. eexists. split; [reflexivity|]. cbn [fst snd]. rewrite (st_zlen _ _ _ _ Ep). split; auto. rewrite HS', zlen_app. change (zlen [i]) with 1.
        split; [lia|]. intros a Ha. rewrite (ld_st _ _ _ _ _ Ep). unfold L. rewrite HS', app_assoc. fold (L i). assert (ZL : zlen (L i) = n1 + zlen (U i)) by (unfold L; rewrite zlen_app; lia).
        destruct (Z.eqb_spec ix a) as [<-|].
        -- rewrite getz_app2 by lia. replace (ix - zlen (L i)) with 0 by lia. reflexivity.
        -- rewrite getz_app1 by lia. apply P3. lia.
    + cbn in Z2, X2, L2. rewrite E2. cbn [bind]. exists p', (nthz (L n)). split; [reflexivity|].
      assert (Hall : zlen (L n) = n).
      { destruct (HL n ltac:(lia)) as (Nd & Rg). assert (H1 : (length (zrange 0 n) <= length (L n))%nat).
        - apply NoDup_incl_length; [apply NoDup_zrange|]. intros x Hx. apply In_zrange in Hx. unfold L. apply in_or_app. destruct (selp n1 x) eqn:Es.
          + left. apply Hsel in Es. destruct Es as (a & Ha & <-). apply in_map. now apply In_zrange.
          + right. apply HU. split; auto. intros a Ha E. assert (selp n1 x = true) by (apply Hsel; eauto). congruence.
        - assert (H2 : (length (L n) <= length (zrange 0 n))%nat) by (apply NoDup_incl_length; auto; intros x Hx; apply In_zrange; auto).
          pose proof (zlen_zrange 0 n ltac:(lia)). unfold zlen in *. lia. }
      assert (ZL : zlen (L n) = n1 + zlen (U n)) by (unfold L; rewrite zlen_app; lia).
      destruct (HL n ltac:(lia)) as (Nd & Rg). split; [split; [auto|split]|].
      * intros i Hi. rewrite L2 by lia. pose proof (getz_nthz (L n) i ltac:(lia)) as G. split; auto. apply Rg. eapply getz_In; eauto.
      * intros i j Hi Hj E. eapply NoDup_getz; [exact Nd|apply getz_nthz; lia|]. rewrite E. apply getz_nthz. lia.
      * intros i Hi. unfold nthz, L. rewrite getz_app1 by lia. rewrite getz_map, getz_zrange by lia. cbn. auto.
Qed.
