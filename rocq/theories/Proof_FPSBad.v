(** Farthest point sampling is deterministic; a repeated selection makes the
    permutation loop write outside its array. *)
From Coq Require Import ZArith QArith List Lia Bool Permutation.
From Verif Require Import Base Mem Num CRing Model_Utils Proof_Build Model_FSAI Spec_FSAI Proof_FSAIKnn Model_AFN Spec_AFN Proof_FPS Proof_FPSPerm.
Import ListNotations.
Open Scope Z_scope.

Lemma min_dist_ext {F : num} (big : F) pt s s' i j : (forall a, 0 <= a < Z.of_nat i -> s a = s' a) -> min_dist big pt s i j = min_dist big pt s' i j.
Proof. induction i as [|i IH]; intros H; cbn [min_dist]; auto. cbv zeta. rewrite IH by (intros; apply H; lia). rewrite (H (Z.of_nat i)) by lia. auto. Qed.

Theorem farthest_unique {F : num} (big : F) n dim X k s s' : farthest_points big n dim X k s -> farthest_points big n dim X k s' ->
  forall i, 0 <= i < k -> s i = s' i.
Proof.
  intros (A0 & A1) (B0 & B1).
  assert (H : forall j, 0 <= j -> forall i, 0 <= i < j -> i < k -> s i = s' i).
  { intros j Hj. pattern j. apply natlike_ind; [| |exact Hj]; [intros; lia|]. clear j Hj. intros j Hj IH i Hi Hk. unfold Z.succ in Hi.
    destruct (Z.eq_dec i j) as [->|]; [|apply IH; lia]. destruct (Z.eq_dec j 0) as [->|].
    - apply (first_best_unique nlt _ _ _ _ _ A0 B0).
    - specialize (A1 j ltac:(lia)). specialize (B1 j ltac:(lia)). eapply first_best_unique; [exact A1|].
      destruct B1 as (C1 & C2 & C3). assert (E : forall x, min_dist big (pt_of dim X) s (Z.to_nat j) x = min_dist big (pt_of dim X) s' (Z.to_nat j) x) by (intros x; apply min_dist_ext; intros a Ha; apply IH; lia).
      split; auto. split; intros x Hx; rewrite !E; auto. }
  intros i Hi. apply (H k); lia.
Qed.

Theorem fps_perm_dup n n1 (perm : mem Z) sel : 0 <= n1 <= n -> zlen perm = n -> (forall i, 0 <= i < n1 -> ld perm i = Some (sel i)) ->
  (forall i, 0 <= i < n1 -> 0 <= sel i < n) -> (exists i j, 0 <= i < j /\ j < n1 /\ sel i = sel j) -> fps_perm n n1 perm = None.
Proof.
  intros Hn Zp Lp R (i0 & j0 & Hij & Hj0 & Edup). unfold fps_perm.
  destruct (st_loop0 (fun _ => 0) n (alloc n)) as (f0 & E0 & Z0 & L0); try lia. { rewrite zlen_alloc by lia. lia. }
  rewrite zlen_alloc in Z0 by lia. rewrite E0. cbn [bind].
  set (selp := fun k x => existsb (fun i => sel i =? x) (zrange 0 k)).
  assert (Hsel : forall k x, selp k x = true <-> exists i, 0 <= i < k /\ sel i = x).
  { intros k x. unfold selp. rewrite existsb_exists. split.
    - intros (i & Hi & E). apply In_zrange in Hi. apply Z.eqb_eq in E. eauto.
    - intros (i & Hi & E). exists i. split; [now apply In_zrange|now apply Z.eqb_eq]. }
  destruct (zfor_inv (fun k (f : mem Z) => zlen f = n /\ forall x, 0 <= x < n -> ld f x = Some (if selp k x then 1 else 0)) 0 n1 (fun i f => p <- ld perm i; st f p 1) f0) as (f1 & E1 & Z1 & L1); try lia.
  - split; auto. intros x Hx. rewrite L0. destruct (Z.leb_spec 0 x), (Z.ltb_spec x n); cbn; auto; lia.
  - intros i f Hi (Zf & Lf). rewrite Lp by lia. cbn [bind]. pose proof (R i Hi) as Ri. destruct (st_Some f (sel i) 1 ltac:(lia)) as (f' & Ef). exists f'. split; auto. rewrite (st_zlen _ _ _ _ Ef). split; auto.
    intros x Hx. rewrite (ld_st _ _ _ _ _ Ef), Lf by auto. unfold selp. rewrite zrange_snoc, existsb_app by lia. cbn. rewrite orb_false_r. destruct (Z.eqb_spec (sel i) x); [now rewrite orb_true_r|now rewrite orb_false_r].
  - rewrite E1. cbn [bind]. set (un := fun x => negb (selp n1 x)). set (U := fun i => filter un (zrange 0 i)).
    match goal with |- bind ?t _ = None => destruct t as [(p' & ix)|] eqn:E2; [exfalso|reflexivity] end.
    pose proof (zfor_inv_partial (fun i (s : mem Z * Z) => zlen (fst s) = n /\ snd s = n1 + zlen (U i) /\ snd s <= n) 0 n
      (fun i (s : mem Z * Z) => let '(perm, idx) := s in f <- ld f1 i; if f =? 0 then perm <- st perm idx i; Some (perm, idx + 1) else Some (perm, idx)) (perm, n1) (p', ix) E2 ltac:(lia)) as P.
    destruct P as (P1 & P2 & P3).
    + cbn. unfold U. rewrite zrange_empty by lia. cbn. split; auto. split; [zlia|lia].
    + intros i (p & x) (p2 & x2) Hi (Q1 & Q2 & Q3). cbn [fst snd] in *. rewrite L1 by auto. cbn [bind].
      assert (HS : U (i + 1) = U i ++ if un i then [i] else []) by (unfold U; rewrite zrange_snoc, filter_snoc by lia; auto).
      destruct (selp n1 i) eqn:Es; cbn [Z.eqb].
      * intros [= <- <-]. assert (HS' : U (i + 1) = U i) by (rewrite HS; unfold un; rewrite Es; cbn; now rewrite app_nil_r). rewrite HS'. auto.
      * destruct (st p x i) as [p3|] eqn:Ep; cbn [bind]; [|discriminate]. intros [= <- <-]. assert (HS' : U (i + 1) = U i ++ [i]) by (rewrite HS; unfold un; now rewrite Es).
        rewrite HS', zlen_app. change (zlen [i]) with 1. rewrite (st_zlen _ _ _ _ Ep). pose proof (st_range _ _ _ _ Ep). lia.
    + cbn [fst snd] in *. assert (Hc : zlen (U n) + n1 <= n) by lia.
      (* every point is unselected or the selection of some i <> j0 *)
      assert (HI : incl (zrange 0 n) (U n ++ map sel (zrange 0 j0 ++ zrange (j0 + 1) n1))).
      { intros x Hx. apply in_or_app. destruct (selp n1 x) eqn:Es.
        - right. apply Hsel in Es. destruct Es as (a & Ha & <-). destruct (Z.eq_dec a j0) as [->|].
          + rewrite <- Edup. apply in_map. apply in_or_app. left. apply In_zrange. lia.
          + apply in_map. apply in_or_app. destruct (Z.lt_ge_cases a j0); [left|right]; apply In_zrange; lia.
        - left. unfold U. apply filter_In. split; auto. unfold un. now rewrite Es. }
      apply NoDup_incl_length in HI; [|apply NoDup_zrange]. rewrite app_length, map_length, app_length in HI.
      pose proof (zlen_zrange 0 n ltac:(lia)). pose proof (zlen_zrange 0 j0 ltac:(lia)). pose proof (zlen_zrange (j0 + 1) n1 ltac:(lia)). unfold zlen in *. lia.
Qed.

(** Coincident points: every point is selected first. *)
Theorem farthest_coincident {F : num} (big : F) n dim X k sel : (forall a : F, nlt a a = false) -> 1 <= k -> 1 <= n -> (forall i j d, X i d = X j d) -> farthest_points big n dim X k sel ->
  forall i, 0 <= i < k -> sel i = 0.
Proof.
  intros Irr Hk Hn HX (F0 & F1).
  assert (EP : forall i j, pt_of dim X i = pt_of dim X j) by (intros i j; unfold pt_of; apply map_ext; auto).
  assert (EM : forall s i j j', min_dist big (pt_of dim X) s i j = min_dist big (pt_of dim X) s i j').
  { intros s i j j'. induction i; cbn [min_dist]; auto. cbv zeta. now rewrite IHi, (EP j j'). }
  intros i Hi. destruct (Z.eq_dec i 0) as [->|].
  - destruct F0 as (A & B & C). destruct (Z.eq_dec (sel 0) 0); auto. specialize (C 0 ltac:(lia)). cbv beta in C. rewrite (EP (sel 0) 0), Irr in C. discriminate.
  - destruct (F1 i ltac:(lia)) as (A & B & C). destruct (Z.eq_dec (sel i) 0); auto. specialize (C 0 ltac:(lia)). cbv beta in C. rewrite (EM sel (Z.to_nat i) (sel i) 0), Irr in C. discriminate.
Qed.
