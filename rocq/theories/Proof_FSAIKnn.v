From Coq Require Import ZArith QArith List Lia Bool Permutation.
From Verif Require Import Base Mem Num CRing Model_CSR Proof_Qsort Model_FSAI Spec_FSAI Proof_FSAISort Proof_Build.
Import ListNotations.
Open Scope Z_scope.

Lemma in_order_inv {S} (P : list Z -> S -> Prop) body : forall ord done s, NoDup ord -> (forall i, In i ord -> ~ In i done) -> P done s ->
  (forall done i s, In i ord -> ~ In i done -> P done s -> exists s', body i s = Some s' /\ P (i :: done) s') ->
  exists s' done', in_order ord body s = Some s' /\ P done' s' /\ forall i, In i done' <-> In i ord \/ In i done.
Proof.
  induction ord as [|i ord IH]; intros done s Nd Hd HP H; cbn [in_order].
  - exists s, done. split; auto. split; auto. intros i. split; [auto|]. intros [[]|]; auto.
  - inversion Nd; subst. destruct (H done i s) as (s1 & E1 & P1); auto. { now left. } { apply Hd. now left. }
    rewrite E1. cbn [bind]. destruct (IH (i :: done) s1) as (s2 & d2 & E2 & P2 & I2); auto.
    + intros k Hk [->|Hc]; [auto|]. apply (Hd k); auto. now right.
    + intros d k s' Hk. apply H. now right.
    + exists s2, d2. split; auto. split; auto. intros k. rewrite I2. cbn. tauto.
Qed.

Lemma any_order_in n ord i : any_order n ord -> In i ord <-> 0 <= i < n.
Proof. intros H. rewrite <- In_zrange. split; apply Permutation_in; auto. now apply Permutation_sym. Qed.
Lemma any_order_nodup n ord : any_order n ord -> NoDup ord.
Proof. intros H. eapply Permutation_NoDup; [apply Permutation_sym; exact H|apply NoDup_zrange]. Qed.

Lemma NoDup_app_left {A} (l m : list A) : NoDup (l ++ m) -> NoDup l.
Proof. induction l; cbn; intros H; [constructor|]. inversion H; subst. constructor; auto. intros Hc. apply H2. apply in_or_app. auto. Qed.

(** A loop over rows that write disjoint cells. *)
Lemma st_loop {A} (g : Z -> A) o n (m : mem A) : 0 <= n -> 0 <= o -> o + n <= zlen m ->
  exists m', zfor 0 n (fun j m => st m (o + j) (g j)) m = Some m' /\ zlen m' = zlen m /\
    forall c, ld m' c = if (o <=? c) && (c <? o + n) then Some (g (c - o)) else ld m c.
Proof.
  intros Hn Ho Hz.
  destruct (zfor_inv (fun k m' => zlen m' = zlen m /\ forall c, ld m' c = if (o <=? c) && (c <? o + k) then Some (g (c - o)) else ld m c) 0 n (fun j m => st m (o + j) (g j)) m) as (m' & E & P1 & P2); auto.
  - split; auto. intros c. destruct (Z.leb_spec o c), (Z.ltb_spec c (o + 0)); cbn; auto; lia.
  - intros i s Hi (P1 & P2). destruct (st_Some s (o + i) (g i) ltac:(lia)) as (s' & Es). exists s'. split; auto.
    rewrite (st_zlen _ _ _ _ Es). split; auto. intros c. rewrite (ld_st _ _ _ _ _ Es), P2.
    destruct (Z.eqb_spec (o + i) c).
    + subst c. rewrite (proj2 (Z.leb_le _ _)), (proj2 (Z.ltb_lt _ _)) by lia. cbn. do 2 f_equal. lia.
    + destruct (Z.leb_spec o c), (Z.ltb_spec c (o + i)), (Z.ltb_spec c (o + (i + 1))); cbn; auto; lia.
  - exists m'. auto.
Qed.

Lemma st_loop0 {A} (g : Z -> A) n (m : mem A) : 0 <= n -> n <= zlen m ->
  exists m', zfor 0 n (fun j m => st m j (g j)) m = Some m' /\ zlen m' = zlen m /\
    forall c, ld m' c = if (0 <=? c) && (c <? n) then Some (g c) else ld m c.
Proof.
  intros Hn Hz. destruct (st_loop g 0 n m) as (m' & E & Z1 & L); try lia. exists m'. split; [exact E|]. split; auto.
  intros c. rewrite L, !Z.add_0_l, Z.sub_0_r. auto.
Qed.

Lemma combine_map {A B C} (f : A -> B) (g : A -> C) l : combine (map f l) (map g l) = map (fun k => (f k, g k)) l.
Proof. induction l; cbn; congruence. Qed.
Lemma fold_left_map {A B C} (f : A -> B -> A) (g : C -> B) l : forall a, fold_left f (map g l) a = fold_left (fun s k => f s (g k)) l a.
Proof. induction l; cbn; auto. Qed.

Section Knn.
Context {F : num}.
Variables (n dim : Z) (coord : mem F) (co ldc : Z) (X : Z -> Z -> F).
Hypothesis Hdim : 0 <= dim.
Hypothesis HX : coords_at coord co ldc n dim X.
Let pt := pt_of dim X.

Definition d2k (k i j : Z) : F := fold_left (fun s k => let d := nsub (X i k) (X j k) in nadd s (nmul d d)) (zrange 0 k) (nlit 0%Q).
Lemma d2k_dist i j : d2k dim i j = dist2 (pt i) (pt j).
Proof. unfold d2k, dist2, pt, pt_of. rewrite combine_map, fold_left_map. reflexivity. Qed.
Lemma d2k_snoc k i j : 0 <= k -> d2k (k + 1) i j = nadd (d2k k i j) (nmul (nsub (X i k) (X j k)) (nsub (X i k) (X j k))).
Proof. intros. unfold d2k. rewrite zrange_snoc, fold_left_app by lia. reflexivity. Qed.

Lemma pdist2_spec i n1 (d : mem F) ldd : 0 <= i < n -> 0 <= n1 <= n -> n1 <= zlen d ->
  exists d', calc_pdist2 dim coord (co + i) ldc 1 coord co ldc n1 d ldd = Some d' /\ zlen d' = zlen d /\
    forall j, 0 <= j < n1 -> ld d' j = Some (dist2 (pt i) (pt j)).
Proof.
  intros Hi Hn1 Hz. unfold calc_pdist2. cbv zeta. rewrite (zfor_step 0 1) by lia.
  destruct (st_loop0 (fun _ => nlit 0%Q) n1 d) as (d1 & E1 & Z1 & L1); try lia.
  rewrite (zfor_ext 0 n1 _ (fun j m => st m j (nlit 0%Q))) by (intros; f_equal; lia). rewrite E1. cbn [bind].
  match goal with |- context [zfor 0 dim ?b d1] =>
    destruct (zfor_inv (fun k d => zlen d = zlen d1 /\ forall j, 0 <= j < n1 -> ld d j = Some (d2k k i j)) 0 dim b d1) as (d2 & E2 & Z2 & L2) end.
  - auto.
  - split; auto. intros j Hj. rewrite L1. rewrite (proj2 (Z.leb_le _ _)), (proj2 (Z.ltb_lt _ _)) by lia. reflexivity.
  - intros k s Hk (P1 & P2). replace (co + i + 0 + k * ldc) with (co + k * ldc + i) by ring. rewrite HX by lia. cbn [bind].
    match goal with |- context [zfor 0 n1 ?b s] =>
      destruct (zfor_inv (fun q d => zlen d = zlen d1 /\ forall j, 0 <= j < n1 -> ld d j = Some (if j <? q then d2k (k + 1) i j else d2k k i j)) 0 n1 b s) as (s' & Es & Zs & Ls) end.
    + lia.
    + split; auto. intros j Hj. rewrite P2 by lia. destruct (Z.ltb_spec j 0); auto; lia.
    + intros j s2 Hj (Q1 & Q2). rewrite HX by lia. cbn [bind]. rewrite !Z.mul_0_l, !Z.add_0_l.
      rewrite Q2 by lia. cbn [bind]. destruct (Z.ltb_spec j j); [lia|].
      match goal with |- context [st s2 j ?v] => destruct (st_Some s2 j v ltac:(lia)) as (s3 & E3) end. exists s3. split; auto.
      rewrite (st_zlen _ _ _ _ E3). split; auto. intros j' Hj'. rewrite (ld_st _ _ _ _ _ E3).
      destruct (Z.eqb_spec j j').
      * subst j'. destruct (Z.ltb_spec j (j + 1)); [|lia]. rewrite d2k_snoc by lia. reflexivity.
      * rewrite Q2 by lia. destruct (Z.ltb_spec j' j), (Z.ltb_spec j' (j + 1)); auto; lia.
    + exists s'. split; auto. split; auto. intros j Hj. rewrite Ls by lia. destruct (Z.ltb_spec j n1); auto; lia.
  - match goal with |- context [bind ?t _] => replace t with (Some d2) by (symmetry; exact E2) end. cbn [bind]. rewrite zfor_empty by lia. exists d2. split; auto. split; [lia|].
    intros j Hj. rewrite L2 by lia. now rewrite d2k_dist.
Qed.

Variable m : Z.
Hypothesis Hm : 1 <= m.
Hypothesis T : total_lt (@nlt F).
Hypothesis Hn : 0 <= n.

Lemma knn_row_spec i nn displs : 0 <= i < n -> zlen nn = n * m -> zlen displs = n + 1 ->
  exists nn' displs', exact_KNN_row m n dim coord co ldc i (nn, displs) = Some (nn', displs') /\ zlen nn' = n * m /\ zlen displs' = n + 1 /\
    (forall c, ~ (i * m <= c < i * m + m) -> ld nn' c = ld nn c) /\ (forall c, c <> 1 + i -> ld displs' c = ld displs c) /\
    exists l, row_is m nn' displs' i l /\ nearest_earlier m i pt l.
Proof.
  intros Hi Zn Zd. assert (Hrow : 0 <= i * m /\ i * m + m <= n * m) by nia. unfold exact_KNN_row. destruct (Z.ltb_spec i m).
  - destruct (st_loop (fun j => j) (i * m) (i + 1) nn) as (nn' & E1 & Z1 & L1); try lia. rewrite E1. cbn [bind].
    destruct (st_Some displs (1 + i) (i + 1) ltac:(lia)) as (displs' & E2). rewrite E2. cbn [bind].
    exists nn', displs'. split; auto. split; [lia|]. split; [rewrite (st_zlen _ _ _ _ E2); auto|]. split; [|split].
    + intros c Hc. rewrite L1. destruct (Z.leb_spec (i * m) c), (Z.ltb_spec c (i * m + (i + 1))); cbn; auto; lia.
    + intros c Hc. rewrite (ld_st _ _ _ _ _ E2). destruct (Z.eqb_spec (1 + i) c); auto; lia.
    + exists (zrange 0 (i + 1)). assert (ZL : zlen (zrange 0 (i + 1)) = i + 1) by (rewrite zlen_zrange; lia). split.
      * split; [rewrite (ld_st _ _ _ _ _ E2), Z.eqb_refl, ZL; auto|]. rewrite ZL. intros a Ha. rewrite L1.
        rewrite (proj2 (Z.leb_le _ _)), (proj2 (Z.ltb_lt _ _)) by lia. cbn [andb]. rewrite getz_zrange by lia. f_equal. lia.
      * split; [|split; [rewrite ZL; lia|]].
        -- split; [lia|]. split; [apply NoDup_zrange|]. split; [intros j Hj; apply In_zrange in Hj; lia|]. rewrite ZL, getz_zrange by lia. f_equal; lia.
        -- intros j k Hj Hji Hk Hkn. exfalso. apply Hkn. apply In_zrange. lia.
  - destruct (st_loop0 (fun j => j) i (@alloc Z n)) as (idx & E1 & Z1 & L1); try lia. { rewrite zlen_alloc; lia. }
    rewrite E1. cbn [bind].
    destruct (pdist2_spec i i (alloc n) n) as (ds & E2 & Z2 & L2); try lia. { rewrite zlen_alloc; lia. }
    rewrite E2. cbn [bind]. rewrite zlen_alloc in Z1 by lia. assert (Z2' : zlen ds = n) by (rewrite Z2; apply zlen_alloc; lia).
    clear Z2; rename Z2' into Z2. destruct (Qpart_spec nlt T m (Z.to_nat (i + 1)) ds idx 0 (i - 1)) as (ds' & idx' & E3 & Q1 & Q2 & Q3 & Q4 & Q5 & Q6); try lia.
    { intros k Hk. rewrite L2 by lia. eauto. }
    { intros k Hk. rewrite L1. rewrite (proj2 (Z.leb_le _ _)), (proj2 (Z.ltb_lt _ _)) by lia. cbn [andb]. eauto. }
    rewrite E3. cbn [bind].
    destruct (mcpy_spec nn (i * m) idx' 0 m) as (nn1 & E4 & Z4 & G4); try lia. rewrite E4. cbn [bind].
    destruct (st_Some nn1 (i * m + (m - 1)) i ltac:(lia)) as (nn2 & E5). rewrite E5. cbn [bind].
    destruct (st_Some displs (1 + i) m ltac:(lia)) as (displs' & E6). rewrite E6. cbn [bind].
    (* the permuted indices *)
    assert (Hat : forall a, 0 <= a < i -> exists v, 0 <= v < i /\ ld idx' a = Some v /\ ld ds' a = Some (dist2 (pt i) (pt v))).
    { intros a Ha. destruct (gperm_at _ _ _ _ _ _ Q5 a ltac:(lia)) as (v & Hv & Ek & Ev). exists v. split; [lia|].
      rewrite Ev, Ek, L1, L2 by lia. rewrite (proj2 (Z.leb_le _ _)), (proj2 (Z.ltb_lt _ _)) by lia. auto. }
    set (v := fun a => match ld idx' a with Some v => v | None => 0 end).
    assert (Hv : forall a, 0 <= a < i -> 0 <= v a < i /\ ld idx' a = Some (v a) /\ ld ds' a = Some (dist2 (pt i) (pt (v a)))).
    { intros a Ha. destruct (Hat a Ha) as (w & Hw & Ew & Ed). assert (v a = w) as -> by (unfold v; now rewrite Ew). auto. }
    assert (Hp : Permutation (map v (zrange 0 i)) (zrange 0 i)).
    { replace (i - 1 + 1) with i in Q5 by lia. apply (Permutation_map snd) in Q5. unfold gcells in Q5. rewrite !map_map in Q5. cbn in Q5.
      apply (Permutation_map (fun o => match o with Some x => x | None => 0 end)) in Q5. rewrite !map_map in Q5.
      rewrite (map_ext_in (fun x => match ld idx x with Some x0 => x0 | None => 0 end) (fun a => a) (zrange 0 i)) in Q5; [rewrite map_id in Q5; exact Q5|].
      intros a Ha. apply In_zrange in Ha. rewrite L1. rewrite (proj2 (Z.leb_le _ _)), (proj2 (Z.ltb_lt _ _)) by lia. auto. }
    assert (Hnd : NoDup (map v (zrange 0 i))) by (eapply Permutation_NoDup; [apply Permutation_sym; exact Hp|apply NoDup_zrange]).
    set (l := map v (zrange 0 (m - 1)) ++ [i]).
    assert (ZL : zlen l = m) by (unfold l; rewrite zlen_app, zlen_map, zlen_zrange by lia; change (zlen [i]) with 1; lia).
    assert (Hl : forall a, 0 <= a < m - 1 -> getz l a = Some (v a)).
    { intros a Ha. unfold l. rewrite getz_app1 by (rewrite zlen_map, zlen_zrange; lia). rewrite getz_map, getz_zrange by lia. cbn. do 2 f_equal. }
    assert (Hlast : getz l (m - 1) = Some i).
    { unfold l. rewrite getz_app2 by (rewrite zlen_map, zlen_zrange; lia). rewrite zlen_map, zlen_zrange by lia. replace (m - 1 - (m - 1 - 0)) with 0 by lia. reflexivity. }
    exists nn2, displs'. split; auto. split; [rewrite (st_zlen _ _ _ _ E5); lia|]. split; [rewrite (st_zlen _ _ _ _ E6); auto|]. split; [|split].
    + intros c Hc. rewrite (ld_st _ _ _ _ _ E5). destruct (Z.eqb_spec (i * m + (m - 1)) c); [lia|]. unfold ld. rewrite G4.
      destruct (Z.leb_spec (i * m) c), (Z.ltb_spec c (i * m + m)); cbn; auto; lia.
    + intros c Hc. rewrite (ld_st _ _ _ _ _ E6). destruct (Z.eqb_spec (1 + i) c); auto; lia.
    + exists l. split; [split|split; [|split]].
      * rewrite (ld_st _ _ _ _ _ E6), Z.eqb_refl, ZL. auto.
      * rewrite ZL. intros a Ha. rewrite (ld_st _ _ _ _ _ E5). destruct (Z.eqb_spec (i * m + (m - 1)) (i * m + a)).
        -- replace a with (m - 1) by lia. auto.
        -- rewrite Hl by lia. unfold ld. rewrite G4. rewrite (proj2 (Z.leb_le _ _)), (proj2 (Z.ltb_lt _ _)) by lia. cbn [andb].
           replace (0 + (i * m + a - i * m)) with a by lia. apply Hv. lia.
      * assert (Hin : forall j, In j (map v (zrange 0 (m - 1))) -> 0 <= j < i).
        { intros j Hj. apply in_map_iff in Hj as (a & <- & Ha). apply In_zrange in Ha. apply Hv. lia. }
        split; [lia|]. split; [|split].
        -- unfold l. apply NoDup_app_intro.
           ++ rewrite (zrange_app 0 (m - 1) i), map_app in Hnd by lia. eapply NoDup_app_left; exact Hnd.
           ++ constructor; [intros []|constructor].
           ++ intros j Hj [->|[]]. apply Hin in Hj. lia.
        -- intros j Hj. unfold l in Hj. apply in_app_or in Hj as [Hj|[<-|[]]]; [apply Hin in Hj|]; lia.
        -- rewrite ZL. auto.
      * lia.
      * intros j k Hj Hji Hk Hkn.
        apply in_app_or in Hj as [Hj|[Hj|[]]]; [|lia]. apply in_map_iff in Hj as (p & <- & Hpp). apply In_zrange in Hpp.
        assert (Hkq : In k (map v (zrange 0 i))) by (eapply Permutation_in; [apply Permutation_sym; exact Hp|]; apply In_zrange; lia).
        apply in_map_iff in Hkq as (q & <- & Hq). apply In_zrange in Hq.
        assert (m - 1 <= q). { destruct (Z.le_gt_cases (m - 1) q); auto. exfalso. apply Hkn. unfold l. apply in_or_app. left. apply in_map. apply In_zrange. lia. }
        apply (Q6 p q); try lia; apply Hv; lia.
Qed.

Lemma knn_spec nn displs ord : zlen nn = n * m -> zlen displs = n + 1 -> any_order n ord ->
  exists nn' displs', FSAI_exact_KNN m n dim coord co ldc nn displs ord = Some (nn', displs') /\ zlen nn' = n * m /\ zlen displs' = n + 1 /\
    ld displs' 0 = ld displs 0 /\
    forall i, 0 <= i < n -> exists l, row_is m nn' displs' i l /\ nearest_earlier m i pt l.
Proof.
  intros Zn Zd Ho. unfold FSAI_exact_KNN.
  destruct (st_loop (fun _ => 0) 1 n displs) as (dz & E0 & Z0 & L0); try lia. rewrite E0. cbn [bind].
  destruct (in_order_inv (fun done (s : mem Z * mem Z) => zlen (fst s) = n * m /\ zlen (snd s) = n + 1 /\ ld (snd s) 0 = ld displs 0 /\
      forall i, In i done -> 0 <= i < n -> exists l, row_is m (fst s) (snd s) i l /\ nearest_earlier m i pt l)
    (exact_KNN_row m n dim coord co ldc) ord [] (nn, dz)) as ((nn' & dd) & done & E & (P1 & P2 & P3 & P4) & Hd).
  - eapply any_order_nodup; eauto.
  - intros i _ [].
  - cbn. split; auto. split; [lia|]. split; [rewrite L0; reflexivity|]. intros i [].
  - intros done i (a & b) Hi Hnd (P1 & P2 & P3 & P4). cbn [fst snd] in *. apply (any_order_in n) in Hi; auto.
    destruct (knn_row_spec i a b Hi P1 P2) as (a' & b' & E & R1 & R2 & R3 & R4 & l & R5 & R6). exists (a', b'). split; auto. cbn [fst snd].
    split; auto. split; auto. split; [rewrite R4 by lia; auto|]. intros k [<-|Hk] Hkn; [eauto|].
    destruct (P4 k Hk Hkn) as (l' & (S1 & S2) & S3). assert (k <> i) by (intros ->; auto). exists l'. split; auto. split; [rewrite R4 by lia; auto|].
    intros q Hq. rewrite R3; [auto|]. destruct S3 as ((S3 & _) & _). nia.
  - exists nn', dd. cbn [fst snd] in *. split; auto. split; auto. split; auto. split; auto. intros i Hi. apply P4; auto. apply Hd. left. eapply any_order_in; eauto.
Qed.
End Knn.
