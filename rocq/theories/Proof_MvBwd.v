(** The y1 buffers (initialisation, reduction) and the backward transformation. *)
From Coq Require Import ZArith List Lia Bool Permutation.
From Verif Require Import Base Mem Num CRing Conc Model_Utils Spec_Utils Proof_Utils Model_Dense Spec_Dense Proof_Dense2 Model_Partition Spec_Tree Model_Matvec Spec_Matvec Proof_Gemv Proof_MvTree Proof_MvFwd Proof_MvMid.
Import ListNotations.
Open Scope Z_scope.

Section Bwd.
Context {F : num} {K : cring}.
Add Ring Kring : (cth K).
Local Open Scope ring_K.
Variable h : h2rep F K.
Hypothesis R : rep_ok h.
Notation t := (h_t h).
Notation nth := (h_nthread h).

(** ** Initialisation *)
Definition shaped (m : dmat K) (i : Z) : Prop :=
  dm_ld m = 0 \/ (dm_ld m <> 0 /\ dm_ncol m = rank h i /\ 1 <= rank h i /\ h_minlevel h <= level h i /\ nth * rank h i <= zlen (dm_data m)).

Lemma init_y1_shape_spec s : mats_mok (h_nnode h) (s_y1 s) ->
  exists y1, init_y1_shape h s = Some (set_y1 s y1) /\ zlen y1 = h_nnode h /\ Forall mok y1 /\
    (forall i m, getz y1 i = Some m -> shaped m i) /\
    (forall k n0 n1, getz (h_adm h) k = Some (n0, n1) -> forall i, (i = n0 \/ i = n1) -> h_minlevel h <= level h i -> active y1 i).
Proof.
  intros Hm. unfold init_y1_shape. cbv zeta.
  set (y := match s_y1 s with Some y1 => y1 | None => map (fun _ => dm_init 0 0) (h_U h) end).
  assert (Zy : zlen y = h_nnode h /\ Forall mok y).
  { unfold y. destruct (s_y1 s); auto. rewrite zlen_map. destruct (ro_U _ R) as [-> _]. split; auto.
    rewrite Forall_map, Forall_forall. intros U HU. split; [reflexivity|]. unfold dm_init. cbn. rewrite zlen_alloc; lia. }
  clearbody y. destruct Zy as [Zy Fy].
  destruct (ro_dims _ R) as (_ & _ & D3 & _). destruct (ro_nr _ R) as [Zn Hnr].
  pose (P := fun (j : Z) (y1 : list (dmat K)) => zlen y1 = h_nnode h /\ Forall mok y1 /\
    (forall i m, i < j -> getz y1 i = Some m -> shaped m i) /\
    forall i n, 0 <= i < j -> ld (h_nr h) i = Some n -> n <> 0 -> h_minlevel h <= level h i -> active y1 i).
  match goal with |- context [zfor 0 (h_nnode h) ?b y] => destruct (zfor_inv P 0 (h_nnode h) b y) as [y1 [E (P1 & P2 & P3 & P4)]] end.
  - pose proof (zlen_nonneg y). lia.
  - split; auto. split; auto. split; [|intros; lia]. intros i m Hi G. apply getz_range in G. lia.
  - intros i y1 Hi (P1 & P2 & P3 & P4). destruct (getz_in y1 i ltac:(lia)) as [m Em]. rewrite Em. cbn [bind].
    destruct (Hnr i Hi) as (n & En & _). rewrite En. cbn [bind]. destruct (U_at h R i Hi) as (U & EU & Er & U1 & U2). rewrite EU. cbn [bind].
    pose proof (rank_nonneg h R i Hi) as Hrk. pose proof (Forall_getz _ _ _ _ P2 Em) as Ok.
    set (m0 := mkDM (dm_nrow m) (dm_ncol m) 0 (dm_size m) (dm_data m)).
    assert (O0 : dm_ok m0) by exact (proj1 Ok). assert (O0' : mok m0) by exact Ok.
    destruct (dm_resize_ok m0 nth (dm_ncol U) O0) as (O1 & O2 & O3 & O4 & O5); [rewrite Er; nia|].
    set (mm := if n =? 0 then m0 else dm_resize m0 nth (dm_ncol U)).
    assert (Omm : mok mm) by (unfold mm; destruct (n =? 0); [auto|apply mok_resize; [auto|rewrite Er; nia]]).
    assert (Smm : shaped mm i).
    { unfold mm, shaped. destruct (n =? 0); [left; reflexivity|]. rewrite O4, O3, Er in *.
      destruct (Z.eq_dec (rank h i) 0) as [Hz|Hz]; [left; auto|right]. repeat (split; auto); lia. }
    assert (Amm : n <> 0 -> h_minlevel h <= level h i -> dm_ld mm <> 0).
    { intros Hn Hl. unfold mm. destruct (Z.eqb_spec n 0); [contradiction|]. rewrite O4, Er. specialize (U2 Hl). lia. }
    destruct (setz_Some y1 i mm) as [y1' Es]; [lia|]. exists y1'. split; auto. unfold P.
    split; [rewrite (setz_zlen _ _ _ _ Es); auto|]. split; [eapply (Forall_setz _ _ _ _ _ P2); [|exact Es]; auto|]. split.
    + intros j m' Hj G. rewrite (getz_setz _ _ _ _ _ Es) in G. destruct (Z.eqb_spec i j); [injection G as <-; subst; auto|].
      apply P3; auto. lia.
    + intros j n' Hj En' Hn' Hl. unfold active. rewrite (getz_setz _ _ _ _ _ Es). destruct (Z.eqb_spec i j).
      * subst j. exists mm. split; auto. apply Amm; auto. congruence.
      * apply (P4 j n'); auto. lia.
  - rewrite E. cbn [bind]. exists y1. split; auto. split; auto. split; auto. split.
    + intros i m G. apply P3; auto. apply getz_range in G. lia.
    + intros k n0 n1 Hk i Hi Hl. destruct (ro_adm _ R _ _ _ Hk) as (N0 & N1 & _).
      assert (Ri : 0 <= i < h_nnode h) by (destruct Hi; subst; auto).
      destruct (Hnr i Ri) as (n & En & Hn). apply (P4 i n); auto. apply Hn. eauto.
Qed.

Definition zeroed (done : list Z) (m : dmat K) (i : Z) : Prop :=
  dm_ld m <> 0 -> forall tid k, In tid done -> 0 <= k < rank h i -> ld (dm_data m) (tid * rank h i + k) = Some c0.

Definition y1_ok (done : list Z) (y y1 : list (dmat K)) : Prop :=
  zlen y1 = h_nnode h /\ Forall mok y1 /\ (forall i m, getz y1 i = Some m -> shaped m i /\ zeroed done m i) /\
  forall i, active y i -> active y1 i.

Lemma zero_row (m : dmat K) i tid : dm_ok m -> shaped m i -> dm_ld m <> 0 -> 0 <= tid < nth ->
  exists d, zfor 0 (dm_ncol m) (fun k d => st d (tid * dm_ncol m + k)%Z c0) (dm_data m) = Some d /\ zlen d = zlen (dm_data m) /\
    forall k, ld d k = if (tid * rank h i <=? k) && (k <? tid * rank h i + rank h i) then Some c0 else ld (dm_data m) k.
Proof.
  intros Ok [?|(_ & C & R1 & L1 & S1)] Ha Ht; [contradiction|]. rewrite C.
  pose (P := fun (j : Z) (d : mem K) => zlen d = zlen (dm_data m) /\
    forall k, ld d k = if (tid * rank h i <=? k) && (k <? tid * rank h i + j) then Some c0 else ld (dm_data m) k).
  match goal with |- context [zfor 0 _ ?b ?z] => destruct (zfor_inv P 0 (rank h i) b z) as [d [E (P1 & P2)]] end.
  - lia.
  - split; auto. intros k. destruct (Z.leb_spec (tid * rank h i) k); destruct (Z.ltb_spec k (tid * rank h i + 0)); auto; lia.
  - intros j d Hj (P1 & P2). destruct (st_Some d (tid * rank h i + j) (@c0 K)) as [d' E]; [nia|]. exists d'. split; auto.
    split; [rewrite (st_zlen _ _ _ _ E); auto|]. intros k. rewrite (ld_st _ _ _ _ _ E), P2.
    destruct (Z.eqb_spec (tid * rank h i + j) k); destruct (Z.leb_spec (tid * rank h i) k);
      destruct (Z.ltb_spec k (tid * rank h i + j)); destruct (Z.ltb_spec k (tid * rank h i + (j + 1))); auto; lia.
  - exists d. auto.
Qed.

Lemma init_y1_zero_spec done tid s y y1 : s_y1 s = Some y1 -> y1_ok done y y1 -> 0 <= tid < nth ->
  exists y1', init_y1_zero h tid s = Some (set_y1 s y1') /\ y1_ok (tid :: done) y y1'.
Proof.
  intros E (Z1 & F1 & S1 & A1) Ht. unfold init_y1_zero. rewrite E. cbn [bind].
  pose (P := fun (j : Z) (y1' : list (dmat K)) => y1_ok done y y1' /\ forall i m, i < j -> getz y1' i = Some m -> zeroed (tid :: done) m i).
  match goal with |- context [zfor 0 (h_nnode h) ?b y1] => destruct (zfor_inv P 0 (h_nnode h) b y1) as [y1' [E' (P1 & P2)]] end.
  - pose proof (zlen_nonneg y1). lia.
  - split; [repeat (split; auto)|]. intros i m Hi G. apply getz_range in G. lia.
  - intros i ya Hi (P1 & P2). pose proof P1 as (Za & Fa & Sa & Aa). destruct (getz_in ya i ltac:(lia)) as [m Em]. rewrite Em. cbn [bind].
    destruct (Sa i m Em) as [Sm Zm]. destruct (Z.eqb_spec (dm_ld m) 0) as [H0|H0].
    + exists ya. split; auto. split; auto. intros j m' Hj G. destruct (Z.eq_dec j i) as [->|].
      * intros H0'. congruence.
      * apply P2; auto. lia.
    + pose proof (Forall_getz _ _ _ _ Fa Em) as Ok.
      destruct (zero_row m i tid (proj1 Ok) Sm H0 Ht) as (d & Ed & Zd & Gd). rewrite Ed. cbn [bind].
      destruct (setz_Some ya i (dm_set_data m d)) as [yb Es]; [lia|]. exists yb. split; auto.
      assert (Zr : zeroed (tid :: done) (dm_set_data m d) i).
      { intros _ tid' k Htid Hk. cbn [dm_set_data dm_data]. rewrite Gd.
        destruct (Z.leb_spec (tid * rank h i) (tid' * rank h i + k)); destruct (Z.ltb_spec (tid' * rank h i + k) (tid * rank h i + rank h i)); cbn [andb]; auto;
        (destruct Htid as [<-|Htid]; [lia|apply Zm; auto]). }
      split.
      * split; [rewrite (setz_zlen _ _ _ _ Es); auto|]. split.
        { eapply (Forall_setz _ _ _ _ _ Fa); [|exact Es]. now apply mok_set_data. }
        split.
        { intros j m' G. rewrite (getz_setz _ _ _ _ _ Es) in G. destruct (Z.eqb_spec i j).
          - subst j. injection G as <-. split.
            + unfold shaped in *. cbn [dm_set_data dm_ld dm_ncol dm_data]. rewrite Zd. auto.
            + intros H tid' k Htid. apply Zr; auto. now right.
          - apply Sa; auto. }
        intros j Hj. destruct (Aa j Hj) as (mj & Emj & Hmj). unfold active. rewrite (getz_setz _ _ _ _ _ Es).
        destruct (Z.eqb_spec i j); eauto.
      * intros j m' Hj G. rewrite (getz_setz _ _ _ _ _ Es) in G. destruct (Z.eqb_spec i j).
        -- subst j. injection G as <-. auto.
        -- apply P2; auto. lia.
  - rewrite E'. cbn [bind]. exists y1'. split; auto. destruct P1 as (Za & Fa & Sa & Aa). split; auto. split; auto. split; auto.
    intros i m G. split; [apply Sa; auto|]. apply P2; auto. apply getz_range in G. lia.
Qed.

Lemma init_y1_spec team s : Permutation team (zrange 0 nth) -> mats_mok (h_nnode h) (s_y1 s) ->
  exists y1, init_y1 h team s = Some (set_y1 s y1) /\ zlen y1 = h_nnode h /\ Forall mok y1 /\
    (forall i, 0 <= i < h_nnode h -> wide h y1 i) /\
    (forall k n0 n1, getz (h_adm h) k = Some (n0, n1) -> forall i, (i = n0 \/ i = n1) -> h_minlevel h <= level h i -> active y1 i) /\
    forall i tid c, 0 <= tid < nth -> 0 <= c < rank h i -> y1val y1 i (tid * rank h i + c) = c0.
Proof.
  intros Hp Hm. unfold init_y1. destruct (init_y1_shape_spec s Hm) as (y & E & Zy & Fy & Sy & Ay). rewrite E. cbn [bind].
  destruct (run_each (fun x : Z => x) (init_y1_zero h) (fun done s' => exists y1, s' = set_y1 s y1 /\ y1_ok done y y1) team [] (set_y1 s y))
    as (s' & E' & y1 & -> & (Z1 & F1 & S1 & A1)).
  - rewrite map_id. eapply Permutation_NoDup; [symmetry; exact Hp|apply NoDup_zrange].
  - intros e He [].
  - exists y. split; auto. split; auto. split; auto. split; auto. intros i m G. split; auto. intros _ tid k [].
  - intros done e s1 He Hd (y1 & -> & Hy1).
    destruct (init_y1_zero_spec done e (set_y1 s y1) y y1) as (y1' & E1 & O1); auto.
    { apply In_zrange. eapply Permutation_in; eauto. }
    exists (set_y1 s y1'). split; auto. exists y1'. auto.
  - exists y1. split; auto. split; auto. split; auto. rewrite map_id, app_nil_r in S1.
    assert (In_t : forall tid, 0 <= tid < nth -> In tid (rev team)).
    { intros tid Ht. apply -> in_rev. apply (Permutation_in _ (Permutation_sym Hp)). apply In_zrange. lia. }
    split; [|split].
    + intros i Hi. destruct (getz_in y1 i ltac:(lia)) as [m Em]. exists m. split; auto. destruct (S1 i m Em) as [[Sm|Sm] Zm]; auto.
      right. destruct Sm as (Ha & C & R1 & L1 & Sz). repeat (split; auto). intros k Hk.
      assert (Hq : 0 <= k / rank h i < nth) by (split; [apply Z.div_pos; lia|apply Z.div_lt_upper_bound; lia]).
      pose proof (Z.mod_pos_bound k (rank h i) ltac:(lia)) as Hr. pose proof (Z.div_mod k (rank h i) ltac:(lia)) as Hd.
      exists c0. replace k with (k / rank h i * rank h i + k mod rank h i)%Z by lia. apply Zm; auto.
    + intros k n0 n1 Hk i Hi Hl. apply A1. eapply Ay; eauto.
    + intros i tid c Ht Hc. unfold y1val. destruct (getz y1 i) as [m|] eqn:Em; auto. destruct (Z.eqb_spec (dm_ld m) 0); auto.
      destruct (S1 i m Em) as [_ Zm]. rewrite Zm; auto.
Qed.

(** ** Reduction of the per-thread rows *)
Definition ysum (y1 : list (dmat K)) (i c : Z) : K := rsum 0 nth (fun tid => y1val y1 i (tid * rank h i + c)).

(** A y1 buffer whose first row holds the data. *)
Definition narrow (y1 : list (dmat K)) (i : Z) : Prop := exists m, getz y1 i = Some m /\
  (dm_ld m = 0 \/ (1 <= rank h i /\ h_minlevel h <= level h i /\ rank h i <= zlen (dm_data m) /\
     forall k, 0 <= k < rank h i -> exists v, ld (dm_data m) k = Some v)).

Lemma sum_y1_node_spec i s y1 : s_y1 s = Some y1 -> zlen y1 = h_nnode h -> Forall mok y1 -> 0 <= i < h_nnode h -> wide h y1 i ->
  exists y1', sum_y1_node h i s = Some (set_y1 s y1') /\ zlen y1' = h_nnode h /\ Forall mok y1' /\
    (forall j, j <> i -> getz y1' j = getz y1 j) /\ narrow y1' i /\ forall c, 0 <= c < rank h i -> y1val y1' i c = ysum y1 i c.
Proof.
  intros E Z1 F1 Hi (m & Em & Hw). unfold sum_y1_node. rewrite E. cbn [bind]. rewrite Em. cbn [bind].
  destruct (ro_dims _ R) as (_ & _ & D3 & _).
  destruct (Z.eqb_spec (dm_ld m) 0) as [H0|H0].
  - exists y1. split; [destruct s; cbn in *; now rewrite E|]. repeat (split; auto).
    + exists m. auto.
    + intros c Hc. unfold ysum, y1val. rewrite Em, H0. cbn [Z.eqb]. now rewrite rsum_zero.
  - destruct Hw as [?|(C & R1 & L1 & S1 & V1)]; [contradiction|]. rewrite C.
    pose (g := fun k => val c0 (ld (dm_data m) k)).
    assert (Hg : forall k, 0 <= k < nth * rank h i -> ld (dm_data m) k = Some (g k)).
    { intros k Hk. unfold g. destruct (V1 k Hk) as [v Hv]. now rewrite Hv. }
    pose (P := fun (j : Z) (d : mem K) => zlen d = zlen (dm_data m) /\
      (forall c, 0 <= c < rank h i -> ld d c = Some (rsum 0 j (fun tid => g (tid * rank h i + c)%Z))) /\
      forall k, rank h i <= k -> ld d k = ld (dm_data m) k).
    match goal with |- context [zfor 1 nth ?b ?z] => destruct (zfor_inv P 1 nth b z) as [d [Ed (P1 & P2 & P3)]] end.
    + lia.
    + split; auto. split; auto. intros c Hc. rewrite rsum_one. apply Hg. nia.
    + intros j d Hj (P1 & P2 & P3).
      pose (Q := fun (k : Z) (d' : mem K) => zlen d' = zlen (dm_data m) /\
        (forall c, 0 <= c < rank h i -> ld d' c = Some (rsum 0 (if c <? k then j + 1 else j)%Z (fun tid => g (tid * rank h i + c)%Z))) /\
        forall k', rank h i <= k' -> ld d' k' = ld (dm_data m) k').
      match goal with |- context [zfor 0 (rank h i) ?b ?z] => destruct (zfor_inv Q 0 (rank h i) b z) as [d' [Ed' (Q1 & Q2 & Q3)]] end.
      * lia.
      * split; auto. split; auto. intros c Hc. rewrite P2 by auto. destruct (Z.ltb_spec c 0); auto. lia.
      * intros k d' Hk (Q1 & Q2 & Q3). rewrite Q3 by nia. rewrite Hg by nia. cbn [bind].
        destruct (madd_spec d' k (g (j * rank h i + k)%Z) _ (Q2 k Hk)) as (d'' & E'' & Z'' & G''). exists d''. split; auto.
        split; [lia|]. split.
        -- intros c Hc. rewrite G''. destruct (Z.eqb_spec k c).
           ++ subst c. f_equal. destruct (Z.ltb_spec k k); [lia|]. destruct (Z.ltb_spec k (k + 1)); [|lia]. now rewrite rsum_snoc by lia.
           ++ rewrite Q2 by auto. destruct (Z.ltb_spec c k); destruct (Z.ltb_spec c (k + 1)); auto; lia.
        -- intros k' Hk'. rewrite G''. destruct (Z.eqb_spec k k'); [lia|]. auto.
      * exists d'. split; auto. split; auto. split; auto. intros c Hc. rewrite Q2 by auto. destruct (Z.ltb_spec c (rank h i)); auto. lia.
    + rewrite Ed. cbn [bind]. destruct (setz_Some y1 i (dm_set_data m d)) as [y1' Es]; [lia|]. rewrite Es. cbn [bind].
      exists y1'. split; auto. split; [rewrite (setz_zlen _ _ _ _ Es); auto|]. split.
      { eapply (Forall_setz _ _ _ _ _ F1); [|exact Es]. apply mok_set_data; auto. eapply Forall_getz; eauto. }
      split; [|split].
      * intros j Hj. rewrite (getz_setz _ _ _ _ _ Es). destruct (Z.eqb_spec i j); [congruence|auto].
      * exists (dm_set_data m d). rewrite (getz_setz _ _ _ _ _ Es), Z.eqb_refl. split; auto. right. cbn [dm_set_data dm_data].
        split; auto. split; auto. split; [nia|]. intros k Hk. rewrite P2 by auto. eauto.
      * intros c Hc. unfold y1val at 1. rewrite (getz_setz _ _ _ _ _ Es), Z.eqb_refl. cbn [dm_set_data dm_ld dm_data].
        destruct (Z.eqb_spec (dm_ld m) 0); [contradiction|]. rewrite P2 by auto. cbn [val]. unfold ysum. apply rsum_ext.
        intros tid Ht. unfold y1val. rewrite Em. destruct (Z.eqb_spec (dm_ld m) 0); [contradiction|]. reflexivity.
Qed.

Lemma sum_events_spec evs s y1 : omp_for nth (h_nnode h) evs -> s_y1 s = Some y1 -> zlen y1 = h_nnode h -> Forall mok y1 ->
  (forall i, 0 <= i < h_nnode h -> wide h y1 i) ->
  exists y1', run (map (fun ev => sum_y1_node h (snd ev)) evs) s = Some (set_y1 s y1') /\ zlen y1' = h_nnode h /\ Forall mok y1' /\
    (forall i, 0 <= i < h_nnode h -> narrow y1' i /\ forall c, 0 <= c < rank h i -> y1val y1' i c = ysum y1 i c).
Proof.
  intros [_ Hp] E Z1 F1 W1.
  destruct (run_each snd (fun ev : Z * Z => sum_y1_node h (snd ev)) (fun done s' => exists y1', s' = set_y1 s y1' /\ zlen y1' = h_nnode h /\ Forall mok y1' /\
     (forall i, ~ In i done -> getz y1' i = getz y1 i) /\
     forall i, In i done -> narrow y1' i /\ forall c, 0 <= c < rank h i -> y1val y1' i c = ysum y1 i c) evs [] s)
    as (s' & E' & y1' & -> & Z' & F' & O' & D').
  - eapply Permutation_NoDup; [symmetry; exact Hp|apply NoDup_zrange].
  - intros e He [].
  - exists y1. split; [destruct s; cbn in *; now rewrite E|]. split; auto. split; auto. split; auto. intros i [].
  - intros done [tid i] s1 He Hd (y & -> & Zy & Fy & Oy & Dy). cbn [snd] in *.
    assert (Hi : 0 <= i < h_nnode h). { apply In_zrange. eapply Permutation_in; [exact Hp|]. apply (in_map snd) in He. auto. }
    assert (Wy : wide h y i). { unfold wide. rewrite Oy by auto. now apply W1. }
    destruct (sum_y1_node_spec i (set_y1 s y) y eq_refl Zy Fy Hi Wy) as (y' & E2 & Z2 & F2 & O2 & N2 & V2).
    exists (set_y1 s y'). rewrite E2. split; auto. exists y'. split; auto. split; auto. split; auto. split.
    + intros j Hj. rewrite O2 by (intros ->; apply Hj; now left). apply Oy. intros Hj'. apply Hj. now right.
    + intros j [<-|Hj].
      * split; auto. intros c Hc. rewrite V2 by auto. unfold ysum, y1val. now rewrite Oy by auto.
      * assert (Hne : j <> i) by (intros ->; contradiction). destruct (Dy j Hj) as (Nj & Vj). split.
        -- destruct Nj as (m & Em & Hm). exists m. rewrite O2; auto.
        -- intros c Hc. rewrite <- Vj by auto. unfold y1val. now rewrite O2 by auto.
  - exists y1'. split; auto. split; auto. split; auto. intros i Hi. apply D'. rewrite app_nil_r. apply -> in_rev.
    apply (Permutation_in _ (Permutation_sym Hp)). apply In_zrange. lia.
Qed.

(** ** Backward sweep *)
Definition pyval (py : mem K) (p : Z) : K := val c0 (ld py p).
(** Contribution to row p of the nodes still to be handled. *)
Definition psum (pend : Z -> bool) (y1 : list (dmat K)) (p : Z) : K :=
  rsum 0 (h_nnode h) (fun i => if pend i then rsum 0 (rank h i) (fun c => basis h i p c * y1val y1 i c) else c0).

Lemma psum_add pend y1 y1' ch w p : 0 <= ch < h_nnode h -> pend ch = true ->
  (forall j, j <> ch -> getz y1' j = getz y1 j) -> (forall d, 0 <= d < rank h ch -> y1val y1' ch d = y1val y1 ch d + w d) ->
  psum pend y1' p = psum pend y1 p + rsum 0 (rank h ch) (fun d => basis h ch p d * w d).
Proof.
  intros Hc Hp Ho Hv. unfold psum.
  rewrite (rsum_upd 0 (h_nnode h) (fun i => if pend i then rsum 0 (rank h i) (fun c => basis h i p c * y1val y1 i c) else c0) _ ch
    (rsum 0 (rank h ch) (fun d => basis h ch p d * w d))); [ring|auto| |].
  - rewrite Hp, <- rsum_add. apply rsum_ext. intros d Hd. rewrite Hv by auto. ring.
  - intros i Hi Hne. destruct (pend i); auto. apply rsum_ext. intros c Hcc. unfold y1val. now rewrite Ho by auto.
Qed.

Definition py_ok (py : mem K) : Prop := h_kms h <= zlen py /\ forall p, 0 <= p < h_kms h -> exists v, ld py p = Some v.
Definition m0_ok (m0 : list (dmat K)) : Prop := zlen m0 = nth /\ Forall dm_ok m0.

Definition bwd_st (s : mvst K) (y1 m0 : list (dmat K)) (py : mem K) : mvst K :=
  MvSt (s_y0 s) (Some y1) (s_ty s) m0 (s_px s) py (s_yT s).
Definition bwd_ok (y1 m0 : list (dmat K)) (py : mem K) : Prop :=
  zlen y1 = h_nnode h /\ Forall mok y1 /\ (forall i, 0 <= i < h_nnode h -> narrow y1 i) /\ m0_ok m0 /\ py_ok py.

(** The rows of a leaf. *)
Lemma bwd_leaf (td py : mem K) si n (tv : Z -> K) : py_ok py -> 0 <= si -> 0 <= n -> si + n <= h_kms h ->
  (forall r, 0 <= r < n -> ld td r = Some (tv r)) ->
  exists py', zfor 0 n (fun k py => v <- ld td k; madd py (si + k)%Z v) py = Some py' /\ py_ok py' /\
    forall p, 0 <= p < h_kms h -> pyval py' p = pyval py p + (if (si <=? p) && (p <? si + n) then tv (p - si)%Z else c0).
Proof.
  intros (Zp & Vp) Hs Hn He Ht.
  pose (P := fun (j : Z) (py' : mem K) => py_ok py' /\
    forall p, 0 <= p < h_kms h -> pyval py' p = pyval py p + (if (si <=? p) && (p <? si + j) then tv (p - si)%Z else c0)).
  match goal with |- context [zfor 0 n ?b ?z] => destruct (zfor_inv P 0 n b z) as [py' [E (P1 & P2)]] end.
  - lia.
  - split; [split; auto|]. intros p Hp. destruct (Z.leb_spec si p); destruct (Z.ltb_spec p (si + 0)); cbn [andb]; try ring. lia.
  - intros j py' Hj ((P1 & P2) & P3). rewrite Ht by auto. cbn [bind]. destruct (P2 (si + j)%Z ltac:(lia)) as [v Hv].
    destruct (madd_spec py' (si + j) (tv j) v Hv) as (py'' & E & Z' & G'). exists py''. split; auto. split.
    + split; [lia|]. intros p Hp. rewrite G'. destruct (si + j =? p); eauto.
    + intros p Hp. unfold pyval at 1. rewrite G'. destruct (Z.eqb_spec (si + j) p).
      * subst p. cbn [val]. specialize (P3 (si + j)%Z Hp). unfold pyval at 1 in P3. rewrite Hv in P3. cbn [val] in P3.
        rewrite P3. destruct (Z.leb_spec si (si + j)); [|lia]. destruct (Z.ltb_spec (si + j) (si + j)); [lia|].
        destruct (Z.ltb_spec (si + j) (si + (j + 1))); [|lia]. cbn [andb]. replace (si + j - si)%Z with j by lia. ring.
      * fold (pyval py' p). rewrite P3 by auto. f_equal. destruct (Z.leb_spec si p); destruct (Z.ltb_spec p (si + j)); destruct (Z.ltb_spec p (si + (j + 1))); auto; lia.
  - exists py'. auto.
Qed.

(** One child's share. *)
Lemma bwd_child (y1 : list (dmat K)) c (td : mem K) idx (w : Z -> K) : zlen y1 = h_nnode h -> Forall mok y1 ->
  (forall i, 0 <= i < h_nnode h -> narrow y1 i) -> 0 <= c < h_nnode h -> h_minlevel h <= level h c -> 0 <= idx ->
  (forall d, 0 <= d < rank h c -> ld td (idx + d) = Some (w d)) ->
  exists y1', (Uc <- getz (h_U h) c;
       let len := dm_ncol Uc in
       mc <- getz y1 c;
       mc <- (if dm_ld mc =? 0 then
                let mc := dm_resize mc len 1 in
                d <- mcpy (dm_data mc) 0 td idx len;
                Some (dm_set_data mc d)
              else
                d <- zfor 0 len (fun l d => v <- ld td (idx + l)%Z; madd d l v) (dm_data mc);
                Some (dm_set_data mc d));
       y1 <- setz y1 c mc;
       Some ((idx + len)%Z, y1)) = Some ((idx + rank h c)%Z, y1') /\
    zlen y1' = h_nnode h /\ Forall mok y1' /\ (forall i, 0 <= i < h_nnode h -> narrow y1' i) /\
    (forall j, j <> c -> getz y1' j = getz y1 j) /\ forall d, 0 <= d < rank h c -> y1val y1' c d = y1val y1 c d + w d.
Proof.
  intros Z1 F1 N1 Hc Hl Hidx Hw. destruct (U_at h R c Hc) as (U & EU & Er & _ & HU). specialize (HU Hl). destruct HU as (Hr & _).
  rewrite EU. cbn [bind]. rewrite Er. destruct (N1 c Hc) as (mc & Em & Hn). rewrite Em. cbn [bind].
  pose proof (Forall_getz _ _ _ _ F1 Em) as Ok.
  cut (exists mc', (if dm_ld mc =? 0 then
                let mc := dm_resize mc (rank h c) 1 in
                d <- mcpy (dm_data mc) 0 td idx (rank h c);
                Some (dm_set_data mc d)
              else
                d <- zfor 0 (rank h c) (fun l d => v <- ld td (idx + l)%Z; madd d l v) (dm_data mc);
                Some (dm_set_data mc d)) = Some mc' /\ mok mc' /\ dm_ld mc' <> 0 /\ rank h c <= zlen (dm_data mc') /\
       forall d, 0 <= d < rank h c -> ld (dm_data mc') d = Some (y1val y1 c d + w d)).
  { intros (mc' & E & O' & L' & S' & V'). cbv zeta. cbv zeta in E. rewrite E. cbn [bind].
    destruct (setz_Some y1 c mc') as [y1' Es]; [lia|]. rewrite Es. cbn [bind]. exists y1'. split; auto.
    split; [rewrite (setz_zlen _ _ _ _ Es); auto|]. split; [eapply (Forall_setz _ _ _ _ _ F1); [|exact Es]; auto|]. split; [|split].
    - intros i Hi. unfold narrow. rewrite (getz_setz _ _ _ _ _ Es). destruct (Z.eqb_spec c i); [|apply N1; auto].
      subst i. exists mc'. split; auto. right. repeat (split; auto). intros k Hk. rewrite V'; eauto.
    - intros j Hj. rewrite (getz_setz _ _ _ _ _ Es). destruct (Z.eqb_spec c j); [congruence|auto].
    - intros d Hd. unfold y1val at 1. rewrite (getz_setz _ _ _ _ _ Es), Z.eqb_refl. destruct (Z.eqb_spec (dm_ld mc') 0); [contradiction|].
      now rewrite V' by auto. }
  destruct (Z.eqb_spec (dm_ld mc) 0) as [H0|H0].
  - destruct (dm_resize_ok mc (rank h c) 1) as (O1 & O2 & O3 & O4 & O5); [match goal with H : mok mc |- _ => exact (proj1 H) end|lia|]. cbv zeta. set (mr := dm_resize mc (rank h c) 1) in *.
    destruct (mcpy_spec (dm_data mr) 0 td idx (rank h c)) as (d & Ed & Zd & Gd); try lia.
    { specialize (Hw (rank h c - 1)%Z ltac:(lia)). apply ld_range in Hw. lia. }
    rewrite Ed. cbn [bind]. eexists. split; [reflexivity|]. split; [apply mok_set_data; [apply mok_resize; [match goal with H : mok mc |- _ => exact (proj1 H) end|lia]|auto]|]. cbn [dm_set_data dm_ld dm_data].
    split; [lia|]. split; [lia|]. intros k Hk. unfold ld. rewrite Gd. destruct (Z.leb_spec 0 k); [|lia]. destruct (Z.ltb_spec k (0 + rank h c)); [|lia]. cbn [andb].
    rewrite Z.sub_0_r. fold (ld td (idx + k)). rewrite Hw by auto. f_equal.
    unfold y1val. rewrite Em, H0, Z.eqb_refl. ring.
  - destruct Hn as [?|(R1 & L1 & S1 & V1)]; [contradiction|].
    pose (g := fun k => val c0 (ld (dm_data mc) k)).
    assert (Hg : forall k, 0 <= k < rank h c -> ld (dm_data mc) k = Some (g k)).
    { intros k Hk. unfold g. destruct (V1 k Hk) as [v Hv]. now rewrite Hv. }
    pose (P := fun (j : Z) (d : mem K) => zlen d = zlen (dm_data mc) /\ forall k, 0 <= k < rank h c -> ld d k = Some (if k <? j then g k + w k else g k)).
    match goal with |- context [zfor 0 (rank h c) ?b ?z] => destruct (zfor_inv P 0 (rank h c) b z) as [d [Ed (P1 & P2)]] end.
    + lia.
    + split; auto. intros k Hk. rewrite Hg by auto. destruct (Z.ltb_spec k 0); auto. lia.
    + intros j d Hj (P1 & P2). rewrite Hw by auto. cbn [bind]. destruct (madd_spec d j (w j) _ (P2 j Hj)) as (d' & E' & Z' & G').
      exists d'. split; auto. split; [lia|]. intros k Hk. rewrite G'. destruct (Z.eqb_spec j k).
      * subst k. destruct (Z.ltb_spec j j); [lia|]. destruct (Z.ltb_spec j (j + 1)); [auto|lia].
      * rewrite P2 by auto. destruct (Z.ltb_spec k j); destruct (Z.ltb_spec k (j + 1)); auto; lia.
    + rewrite Ed. cbn [bind]. eexists. split; [reflexivity|]. split; [apply mok_set_data; auto|]. cbn [dm_set_data dm_ld dm_data].
      split; auto. split; [lia|]. intros k Hk. rewrite P2 by auto. destruct (Z.ltb_spec k (rank h c)); [|lia]. f_equal.
      unfold y1val. rewrite Em. destruct (Z.eqb_spec (dm_ld mc) 0); [contradiction|]. reflexivity.
Qed.

Lemma bwd_node_spec s y1 m0 py tid node (pend : Z -> bool) : bwd_ok y1 m0 py -> 0 <= tid < nth -> 0 <= node < h_nnode h ->
  h_minlevel h <= level h node -> pend node = false -> (forall k, 0 <= k < nchild h node -> pend (child h node k) = true) ->
  exists y1' m0' py', bwd_node h tid node (bwd_st s y1 m0 py) = Some (bwd_st s y1' m0' py') /\ bwd_ok y1' m0' py' /\
    forall p, 0 <= p < h_kms h -> pyval py' p + psum pend y1' p =
      pyval py p + psum pend y1 p + rsum 0 (rank h node) (fun c => basis h node p c * y1val y1 node c).
Proof.
  intros (Z1 & F1 & N1 & (Zm & Fm) & Hpy) Ht Hi Hl Hpn Hpc. unfold bwd_node. rewrite (ld_nchild h R) by auto. cbn [bind bwd_st s_y1].
  destruct (N1 node Hi) as (m & Em & Hm). rewrite Em. cbn [bind].
  destruct (Z.eqb_spec (dm_ld m) 0) as [H0|H0].
  { exists y1, m0, py. split; auto. split; [repeat (split; auto); apply Hpy|]. intros p Hp. rewrite (rsum_zero 0 (rank h node)); [ring|].
    intros c Hc. unfold y1val. rewrite Em, H0, Z.eqb_refl. ring. }
  destruct Hm as [?|(R1 & L1 & S1 & V1)]; [contradiction|].
  destruct (U_at h R node Hi) as (U & EU & Er & _ & HU). specialize (HU Hl). destruct HU as (_ & Hnr & HUv).
  rewrite EU. cbn [bind bwd_st s_m0]. destruct (getz_in m0 tid ltac:(lia)) as [t0 Et]. rewrite Et. cbn [bind]. rewrite Er.
  assert (Hnr0 : 0 <= dm_nrow U).
  { rewrite Hnr. destruct (Z.eqb_spec (nchild h node) 0) as [Hn|Hn].
    - destruct (cluster_range h R node Hi) as (C1 & C2 & C3). lia.
    - pose proof (nchild_range h R node Hi). destruct (choff_le h R node (nchild h node - 1) Hi ltac:(lia)) as (B1 & B2).
      destruct (child_at h R node (nchild h node - 1) Hi ltac:(lia)) as (_ & Rc & _). pose proof (rank_nonneg h R _ Rc). lia. }
  destruct (dm_resize_ok t0 (dm_nrow U) 1) as (O1 & O2 & O3 & O4 & O5); [eapply Forall_getz; eauto|lia|].
  cbv zeta. set (tr := dm_resize t0 (dm_nrow U) 1) in *.
  destruct (gemv_n_spec (dm_nrow U) (rank h node) (dm_data U) 0 (dm_ld U) (fun c => ld (dm_data m) c) false (dm_data tr) 0
    (Uval h node) (y1val y1 node) (fun _ => c0)) as (td & Etd & Ztd & Gtd & _); auto; try lia.
  { intros c Hc. unfold y1val. rewrite Em. destruct (Z.eqb_spec (dm_ld m) 0); [contradiction|]. destruct (V1 c Hc) as [v Hv]. now rewrite Hv. }
  rewrite Etd. cbn [bind]. destruct (setz_Some m0 tid (dm_set_data tr td)) as [m0' Es]; [lia|]. rewrite Es. cbn [bind].
  assert (Om0 : m0_ok m0').
  { split; [rewrite (setz_zlen _ _ _ _ Es); auto|]. eapply (Forall_setz _ _ _ _ _ Fm); [|exact Es]. now apply dm_set_data_ok. }
  pose (tv := fun r => rsum 0 (rank h node) (fun c => Uval h node r c * y1val y1 node c)).
  assert (Htd : forall r, 0 <= r < dm_nrow U -> ld td r = Some (tv r)).
  { intros r Hr. specialize (Gtd r Hr). rewrite Z.add_0_l in Gtd. rewrite Gtd. f_equal. unfold tv. ring. }
  destruct (Z.eqb_spec (nchild h node) 0) as [Hn|Hn].
  - replace (2 * node)%Z with (node * 2)%Z by lia. rewrite (ld_mfirst h R), (ld_mlast h R) by auto. cbn [bind bwd_st set_m0 s_py].
    destruct (cluster_range h R node Hi) as (C1 & C2 & C3). fold (msize h node).
    destruct (bwd_leaf td py (mfirst h node) (msize h node) tv) as (py' & Ep & Op & Vp); auto; try lia.
    { intros r Hr. apply Htd. lia. }
    rewrite Ep. cbn [bind]. exists y1, m0', py'. split; auto. split; [repeat (split; auto); try apply Om0; apply Op|].
    intros p Hp. rewrite Vp by auto.
    rewrite (rsum_ext 0 (rank h node) (fun c => basis h node p c * y1val y1 node c)
      (fun c => (if inside h node p then Uval h node (p - mfirst h node) c * y1val y1 node c else c0))).
    2:{ intros c Hc. rewrite (basis_leaf h R) by auto. destruct (inside h node p); ring. }
    replace ((mfirst h node <=? p) && (p <? mfirst h node + msize h node)) with (inside h node p).
    2:{ unfold inside, msize. destruct (Z.leb_spec (mfirst h node) p); destruct (Z.leb_spec p (mlast h node)); destruct (Z.ltb_spec p (mfirst h node + (mlast h node - mfirst h node + 1))); auto; lia. }
    destruct (inside h node p); [unfold tv; ring|]. rewrite rsum_zero by auto. ring.
  - pose proof (nchild_range h R node Hi) as Hn0.
    pose (P := fun (k : Z) (x : Z * list (dmat K)) => let '(idx, ya) := x in idx = choff h node k /\
      zlen ya = h_nnode h /\ Forall mok ya /\ (forall i, 0 <= i < h_nnode h -> narrow ya i) /\
      forall p, psum pend ya p = psum pend y1 p + rsum 0 k (fun k => rsum 0 (rank h (child h node k)) (fun d =>
        basis h (child h node k) p d * tv (choff h node k + d)%Z))).
    match goal with |- context [zfor 0 (nchild h node) ?b ?z] => destruct (zfor_inv P 0 (nchild h node) b z) as [[idx ya] [E (P1 & P2 & P3 & P4 & P5)]] end.
    + lia.
    + repeat (split; auto). intros p. rewrite rsum_empty by lia. ring.
    + intros k [idx ya] Hk (P1 & P2 & P3 & P4 & P5). destruct (child_at h R node k Hi Hk) as (Ec & Rc & _ & Lc).
      rewrite Ec. cbn [bind]. destruct (choff_le h R node k Hi Hk) as (B1 & B2). pose proof (rank_nonneg h R _ Rc) as Rk.
      destruct (bwd_child ya (child h node k) td idx (fun d => tv (choff h node k + d)%Z)) as (yb & Eb & Zb & Fb & Nb & Ob & Vb); auto; try lia.
      { intros d Hd. rewrite P1. apply Htd. rewrite Hnr. destruct (Z.eqb_spec (nchild h node) 0); [contradiction|]. lia. }
      cbv zeta in Eb. rewrite Eb. eexists. split; [reflexivity|]. unfold P. split; [rewrite choff_step by lia; lia|].
      split; auto. split; auto. split; auto. intros p.
      rewrite (psum_add pend ya yb (child h node k) (fun d => tv (choff h node k + d)%Z)) by auto.
      rewrite P5, rsum_snoc by lia. ring.
    + cbn [bwd_st s_y1 set_m0]. rewrite E. cbn [bind]. exists ya, m0', py. split; auto. split; [repeat (split; auto); try apply Om0; apply Hpy|].
      intros p Hp. rewrite P5. cut (rsum 0 (nchild h node) (fun k => rsum 0 (rank h (child h node k)) (fun d =>
        basis h (child h node k) p d * tv (choff h node k + d)%Z)) = rsum 0 (rank h node) (fun c => basis h node p c * y1val y1 node c)).
      { intros ->. ring. }
      rewrite (rsum_ext 0 (rank h node) _ (fun c => rsum 0 (nchild h node) (fun k => rsum 0 (rank h (child h node k)) (fun d =>
        basis h (child h node k) p d * (Uval h node (choff h node k + d) c * y1val y1 node c))))).
      2:{ intros c Hc. rewrite (basis_node h R) by auto. rewrite <- rsum_mul_r. apply rsum_ext. intros k Hk. rewrite <- rsum_mul_r.
          apply rsum_ext. intros d Hd. ring. }
      rewrite rsum_swap. apply rsum_ext. intros k Hk. rewrite rsum_swap. apply rsum_ext. intros d Hd. unfold tv. now rewrite rsum_mul_l.
Qed.

Definition pendf (L : Z) (done : list Z) (i : Z) : bool := (L <=? level h i) && negb (existsb (Z.eqb i) done).
Lemma existsb_In i done : existsb (Z.eqb i) done = true <-> In i done.
Proof.
  rewrite existsb_exists. split.
  - intros (x & Hx & E). apply Z.eqb_eq in E. now subst.
  - intros H. exists i. split; auto. apply Z.eqb_refl.
Qed.

Lemma bwd_transform_spec sched s y1 m0 py :
  (forall i n, h_minlevel h <= i <= h_maxlevel h -> ld (a_level_n t) i = Some n ->
     omp_for (Z.min n nth) n (sched i)) ->
  bwd_ok y1 m0 py ->
  exists y1' m0' py', bwd_transform h sched (bwd_st s y1 m0 py) = Some (bwd_st s y1' m0' py') /\ bwd_ok y1' m0' py' /\
    forall p, 0 <= p < h_kms h -> pyval py' p = pyval py p + rsum 0 (h_nnode h) (fun i => rsum 0 (rank h i) (fun c => basis h i p c * y1val y1 i c)).
Proof.
  intros Hsc H0. unfold bwd_transform. destruct (ro_dims _ R) as (_ & _ & _ & _ & _ & Hlv).
  pose (P := fun (L : Z) (s' : mvst K) => exists y1' m0' py', s' = bwd_st s y1' m0' py' /\ bwd_ok y1' m0' py' /\
    forall p, 0 <= p < h_kms h -> pyval py' p + psum (pendf L []) y1' p = pyval py p + rsum 0 (h_nnode h) (fun i => rsum 0 (rank h i) (fun c => basis h i p c * y1val y1 i c))).
  match goal with |- context [zfor ?l ?n ?b ?z] => destruct (zfor_inv P l n b z) as [s1 [E1 (y1' & m0' & py' & -> & O1 & V1)]] end; [lia| | |].
  - exists y1, m0, py. split; auto. split; auto. intros p Hp. f_equal. unfold psum. apply rsum_ext. intros i Hi. unfold pendf. cbn [existsb negb].
    rewrite andb_true_r. destruct (Z.leb_spec (h_minlevel h) (level h i)); auto. destruct (U_at h R i Hi) as (U & _ & _ & HU & _).
    rewrite (HU H). now rewrite rsum_empty by lia.
  - intros L s' HL (ya & ma & pa & -> & Oa & Va).
    destruct (level_list h R L ltac:(lia)) as (ns & C & Ls & Nd & In_).
    destruct (level_sweep_inv h (fun done s' => exists y1' m0' py', s' = bwd_st s y1' m0' py' /\ bwd_ok y1' m0' py' /\
      (forall i, In i done -> level h i = L) /\
      forall p, 0 <= p < h_kms h -> pyval py' p + psum (pendf L done) y1' p = pyval py p + rsum 0 (h_nnode h) (fun i => rsum 0 (rank h i) (fun c => basis h i p c * y1val y1 i c)))
      (bwd_node h) (sched L) L ns (Z.min (zlen ns) nth) (bwd_st s ya ma pa))
      as (s' & done & E & (yb & mb & pb & -> & Ob & _ & Vb) & Hd); auto.
    + apply Hsc; auto. lia.
    + exists ya, ma, pa. split; auto. split; auto. split; auto. intros i [].
    + intros done tid node s' Hnode Hnd Ht (yb & mb & pb & -> & Ob & Lb & Vb). apply In_ in Hnode as [Hi Hl].
      destruct (bwd_node_spec s yb mb pb tid node (pendf L (node :: done)) Ob) as (yc & mc & pc & Ec & Oc & Vc); auto; try lia.
      { unfold pendf. cbn [existsb]. rewrite Z.eqb_refl. cbn. apply andb_false_r. }
      { intros k Hk. destruct (child_at h R node k Hi Hk) as (_ & Rc & _ & Lc). unfold pendf.
        rewrite (proj2 (Z.leb_le _ _)) by lia. cbn [andb]. apply negb_true_iff. apply not_true_iff_false. rewrite existsb_In.
        intros [Hx|Hx].
        - rewrite <- Hx in Lc. lia.
        - specialize (Lb _ Hx). lia. }
      exists (bwd_st s yc mc pc). split; auto. exists yc, mc, pc. split; auto. split; auto. split; [intros i [<-|Hx]; auto|]. intros p Hp. rewrite Vc, <- Vb by auto.
      rewrite <- (Radd_assoc (cth K)). f_equal. unfold psum.
      rewrite (rsum_upd 0 (h_nnode h) (fun i => if pendf L (node :: done) i then rsum 0 (rank h i) (fun c => basis h i p c * y1val yb i c) else c0) (fun i => if pendf L done i then rsum 0 (rank h i) (fun c => basis h i p c * y1val yb i c) else c0) node
        (rsum 0 (rank h node) (fun c => basis h node p c * y1val yb node c))); auto.
      * unfold pendf. cbn [existsb]. rewrite Z.eqb_refl. cbn [orb negb]. rewrite andb_false_r.
        rewrite (proj2 (Z.leb_le _ _)) by lia. destruct (existsb (Z.eqb node) done) eqn:Ex; [apply existsb_In in Ex; contradiction|]. cbn [negb andb]. ring.
      * intros i Hi' Hne. unfold pendf. cbn [existsb]. destruct (Z.eqb_spec i node); [contradiction|]. reflexivity.
    + exists (bwd_st s yb mb pb). split; auto. exists yb, mb, pb. split; auto. split; auto. intros p Hp. rewrite <- Vb by auto. f_equal.
      unfold psum. apply rsum_ext. intros i Hi. cut (pendf (L + 1) [] i = pendf L done i); [intros ->; reflexivity|]. unfold pendf. cbn [existsb negb]. rewrite andb_true_r.
      destruct (existsb (Z.eqb i) done) eqn:Ex.
      * apply existsb_In, Hd, In_ in Ex as [_ El]. rewrite El, andb_false_r. apply Z.leb_gt. lia.
      * rewrite andb_true_r. assert (level h i <> L). { intros El. apply not_true_iff_false in Ex. apply Ex, existsb_In, Hd, In_. auto. }
        destruct (Z.leb_spec L (level h i)); destruct (Z.leb_spec (L + 1) (level h i)); auto; lia.
  - exists y1', m0', py'. split; auto. split; auto. intros p Hp. rewrite <- V1 by auto. unfold psum.
    rewrite (rsum_zero 0 (h_nnode h) (fun i => if pendf _ _ i then _ else _)); [ring|]. intros i Hi. unfold pendf. pose proof (level_range h R i Hi).
    rewrite (proj2 (Z.leb_gt _ _)) by lia. reflexivity.
Qed.
End Bwd.
