(** The periodic product: intermediate multiplication. *)
From Coq Require Import ZArith QArith List Lia Bool Permutation.
From Verif Require Import Base Mem Num CRing Conc Model_Utils Spec_Utils Proof_Utils Model_Dense Spec_Dense Proof_Dense Proof_Dense2 Model_Partition Spec_Tree Model_CSR Spec_CSR Model_Pairs Spec_Pairs Model_Matvec Spec_Matvec
  Model_Build Spec_Build Proof_Build Proof_BuildFill Proof_Gemv Proof_MvTree Proof_MvFwd Proof_MvMid Proof_MvBwd Model_Matmul Proof_Gemm Proof_MmFwd Proof_MmMid Model_Periodic Spec_Periodic Proof_PerBlock.
Import ListNotations.
Open Scope Z_scope.

(** Running over the entries of a row, known by what is stored at their position. *)
Lemma pos_loop {E X St} (es : list E) (key : Z -> X) (kf : E -> X) a b (f : Z -> St -> option St) (P : list E -> St -> Prop) s :
  a <= b -> Permutation (map key (zrange a b)) (map kf es) -> P [] s ->
  (forall e done s i, In e es -> key i = kf e -> P done s -> exists s', f i s = Some s' /\ P (e :: done) s') ->
  exists s' done, zfor a b f s = Some s' /\ P done s' /\ Permutation done es.
Proof.
  intros Hab Hp H0 Hs. apply Permutation_map_inv in Hp as (es' & Em & Pe).
  assert (Zl : zlen es' = b - a). { rewrite <- (zlen_map kf es'), <- Em, zlen_map, zlen_zrange; lia. }
  assert (HL : forall j e, getz es' j = Some e -> key (a + j) = kf e).
  { intros j e Hj. pose proof (getz_range _ _ _ Hj) as Rj. assert (G : getz (map key (zrange a b)) j = Some (kf e)).
    { rewrite Em, getz_map, Hj. reflexivity. }
    rewrite getz_map, getz_zrange in G by lia. cbn in G. congruence. }
  destruct (zfor_inv (fun i (s : St) => P (rev (firstn (Z.to_nat (i - a)) es')) s) a b f s) as (s' & E' & P'); auto.
  - rewrite Z.sub_diag. exact H0.
  - intros i s1 Hi P1. destruct (getz_in es' (i - a)) as [e He]; [lia|].
    pose proof (HL _ _ He) as Hc. replace (a + (i - a)) with i in Hc by lia.
    assert (Hin : In e es). { apply (Permutation_in _ (Permutation_sym Pe)). eapply getz_In; eauto. }
    destruct (Hs e _ s1 i Hin Hc P1) as (s2 & E2 & P2). exists s2. split; auto.
    replace (Z.to_nat (i + 1 - a)) with (Datatypes.S (Z.to_nat (i - a))) by lia.
    unfold getz in He. destruct (0 <=? i - a); [|discriminate].
    replace (firstn (Datatypes.S (Z.to_nat (i - a))) es') with (firstn (Z.to_nat (i - a)) es' ++ [e]); [rewrite rev_app_distr; exact P2|].
    clear - He. revert es' He. generalize (Z.to_nat (i - a)). intros n. induction n as [|n IH]; intros [|x es'] He; cbn in *; try discriminate.
    + now injection He as ->.
    + f_equal. apply IH. exact He.
  - exists s', (rev es'). split; auto. rewrite firstn_all2 in P' by (unfold zlen in Zl; lia). split; auto.
    rewrite <- Permutation_rev. symmetry. exact Pe.
Qed.

Section Mid.
Context {F : num} {K : cring}.
Add Ring Kring : (cth K).
Local Open Scope ring_K.
Variable kern : list F -> list F -> Z -> Z -> K.
Variable h : h2rep F K.
Hypothesis R : rep_ok h.
Hypothesis M0 : h_minlevel h = 0.
Variables (pt : Z -> list F) (js : Z -> list Z) (adm inadm : list (Z * Z)) (sB sD : Z -> Z -> F) (O : Z -> Z -> K) (c : pctx F K).
Hypothesis PO : per_ok h pt js adm inadm sB sD O c.
Hypothesis Hnz : forall k i n1 n, getz adm k = Some (i, n1) -> ld (h_nr h) i = Some n -> n <> 0.
Notation t := (h_t h).
Notation nth := (h_nthread h).
Variables (nv mmx : Z) (col : bool).
Hypothesis Hnv : 1 <= nv <= mmx.
Notation ldp := (if col then h_kms h else mmx).
Notation prs := (if col then 1 else ldp)%Z.
Notation pcell := (pcell h mmx col).
Notation pmat := (pmat h nv mmx col).

(** The blocks of the admissible pairs: entry k of row n0 is pair number k. *)
Definition first (l : list (Z * Z)) (k : Z) : Z := match getz l k with Some (i, _) => i | None => -1 end.
Definition second (l : list (Z * Z)) (k : Z) : Z := match getz l k with Some (_, j) => j | None => -1 end.
Definition bfam : family (K := K) Z := Fam Z
  (fun n0 => filter (fun k => first adm k =? n0) (zrange 0 (zlen adm))) (second adm)
  (fun k => side_size h (first adm k) (second adm k)) (fun k => side_size h (second adm k) (first adm k))
  (fun k r cc => kshift kern h pt (sB k) (block_row h js (first adm k) (second adm k) r) (block_row h js (second adm k) (first adm k) cc)).

Lemma bfam_in n0 k : In k (fm_ents bfam n0) -> getz adm k = Some (n0, second adm k).
Proof.
  cbn. intros H. apply filter_In in H as (H1 & H2). apply In_zrange in H1. destruct (getz_in adm k H1) as [[i j] E]. unfold first, second in *. rewrite E in *.
  apply Z.eqb_eq in H2. now subst.
Qed.

Lemma numbered_row o (l : list (Z * Z)) n : index_row (numbered o l) n = map (fun k => (Some (second l k), Some (o + k + 1)%Z)) (filter (fun k => first l k =? n) (zrange 0 (zlen l))).
Proof.
  unfold index_row, numbered. assert (G : forall ks, (forall k, In k ks -> 0 <= k < zlen l) ->
    map (fun '(_, j, v) => (Some j, Some v)) (filter (fun '(i, _, _) => i =? n) (map (fun k => let '(i, j) := List.nth (Z.to_nat k) l (0, 0)%Z in (i, j, (o + k + 1)%Z)) ks)) =
    map (fun k => (Some (second l k), Some (o + k + 1)%Z)) (filter (fun k => first l k =? n) ks)).
  { induction ks as [|k ks IH]; intros Hk; auto. cbn [map filter]. specialize (IH (fun x Hx => Hk x (or_intror Hx))).
    assert (E : List.nth (Z.to_nat k) l (0, 0)%Z = (first l k, second l k)).
    { unfold first, second. specialize (Hk k (or_introl eq_refl)). destruct (getz_in l k Hk) as [[i j] Ek]. rewrite Ek.
      unfold getz in Ek. destruct (0 <=? k); [|discriminate]. now apply nth_error_nth. }
    rewrite E. destruct (first l k =? n); cbn [map]; [f_equal|]; auto. }
  apply G. intros k Hk. apply In_zrange in Hk. lia.
Qed.

Variable xv : Z -> Z -> K.
Variables (y0 : list (dmat K)) (px : mem K).
Hypothesis Zy0 : zlen y0 = h_nnode h.
Hypothesis Gy0 : forall i, 0 <= i < h_nnode h -> h_minlevel h <= level h i -> y0m_good h nv xv y0 i.
Hypothesis Hpx : pmat px xv.

Lemma per_mid_pair_spec n0 k i (bij y10 : dmat K) (m1 : dmat F) py f g :
  0 <= n0 < h_nnode h -> In k (fm_ents bfam n0) -> ld (bm_colidx (q_bm c)) i = Some (second adm k) -> ld (bm_val (q_bm c)) i = Some (0 + k + 1)%Z ->
  dm_ok bij -> dm_ok m1 -> dm_ld y10 = nv -> rank h n0 * nv <= zlen (dm_data y10) ->
  (forall c l, 0 <= c < rank h n0 -> 0 <= l < nv -> ld (dm_data y10) (c * nv + l) = Some (g c l)) ->
  zlen py = (h_kms h * mmx)%Z -> pmat py f ->
  exists bij' m1' d py' f' g', per_mid_pair kern h c nv y0 px ldp prs col ldp prs col n0 i (bij, m1, y10, py) = Some (bij', m1', dm_set_data y10 d, py') /\
    dm_ok bij' /\ dm_ok m1' /\ zlen d = zlen (dm_data y10) /\ (forall c l, 0 <= c < rank h n0 -> 0 <= l < nv -> ld d (c * nv + l) = Some (g' c l)) /\
    zlen py' = (h_kms h * mmx)%Z /\ pmat py' f' /\
    forall p l, 0 <= p < h_kms h -> 0 <= l < nv -> node_total h n0 f' g' p l = node_total h n0 f g p l + term h bfam xv n0 k p l.
Proof.
  intros Hn0 Hk Ec Ev Hb Hm Hl Hs Hg Zp Hp. pose proof (bfam_in n0 k Hk) as Ek. set (n1 := second adm k) in *.
  assert (Ef : first adm k = n0) by (unfold first; now rewrite Ek).
  destruct (po_adm _ _ _ _ _ _ _ _ _ PO k n0 n1 Ek) as (_ & Hn1 & _).
  destruct (per_B_block_spec kern h R M0 pt js adm inadm sB sD O c PO k n0 n1 bij m1 Ek Hb Hm) as (o & m' & Eb & Om & Bo).
  destruct (side_points h R M0 pt js adm inadm sB sD O c PO n1 n0 Hn1) as (kk & Sk & Lk & _). destruct (ro_dims _ R) as (_ & D2 & _).
  destruct (block_gview o _ _ _ Bo ltac:(rewrite Sk; nia)) as (Oo & Vo & Vw).
  pose (fm1 := Fam Z (fun n => if n =? n0 then [k] else []) (fm_part bfam) (fm_nr bfam) (fm_nc bfam) (fm_bv bfam) : family (K := K) Z).
  destruct (mm_mid_pair_spec h R nv mmx col Hnv fm1 (fun _ _ _ => Some (Some o))) with (xv := xv) (y0 := y0) (px := px) (n0 := n0) (e := k) (bij := bij) (y10 := y10) (py := py) (f := f) (g := g)
    as (bij' & d & py' & f' & g' & E & _ & Zd & Vd & Zp' & Hp' & T); auto.
  - intros a e o1 Ha He _. unfold fm1 in He. cbn in He. destruct (a =? n0); [|destruct He]. destruct He as [<-|[]]. exists o. split; auto. split; auto.
    unfold fm1. cbn [fm_nr fm_nc fm_bv bfam]. rewrite Ef. exact Vo.
  - intros a e Ha He. unfold fm1 in He. cbn in He. destruct (Z.eqb_spec a n0); [|destruct He]. subst a. destruct He as [<-|[]]. unfold fm1. cbn [fm_part fm_nr fm_nc bfam]. rewrite Ef. fold n1.
    split; auto. split; [rewrite M0; pose proof (level_range h R n0 Hn0); lia|]. split; auto. split; auto. intros n. eapply Hnz; eauto.
  - cbn. rewrite Z.eqb_refl. now left.
  - change (fm_part fm1 k) with n1 in E. unfold mm_mid_pair, fetch in E. cbn [bind] in E. rewrite Vw in E. cbv beta iota in E.
    unfold per_mid_pair. rewrite Ec, Ev. cbn [bind]. replace (0 + k + 1 - 1)%Z with k by lia. rewrite !(ld_level h R) in * by auto. cbn [bind] in *.
    destruct (getz_in y0 n1) as [y01 Ey]; [lia|]. rewrite Ey in *. cbn [bind] in *. rewrite Eb. cbn [bind]. cbv zeta.
    destruct Bo as (_ & -> & -> & -> & _). cbn [negb] in E.
    match type of E with (bind ?A _) = _ => destruct A as [d1|]; [|discriminate] end. cbn [bind] in *.
    match type of E with (bind ?A _) = _ => destruct A as [d2|]; [|discriminate] end. cbn [bind] in *.
    match type of E with (bind ?A _) = _ => destruct A as [p3|]; [|discriminate] end. cbn [bind] in *.
    injection E as <- <- <-. 
    eexists o, m', d2, p3, f', g'. split; [reflexivity|]. repeat (split; [assumption|]). assumption.
Qed.

Definition m1_ok (ms : list (dmat F)) : Prop := zlen ms = nth /\ Forall dm_ok ms.

Lemma per_mid_node_spec s0 y1 m0 ms py f tid n0 : s_y0 s0 = Some y0 -> s_px s0 = px ->
  zlen y1 = h_nnode h -> Forall mok y1 -> shapes h nv y1 -> m0_ok h m0 -> m1_ok ms -> zlen py = (h_kms h * mmx)%Z -> pmat py f ->
  0 <= tid < nth -> 0 <= n0 < h_nnode h ->
  exists y1' m0' ms' py' f', per_mid_node kern h c nv ldp prs col ldp prs col tid n0 (bwd_st s0 y1 m0 py, ms) = Some (bwd_st s0 y1' m0' py', ms') /\
    zlen y1' = h_nnode h /\ Forall mok y1' /\ shapes h nv y1' /\ (forall j, j <> n0 -> getz y1' j = getz y1 j) /\ filledm h nv y1' n0 /\
    m0_ok h m0' /\ m1_ok ms' /\ zlen py' = (h_kms h * mmx)%Z /\ pmat py' f' /\
    (fm_ents bfam n0 = [] -> forall c l, 0 <= c < rank h n0 -> 0 <= l < nv -> y1val y1' n0 (c * nv + l) = c0) /\
    forall p l, 0 <= p < h_kms h -> 0 <= l < nv ->
      f' p l + rsum 0 (rank h n0) (fun c => basis h n0 p c * y1val y1' n0 (c * nv + l)) = f p l + lsum (fun e => term h bfam xv n0 e p l) (fm_ents bfam n0).
Proof.
  intros E0 Ex Z1 F1 S1 (Zm & Fm) (Zs & Fs) Zp Hp Ht Hn. unfold per_mid_node, bwd_st at 1 2 3 4 5. cbn [s_y0 s_y1 s_m0 s_px s_py]. rewrite E0. cbn [bind].
  destruct (getz_in m0 tid ltac:(lia)) as [bij Eb]. rewrite Eb. cbn [bind].
  destruct (getz_in ms tid ltac:(lia)) as [m1 Em1]. rewrite Em1. cbn [bind].
  destruct (S1 n0 Hn) as (m & Em & Sm & Am). rewrite Em. cbn [bind].
  pose proof (Forall_getz _ _ _ _ F1 Em) as [Om Km].
  destruct (mzero_spec c0 (dm_data m) (dm_nrow m * dm_ncol m) Km) as (d0 & Ed & Zd & Vd). rewrite Ed. cbn [bind].
  destruct (po_B _ _ _ _ _ _ _ _ _ PO n0 Hn) as (a & b & Ea & Eb' & Hab & Hperm). rewrite Ea, Eb'. cbn [bind].
  rewrite numbered_row in Hperm. unfold cells in Hperm.
  destruct (ro_nr _ R) as [_ Hnr]. destruct (Hnr n0 Hn) as (nn & Enn & _).
  pose (P := fun (done : list Z) (x : dmat K * dmat F * dmat K * mem K) => let '(bij, m1, y10, py) := x in exists d f' g,
    dm_ok bij /\ dm_ok m1 /\ y10 = dm_set_data m d /\ zlen d = zlen (dm_data m) /\ zlen py = (h_kms h * mmx)%Z /\ pmat py f' /\
    (dm_ld m = nv -> forall c l, 0 <= c < rank h n0 -> 0 <= l < nv -> ld d (c * nv + l) = Some (g c l)) /\
    (dm_ld m = 0 -> forall c l, g c l = c0) /\ (done = [] -> forall c l, g c l = c0) /\
    forall p l, 0 <= p < h_kms h -> 0 <= l < nv -> node_total h n0 f' g p l = f p l + lsum (fun e => term h bfam xv n0 e p l) done).
  destruct (pos_loop (fm_ents bfam n0) (fun i => (ld (bm_colidx (q_bm c)) i, ld (bm_val (q_bm c)) i)) (fun k => (Some (second adm k), Some (0 + k + 1)%Z)) a b
    (fun i x => per_mid_pair kern h c nv y0 px ldp prs col ldp prs col n0 i x) P (bij, m1, dm_set_data m d0, py))
    as ([[[bij' m1'] y10'] py'] & done & El & (d & f' & g & Q1 & Q1' & -> & Q3 & Q4 & Q5 & Q6 & Q7 & Q7' & Q8) & Hd); auto.
  - exists d0, f, (fun _ _ => c0). split; [eapply Forall_getz; eauto|]. split; [eapply (Forall_getz _ _ _ _ Fs); eauto|]. do 5 (split; auto).
    + intros Hl c' l Hc Hl'. apply Vd. destruct Sm as [?|(_ & -> & ->)]; [lia|]. nia.
    + split; auto. split; auto. intros p l Hpp Hll. unfold node_total. rewrite lsum_nil. rewrite (rsum_zero 0 (rank h n0)); [ring|]. intros; ring.
  - intros k done [[[bijc m1c] y10c] pyc] i Hk Hki (d & f' & g & Q1 & Q1' & -> & Q3 & Q4 & Q5 & Q6 & Q7 & Q7' & Q8). cbv beta in Hki. injection Hki as Ki1 Ki2.
    pose proof (Hnz k n0 _ nn (bfam_in n0 k Hk) Enn) as Hne. specialize (Am nn Enn Hne).
    destruct Sm as [?|(_ & Sm1 & Sm2)]; [lia|].
    destruct (per_mid_pair_spec n0 k i bijc (dm_set_data m d) m1c pyc f' g Hn Hk Ki1 Ki2 Q1 Q1') as (bij' & m1' & d' & py' & f2 & g2 & E2 & O2 & O2' & Z2 & V2 & Zp2 & Hp2 & T2); auto.
    { cbn [dm_set_data dm_data]. rewrite Q3, <- Sm1, <- Sm2. apply Km. }
    exists (bij', m1', dm_set_data m d', py'). split; [exact E2|]. exists d', f2, g2. split; auto. split; auto. split; auto. split; [cbn [dm_set_data dm_data] in Z2; lia|].
    split; auto. split; auto. split; auto. split; [intros; lia|]. split; [discriminate|]. intros p l Hpp Hll. rewrite T2, Q8, lsum_cons by auto. ring.
  - rewrite Ex. match type of El with ?L = _ => match goal with |- context [zfor a b ?f0 ?z0] => change (zfor a b f0 z0) with L end end. rewrite El. cbn [bind].
    change (s_m0 (bwd_st s0 y1 m0 py)) with m0.
    destruct (setz_Some m0 tid bij') as [m0' Es]; [lia|]. rewrite Es. cbn [bind].
    destruct (setz_Some ms tid m1') as [ms' Esm]; [lia|]. rewrite Esm. cbn [bind].
    destruct (setz_Some y1 n0 (dm_set_data m d)) as [y1' Es1]; [lia|]. rewrite Es1. cbn [bind].
    exists y1', m0', ms', py', f'. split; [reflexivity|]. pose proof (setz_zlen _ _ _ _ Es1) as Z1'. split; [lia|].
    split; [eapply (Forall_setz _ _ _ _ _ F1); [|exact Es1]; split; [now apply dm_set_data_ok|]; cbn [dm_set_data dm_nrow dm_ncol dm_data]; lia|].
    assert (Gy : forall j, getz y1' j = if n0 =? j then Some (dm_set_data m d) else getz y1 j) by (intros j; apply (getz_setz _ _ _ _ _ Es1)).
    assert (Yv : forall c' l, 0 <= c' < rank h n0 -> 0 <= l < nv -> y1val y1' n0 (c' * nv + l) = g c' l).
    { intros c' l Hc Hll. unfold y1val. rewrite Gy, Z.eqb_refl. cbn [dm_set_data dm_ld dm_data]. destruct (Z.eqb_spec (dm_ld m) 0) as [H0|H0].
      * now rewrite Q7.
      * destruct Sm as [?|(Hl & _)]; [contradiction|]. now rewrite Q6 by auto. }
    split; [|split; [|split; [|split; [|split; [|split; [|split; [|split]]]]]]]; auto.
    + intros i Hi. rewrite Gy. destruct (Z.eqb_spec n0 i) as [<-|]; [|auto]. exists (dm_set_data m d). auto.
    + intros j Hj. rewrite Gy. destruct (Z.eqb_spec n0 j); [congruence|auto].
    + exists (dm_set_data m d). rewrite Gy, Z.eqb_refl. split; auto. cbn [dm_set_data dm_ld dm_data].
      destruct Sm as [?|(Hl & Sm1 & Sm2)]; [auto|]. right. split; auto. split; [rewrite Q3, <- Sm1, <- Sm2; apply Km|].
      intros c' l Hc Hl'. rewrite Q6; eauto.
    + split; [rewrite (setz_zlen _ _ _ _ Es); auto|]. eapply (Forall_setz _ _ _ _ _ Fm); [|exact Es]; auto.
    + split; [rewrite (setz_zlen _ _ _ _ Esm); auto|]. eapply (Forall_setz _ _ _ _ _ Fs); [|exact Esm]; auto.
    + intros Hem c' l Hc Hll. rewrite Yv by auto. apply Q7'. rewrite Hem in Hd. apply Permutation_nil. now symmetry.
    + intros p l Hpp Hll. rewrite <- (lsum_perm _ _ _ Hd). rewrite <- Q8 by auto. unfold node_total. f_equal. apply rsum_ext. intros c' Hc. f_equal. now apply Yv.
Qed.

Lemma per_mid_spec evs s ms f : omp_for nth (h_nnode h) evs -> s_y0 s = Some y0 -> s_px s = px -> mats_mok (h_nnode h) (s_y1 s) -> m0_ok h (s_m0 s) -> m1_ok ms ->
  zlen (s_py s) = (h_kms h * mmx)%Z -> pmat (s_py s) f ->
  exists y1 m0 ms' py f', per_mid kern h c nv ldp prs col ldp prs col evs (s, ms) = Some (bwd_st s y1 m0 py, ms') /\
    zlen y1 = h_nnode h /\ Forall mok y1 /\ (forall i, 0 <= i < h_nnode h -> filledm h nv y1 i) /\
    m0_ok h m0 /\ m1_ok ms' /\ zlen py = (h_kms h * mmx)%Z /\ pmat py f' /\
    (forall i c l, 0 <= i < h_nnode h -> fm_ents bfam i = [] -> 0 <= c < rank h i -> 0 <= l < nv -> y1val y1 i (c * nv + l) = c0) /\
    forall p l, 0 <= p < h_kms h -> 0 <= l < nv ->
      f' p l + rsum 0 (h_nnode h) (fun i => rsum 0 (rank h i) (fun c => basis h i p c * y1val y1 i (c * nv + l))) =
      f p l + rsum 0 (h_nnode h) (fun i => lsum (fun e => term h bfam xv i e p l) (fm_ents bfam i)).
Proof.
  intros [Ht Hpm] E0 Ex Hy1 Hm0 Hms Zp Hp. unfold per_mid. cbn [fst snd].
  destruct (mm_init_y1_spec h R nv mmx Hnv s Hy1) as (y1a & Ei & Za & Fa & Sa). rewrite Ei. cbn [bind].
  replace (set_y1 s y1a) with (bwd_st s y1a (s_m0 s) (s_py s)) by reflexivity.
  rewrite Forall_forall in Ht.
  destruct (run_each snd (fun ev => per_mid_node kern h c nv ldp prs col ldp prs col (fst ev) (snd ev))
    (fun done z => exists y1 m0 ms' py f', z = (bwd_st s y1 m0 py, ms') /\ zlen y1 = h_nnode h /\ Forall mok y1 /\ shapes h nv y1 /\ (forall i, In i done -> filledm h nv y1 i) /\
      m0_ok h m0 /\ m1_ok ms' /\ zlen py = (h_kms h * mmx)%Z /\ pmat py f' /\
      (forall i c l, In i done -> fm_ents bfam i = [] -> 0 <= c < rank h i -> 0 <= l < nv -> y1val y1 i (c * nv + l) = c0) /\
      forall p l, 0 <= p < h_kms h -> 0 <= l < nv ->
      f' p l + lsum (fun i => rsum 0 (rank h i) (fun c => basis h i p c * y1val y1 i (c * nv + l))) done =
      f p l + lsum (fun i => lsum (fun e => term h bfam xv i e p l) (fm_ents bfam i)) done) evs [] (bwd_st s y1a (s_m0 s) (s_py s), ms))
    as (s' & Er & (y1 & m0 & ms' & py & f' & -> & Q1 & Q2 & Q3 & Q4 & Q5 & Q5' & Q6 & Q7 & Q7' & Q8)).
  - eapply Permutation_NoDup; [symmetry; exact Hpm|]. apply NoDup_zrange.
  - intros e He [].
  - exists y1a, (s_m0 s), ms, (s_py s), f. split; auto. split; auto. split; auto. split; auto. split; [intros i []|]. do 4 (split; auto). split; auto. intros i c' l [].
  - intros done ev s' Hev Hnd (y1 & m0 & ms' & py & f' & -> & Q1 & Q2 & Q3 & Q4 & Q5 & Q5' & Q6 & Q7 & Q7' & Q8).
    assert (Hn : 0 <= snd ev < h_nnode h). { apply In_zrange. eapply Permutation_in; [exact Hpm|]. now apply in_map. }
    destruct (per_mid_node_spec s y1 m0 ms' py f' (fst ev) (snd ev)) as (y2 & m2 & ms2 & py2 & f2 & E2 & A1 & A2 & A3 & A4 & A5 & A6 & A6' & A7 & A8 & A8' & A9); auto.
    assert (Yk : forall i x, In i done -> y1val y2 i x = y1val y1 i x). { intros i x Hi. unfold y1val. rewrite A4; auto. intros ->. contradiction. }
    exists (bwd_st s y2 m2 py2, ms2). split; auto. exists y2, m2, ms2, py2, f2. split; auto. split; auto. split; auto. split; auto. split.
    { intros i [<-|Hi]; auto. destruct (Q4 i Hi) as (m & Em & Hm). exists m. rewrite A4; auto. intros ->. contradiction. }
    split; auto. split; auto. split; auto. split; auto. split.
    { intros i c' l [<-|Hi] Hem Hc Hl; [auto|]. rewrite Yk by auto. eauto. }
    intros p l Hpp Hll. rewrite !lsum_cons.
    rewrite (lsum_ext _ (fun i => rsum 0 (rank h i) (fun c => basis h i p c * y1val y1 i (c * nv + l))) done).
    2:{ intros i Hi. apply rsum_ext. intros c' Hc. now rewrite Yk. }
    transitivity (f2 p l + rsum 0 (rank h (snd ev)) (fun c => basis h (snd ev) p c * y1val y2 (snd ev) (c * nv + l)) +
      lsum (fun i => rsum 0 (rank h i) (fun c => basis h i p c * y1val y1 i (c * nv + l))) done); [ring|].
    rewrite A9 by auto.
    transitivity (f' p l + lsum (fun i => rsum 0 (rank h i) (fun c => basis h i p c * y1val y1 i (c * nv + l))) done + lsum (fun e => term h bfam xv (snd ev) e p l) (fm_ents bfam (snd ev))); [ring|].
    rewrite Q8 by auto. ring.
  - exists y1, m0, ms', py, f'. split; auto. rewrite app_nil_r in Q4, Q7', Q8.
    assert (Hin : forall i, 0 <= i < h_nnode h -> In i (rev (map snd evs))).
    { intros i Hi. apply -> in_rev. apply (Permutation_in _ (Permutation_sym Hpm)). apply In_zrange. lia. }
    split; auto. split; auto. split; [auto|]. split; auto. split; auto. split; auto. split; auto. split; [eauto|].
    intros p l Hpp Hll. specialize (Q8 p l Hpp Hll).
    assert (Hpr : Permutation (rev (map snd evs)) (zrange 0 (h_nnode h))) by (rewrite <- Permutation_rev; exact Hpm).
    rewrite !(lsum_perm _ _ _ Hpr) in Q8. exact Q8.
Qed.

(** ** The block of the root *)
Lemma per_root_spec s y1 m0 py : s_y0 s = Some y0 -> zlen y1 = h_nnode h -> Forall mok y1 ->
  exists y1', per_root h c nv (bwd_st s y1 m0 py) = Some (bwd_st s y1' m0 py) /\ zlen y1' = h_nnode h /\ Forall mok y1' /\
    (forall j, j <> root h -> getz y1' j = getz y1 j) /\ filledm h nv y1' (root h) /\
    forall r l, 0 <= r < rank h (root h) -> 0 <= l < nv -> y1val y1' (root h) (r * nv + l) = rsum 0 (rank h (root h)) (fun k => O r k * yhat h (fun p => xv p l) (root h) k).
Proof.
  intros E0 Z1 F1. destruct (ct_root _ _ _ _ _ _ (ro_tree _ R)) as (H1 & _). assert (Hr : 0 <= root h < h_nnode h) by (unfold root; lia).
  unfold per_root. change (s_y0 (bwd_st s y1 m0 py)) with (s_y0 s). change (s_y1 (bwd_st s y1 m0 py)) with (Some y1). rewrite E0. cbn [bind]. fold (root h).
  destruct (Gy0 (root h) Hr ltac:(pose proof (level_range h R (root h) Hr); lia)) as (yr & Ey & _ & _ & Vy). rewrite Ey. cbn [bind].
  destruct (getz_in y1 (root h) ltac:(lia)) as [m Em]. rewrite Em. cbn [bind]. cbv zeta.
  destruct (po_root _ _ _ _ _ _ _ _ _ PO) as (Ej & _ & HO). destruct (po_dims _ _ _ _ _ _ _ _ _ PO) as (_ & _ & Ek & _). destruct (po_js _ _ _ _ _ _ _ _ _ PO (root h) Hr) as (Erk & _).
  replace (q_Jroot c * q_kdim c)%Z with (rank h (root h)) by (rewrite Ej, Ek, Erk; lia). set (rk := rank h (root h)) in *.
  destruct (U_at h R (root h) Hr) as (U & _ & _ & _ & HU). destruct (HU ltac:(pose proof (level_range h R (root h) Hr); lia)) as (Hrk & _). fold rk in Hrk.
  pose proof (Forall_getz _ _ _ _ F1 Em) as [Om Km].
  destruct (Proof_Dense.dm_resize_ok m rk nv Om ltac:(lia) ltac:(lia)) as (R1 & R2 & R3 & R4 & R5). set (m' := dm_resize m rk nv) in *.
  destruct (gemm_spec false false rk nv rk (q_blk c) 0 rk (dm_data yr) 0 nv false (dm_data m') 0 nv O (fun k l => yhat h (fun p => xv p l) (root h) k) (fun _ _ => c0))
    as (d & Ed & Zd & Vd & _).
  { lia. }
  { apply fits_resized; lia. }
  { intros r cc Hr' Hc. rewrite Z.add_0_l. apply HO; auto. }
  { intros k l Hk Hl. rewrite Z.add_0_l. apply Vy; auto. }
  { discriminate. }
  rewrite Ed. cbn [bind]. destruct (setz_Some y1 (root h) (dm_set_data m' d)) as [y1' Es]; [lia|]. rewrite Es. cbn [bind].
  assert (Gy : forall j, getz y1' j = if root h =? j then Some (dm_set_data m' d) else getz y1 j) by (intros j; apply (getz_setz _ _ _ _ _ Es)).
  assert (Vd' : forall r l, 0 <= r < rk -> 0 <= l < nv -> ld d (r * nv + l) = Some (rsum 0 rk (fun k => O r k * yhat h (fun p => xv p l) (root h) k))).
  { intros r l Hr' Hl. specialize (Vd r l Hr' Hl). rewrite Z.add_0_l in Vd. rewrite Vd. f_equal; ring. }
  exists y1'. split; [reflexivity|]. split; [rewrite (setz_zlen _ _ _ _ Es); auto|]. split; [|split; [|split]].
  - eapply (Forall_setz _ _ _ _ _ F1); [|exact Es]. split; [now apply dm_set_data_ok|]. cbn [dm_set_data dm_nrow dm_ncol dm_data]. rewrite R2, R3, Zd. nia.
  - intros j Hj. rewrite Gy. destruct (Z.eqb_spec (root h) j); [congruence|auto].
  - exists (dm_set_data m' d). rewrite Gy, Z.eqb_refl. split; auto. right. cbn [dm_set_data dm_ld dm_data]. split; auto. split; [rewrite Zd; exact R5|].
    intros cc l Hc Hl. rewrite Vd'; eauto.
  - intros r l Hr' Hl. unfold y1val. rewrite Gy, Z.eqb_refl. cbn [dm_set_data dm_ld dm_data]. rewrite R4. destruct (Z.eqb_spec nv 0); [lia|]. now rewrite Vd'.
Qed.
End Mid.
