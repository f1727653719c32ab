(** H2P_matmul: the intermediate multiplication. *)
From Coq Require Import ZArith List Lia Bool Permutation.
From Verif Require Import Base Mem Num CRing Conc Model_Utils Spec_Utils Proof_Utils Model_Dense Spec_Dense Proof_Dense2 Model_Partition Spec_Tree Model_CSR Model_Matvec Spec_Matvec
  Model_Build Proof_Gemv Proof_MvTree Proof_MvFwd Proof_MvMid Proof_MvBwd Model_Matmul Proof_Gemm Proof_MmFwd.
Import ListNotations.
Open Scope Z_scope.

(** ** Families of blocks *)
Section Fam.
Context {K : cring}.
Implicit Type o : dmat K.

(** What the loops see in a block buffer: an m-by-n matrix with entries f. *)
Definition gview o (m n : Z) (f : Z -> Z -> K) : Prop :=
  let '(nrow, ncol, ldb, tr) := view o in nrow = m /\ ncol = n /\
    forall r c, 0 <= r < m -> 0 <= c < n -> ld (dm_data o) (if tr then c * ldb + r else r * ldb + c) = Some (f r c).

(** The blocks found in the rows of a CSR structure: [fm_ents n] lists those of
    row n, [fm_part e] is the column of e. *)
Record family (E : Type) := Fam {
  fm_ents : Z -> list E; fm_part : E -> Z; fm_nr : E -> Z; fm_nc : E -> Z; fm_bv : E -> Z -> Z -> K
}.
Arguments fm_ents {E}. Arguments fm_part {E}. Arguments fm_nr {E}. Arguments fm_nc {E}. Arguments fm_bv {E}.

Definition fam_rows {E} (fm : family E) (nn : Z) (rp ci : mem Z) : Prop := forall n0, 0 <= n0 < nn ->
  exists a b, ld rp n0 = Some a /\ ld rp (n0 + 1) = Some b /\ a <= b /\
    Permutation (map (ld ci) (zrange a b)) (map (fun e => Some (fm_part fm e)) (fm_ents fm n0)).
Definition fam_get {E} (fm : family E) (nn : Z) (get : Z -> Z -> dmat K -> option (option (dmat K))) : Prop := forall n0 e o,
  0 <= n0 < nn -> In e (fm_ents fm n0) -> dm_ok o -> exists o', get n0 (fm_part fm e) o = Some (Some o') /\ dm_ok o' /\
    gview o' (fm_nr fm e) (fm_nc fm e) (fm_bv fm e).

(** Running over the entries of a row. *)
Lemma fam_loop {E St} (es : list E) (part : E -> Z) (ci : mem Z) a b (f : Z -> St -> option St) (P : list E -> St -> Prop) s :
  a <= b -> Permutation (map (ld ci) (zrange a b)) (map (fun e => Some (part e)) es) -> P [] s ->
  (forall e done s, In e es -> P done s -> exists s', f (part e) s = Some s' /\ P (e :: done) s') ->
  exists s' done, zfor a b (fun i x => n1 <- ld ci i; f n1 x) s = Some s' /\ P done s' /\ Permutation done es.
Proof.
  intros Hab Hp H0 Hs. apply Permutation_map_inv in Hp as (es' & Em & Pe).
  assert (Zl : zlen es' = b - a). { rewrite <- (zlen_map (fun e => Some (part e)) es'), <- Em, zlen_map, zlen_zrange; lia. }
  assert (HL : forall j e, getz es' j = Some e -> ld ci (a + j) = Some (part e)).
  { intros j e Hj. pose proof (getz_range _ _ _ Hj) as Rj. assert (G : getz (map (ld ci) (zrange a b)) j = Some (Some (part e))).
    { rewrite Em, getz_map, Hj. reflexivity. }
    rewrite getz_map, getz_zrange in G by lia. cbn in G. congruence. }
  destruct (zfor_inv (fun i (s : St) => P (rev (firstn (Z.to_nat (i - a)) es')) s) a b (fun i x => n1 <- ld ci i; f n1 x) s) as (s' & E' & P'); auto.
  - rewrite Z.sub_diag. exact H0.
  - intros i s1 Hi P1. destruct (getz_in es' (i - a)) as [e He]; [lia|].
    pose proof (HL _ _ He) as Hc. replace (a + (i - a)) with i in Hc by lia. rewrite Hc. cbn [bind].
    assert (Hin : In e es). { apply (Permutation_in _ (Permutation_sym Pe)). eapply getz_In; eauto. }
    destruct (Hs e _ s1 Hin P1) as (s2 & E2 & P2). exists s2. split; auto.
    replace (Z.to_nat (i + 1 - a)) with (S (Z.to_nat (i - a))) by lia.
    unfold getz in He. destruct (0 <=? i - a); [|discriminate].
    replace (firstn (S (Z.to_nat (i - a))) es') with (firstn (Z.to_nat (i - a)) es' ++ [e]); [rewrite rev_app_distr; exact P2|].
    clear - He. revert es' He. generalize (Z.to_nat (i - a)). intros n. induction n as [|n IH]; intros [|x es'] He; cbn in *; try discriminate.
    + now injection He as ->.
    + f_equal. apply IH. exact He.
  - exists s', (rev es'). split; auto. rewrite firstn_all2 in P' by (unfold zlen in Zl; lia). split; auto.
    rewrite <- Permutation_rev. symmetry. exact Pe.
Qed.
End Fam.
Arguments fm_ents {K E}. Arguments fm_part {K E}. Arguments fm_nr {K E}. Arguments fm_nc {K E}. Arguments fm_bv {K E}.

Section Mid.
Context {F : num} {K : cring}.
Add Ring Kring : (cth K).
Local Open Scope ring_K.
Variable h : h2rep F K.
Hypothesis R : rep_ok h.
Notation t := (h_t h).
Notation nth := (h_nthread h).
Variables (nv mmx : Z) (col : bool).
Hypothesis Hnv : 1 <= nv <= mmx.
Notation ldp := (if col then h_kms h else mmx).
Notation prs := (if col then 1 else ldp)%Z.
Notation pcell := (pcell h mmx col).
Notation pmat := (pmat h nv mmx col).

Lemma kms_nonneg : 0 <= h_kms h.
Proof.
  destruct (ct_root _ _ _ _ _ _ (ro_tree _ R)) as (H1 & _). destruct (cluster_range h R 0 ltac:(lia)) as (C1 & C2 & C3). lia.
Qed.

Lemma pcell_inj p l p' l' : 0 <= p < h_kms h -> 0 <= p' < h_kms h -> 0 <= l < nv -> 0 <= l' < nv -> pcell p l = pcell p' l' -> p = p' /\ l = l'.
Proof. intros Hp Hp' Hl Hl'. unfold Proof_MmFwd.pcell. destruct col; intros E.
  - apply (region_inj (h_kms h)) in E as [? ?]; lia.
  - apply (region_inj nv) in E as [? ?]; lia.
Qed.

(** Adding to rows s .. s + m - 1 of an array in the permuted layout. *)
Lemma pmat_add (py py' : mem K) f s m (w : Z -> Z -> K) : pmat py f -> 0 <= s -> s + m <= h_kms h ->
  (forall r l, 0 <= r < m -> 0 <= l < nv -> ld py' (pcell (s + r) l) = Some (f (s + r)%Z l + w r l)) ->
  (forall x, (forall r l, 0 <= r < m -> 0 <= l < nv -> x <> pcell (s + r) l) -> getz py' x = getz py x) ->
  pmat py' (fun p l => f p l + (if (s <=? p) && (p <? s + m) then w (p - s)%Z l else c0)).
Proof.
  intros Hp Hs He Hw Ho p l Hp' Hl. destruct (Z.leb_spec s p); destruct (Z.ltb_spec p (s + m)); cbn [andb].
  2,3,4: rewrite ld_getz, Ho; [rewrite <- ld_getz, (Hp p l Hp' Hl); f_equal; ring|intros r l' Hr Hl' E; apply pcell_inj in E; lia].
  specialize (Hw (p - s)%Z l ltac:(lia) Hl). replace (s + (p - s))%Z with p in Hw by lia. exact Hw.
Qed.

(** Both layouts of  mat_y rows += block * source. *)
Lemma acc_py (o : dmat K) m n (f : Z -> Z -> K) (X : mem K) (xo ldx : Z) (xt : bool) (sv : Z -> Z -> K) (py : mem K) fy s :
  gview o m n f -> 0 <= m -> 0 <= n -> 0 <= s -> s + m <= h_kms h -> zlen py = (h_kms h * mmx)%Z -> pmat py fy ->
  (forall c l, 0 <= c < n -> 0 <= l < nv -> ld X (xo + (if xt then l * ldx + c else c * ldx + l)) = Some (sv c l)) ->
  exists py', (let '(nrow, ncol, ldb, tr) := view o in
     if col then gemm (negb xt) (negb tr) nv nrow ncol X xo ldx (dm_data o) 0 ldb true py (s * prs) ldp
     else gemm tr xt nrow nv ncol (dm_data o) 0 ldb X xo ldx true py (s * prs) ldp) = Some py' /\ zlen py' = zlen py /\
    pmat py' (fun p l => fy p l + (if (s <=? p) && (p <? s + m) then rsum 0 n (fun c => f (p - s)%Z c * sv c l) else c0)).
Proof.
  unfold gview. destruct (view o) as [[[nrow ncol] ldb] tr]. intros (-> & -> & Hv) Hm Hn Hs He Zp Hp Hx.
  assert (Hcell : forall r l, pcell (s + r) l = if col then (s * prs + (l * ldp + r))%Z else (s * prs + (r * ldp + l))%Z).
  { intros r l. unfold Proof_MmFwd.pcell. destruct col; lia. }
  assert (Hpc : forall r l, 0 <= r < m -> 0 <= l < nv -> ld py (pcell (s + r) l) = Some (fy (s + r)%Z l)) by (intros; apply Hp; lia).
  pose proof kms_nonneg as Hk.
  cut (exists py', (if col then gemm (negb xt) (negb tr) nv m n X xo ldx (dm_data o) 0 ldb true py (s * prs) ldp
     else gemm tr xt m nv n (dm_data o) 0 ldb X xo ldx true py (s * prs) ldp) = Some py' /\ zlen py' = zlen py /\
     (forall r l, 0 <= r < m -> 0 <= l < nv -> ld py' (pcell (s + r) l) = Some (fy (s + r)%Z l + rsum 0 n (fun c => f r c * sv c l))) /\
     (forall x, (forall r l, 0 <= r < m -> 0 <= l < nv -> x <> pcell (s + r) l) -> getz py' x = getz py x)).
  { intros (py' & E & Z' & V' & O'). exists py'. split; auto. split; auto. apply (pmat_add py py' fy s m (fun r l => rsum 0 n (fun c => f r c * sv c l))); auto. }
  destruct col.
  - destruct (gemm_spec (negb xt) (negb tr) nv m n X xo ldx (dm_data o) 0 ldb true py (s * 1) (h_kms h)
      (fun l c => sv c l) (fun c r => f r c) (fun l r => fy (s + r)%Z l)) as (py' & E & Z' & V' & O').
    + auto.
    + unfold fits. rewrite Zp. repeat split; try lia. intros. assert ((nv - 1) * h_kms h <= (mmx - 1) * h_kms h)%Z by (apply Z.mul_le_mono_nonneg_r; lia). lia.
    + intros l c Hl Hc. rewrite <- Hx by auto. destruct xt; cbn [negb]; auto.
    + intros c r Hc Hr. rewrite Z.add_0_l, <- Hv by auto. destruct tr; cbn [negb]; auto.
    + intros _ l r Hl Hr. rewrite <- Hpc by auto. now rewrite Hcell.
    + exists py'. split; auto. split; auto. split.
      * intros r l Hr Hl. rewrite Hcell, V' by auto. f_equal. f_equal. apply rsum_ext. intros; ring.
      * intros x Hxx. apply O'. intros l r Hl Hr. rewrite <- Hcell. auto.
  - destruct (gemm_spec tr xt m nv n (dm_data o) 0 ldb X xo ldx true py (s * mmx) mmx
      f sv (fun r l => fy (s + r)%Z l)) as (py' & E & Z' & V' & O').
    + auto.
    + unfold fits. rewrite Zp. split; [lia|]. split; [lia|]. split; [nia|]. split; [lia|]. intros. assert ((s + m) * mmx <= h_kms h * mmx)%Z by (apply Z.mul_le_mono_nonneg_r; lia). nia.
    + intros r c Hr Hc. rewrite Z.add_0_l. auto.
    + intros c l Hc Hl. rewrite <- Hx by auto. auto.
    + intros _ r l Hr Hl. rewrite <- Hpc by auto. now rewrite Hcell.
    + exists py'. split; auto. split; auto. split.
      * intros r l Hr Hl. rewrite Hcell, V' by auto. reflexivity.
      * intros x Hxx. apply O'. intros r l Hr Hl. rewrite <- Hcell. auto.
Qed.

Definition y1sh (m : dmat K) (i : Z) : Prop := dm_ld m = 0 \/ (dm_ld m = nv /\ dm_nrow m = rank h i /\ dm_ncol m = nv).


Lemma mm_init_y1_spec s : mats_mok (h_nnode h) (s_y1 s) ->
  exists y1, mm_init_y1 h nv s = Some (set_y1 s y1) /\ zlen y1 = h_nnode h /\ Forall mok y1 /\
    forall i, 0 <= i < h_nnode h -> exists m, getz y1 i = Some m /\ y1sh m i /\ (forall n, ld (h_nr h) i = Some n -> n <> 0 -> dm_ld m = nv).
Proof.
  intros Hm. unfold mm_init_y1. destruct (ro_U _ R) as [ZU _].
  set (y1 := match s_y1 s with Some y1 => y1 | None => _ end).
  assert (H1 : zlen y1 = h_nnode h /\ Forall mok y1).
  { unfold y1. destruct (s_y1 s) as [l|]; [exact Hm|]. rewrite zlen_map. split; auto. rewrite Forall_map, Forall_forall. intros U _.
    split; [unfold dm_ok, dm_init; cbn; now rewrite zlen_alloc by lia|]. cbn. rewrite zlen_alloc; lia. }
  destruct H1 as (Z1 & F1).
  pose (P := fun (j : Z) (y : list (dmat K)) => zlen y = h_nnode h /\ Forall mok y /\
    forall i, 0 <= i < j -> exists m, getz y i = Some m /\ y1sh m i /\ (forall n, ld (h_nr h) i = Some n -> n <> 0 -> dm_ld m = nv)).
  destruct (ro_nr _ R) as [Zn Hn].
  match goal with |- context [zfor 0 ?n ?b ?z] => destruct (zfor_inv P 0 n b z) as [y [E (P1 & P2 & P3)]] end.
  - rewrite <- Z1. apply zlen_nonneg.
  - split; auto. split; auto. intros i Hi. lia.
  - intros i y Hi (P1 & P2 & P3). destruct (getz_in y i) as [m Em]; [lia|]. rewrite Em. cbn [bind].
    destruct (Hn i Hi) as (n & En & _). rewrite En. cbn [bind]. destruct (U_at h R i Hi) as (U & EU & Er & _). rewrite EU. cbn [bind]. rewrite Er.
    pose proof (rank_nonneg h R i Hi) as Rk.
    set (m' := mkDM (dm_nrow m) (dm_ncol m) 0 (dm_size m) (dm_data m)).
    assert (Om' : mok m') by (pose proof (Forall_getz _ _ _ _ P2 Em) as O; exact O).
    match goal with |- context [setz y i ?v] => destruct (setz_Some y i v) as [y' Es]; [lia|] end.
    rewrite Es. exists y'. split; auto. split; [rewrite (setz_zlen _ _ _ _ Es); auto|]. split.
    + eapply (Forall_setz _ _ _ _ _ P2); [|exact Es]. destruct (n =? 0); auto. apply mok_resize; [apply Om'|nia].
    + intros j Hj. rewrite (getz_setz _ _ _ _ _ Es). destruct (Z.eqb_spec i j) as [<-|Hne]; [|apply P3; lia].
      eexists. split; [reflexivity|]. destruct (dm_resize_ok m' (rank h i) nv (proj1 Om') ltac:(nia)) as (A & B & C & D & _).
      destruct (Z.eqb_spec n 0) as [->|Hn0].
      * split; [left; reflexivity|]. intros n' En' Hn'. congruence.
      * split; [right; auto|]. auto.
  - rewrite E. cbn [bind]. exists y. auto.
Qed.

(** ** The blocks of the admissible pairs *)
Context {E : Type} (fm : family (K := K) E) (get : Z -> Z -> dmat K -> option (option (dmat K))) (bm : bmeta).
Hypothesis Hrows : fam_rows fm (h_nnode h) (bm_rowptr bm) (bm_colidx bm).
Hypothesis Hget : fam_get fm (h_nnode h) get.
Hypothesis Hent : forall n0 e, 0 <= n0 < h_nnode h -> In e (fm_ents fm n0) ->
  0 <= fm_part fm e < h_nnode h /\ h_minlevel h <= Z.max (level h n0) (level h (fm_part fm e)) /\
  fm_nr fm e = (if level h (fm_part fm e) <=? level h n0 then rank h n0 else msize h n0) /\
  fm_nc fm e = (if level h n0 <=? level h (fm_part fm e) then rank h (fm_part fm e) else msize h (fm_part fm e)) /\
  (forall n, ld (h_nr h) n0 = Some n -> n <> 0).

Variable xv : Z -> Z -> K.
Variables (y0 : list (dmat K)) (px : mem K).
Hypothesis Zy0 : zlen y0 = h_nnode h.
Hypothesis Gy0 : forall i, 0 <= i < h_nnode h -> h_minlevel h <= level h i -> y0m_good h nv xv y0 i.
Hypothesis Hpx : pmat px xv.

(** The product of a block with its source, and what it contributes to row p. *)
Definition wval (n0 : Z) (e : E) (r l : Z) : K := rsum 0 (fm_nc fm e) (fun c => fm_bv fm e r c * sidex h (fun p => xv p l) (fm_part fm e) n0 c).
Definition term (n0 : Z) (e : E) (p l : Z) : K := rsum 0 (fm_nr fm e) (fun r => side h n0 (fm_part fm e) r p * wval n0 e r l).

Definition node_total (n0 : Z) (f : Z -> Z -> K) (g : Z -> Z -> K) (p l : Z) : K := f p l + rsum 0 (rank h n0) (fun c => basis h n0 p c * g c l).

Lemma mm_mid_pair_spec n0 e (bij y10 : dmat K) py f g :
  0 <= n0 < h_nnode h -> In e (fm_ents fm n0) -> dm_ok bij -> dm_ld y10 = nv -> rank h n0 * nv <= zlen (dm_data y10) ->
  (forall c l, 0 <= c < rank h n0 -> 0 <= l < nv -> ld (dm_data y10) (c * nv + l) = Some (g c l)) ->
  zlen py = (h_kms h * mmx)%Z -> pmat py f ->
  exists bij' d py' f' g', mm_mid_pair h get nv y0 px ldp prs col ldp prs col n0 (fm_part fm e) (bij, y10, py) = Some (bij', dm_set_data y10 d, py') /\
    dm_ok bij' /\ zlen d = zlen (dm_data y10) /\ (forall c l, 0 <= c < rank h n0 -> 0 <= l < nv -> ld d (c * nv + l) = Some (g' c l)) /\
    zlen py' = (h_kms h * mmx)%Z /\ pmat py' f' /\
    forall p l, 0 <= p < h_kms h -> 0 <= l < nv -> node_total n0 f' g' p l = node_total n0 f g p l + term n0 e p l.
Proof.
  intros Hn0 He Hb Hl Hs Hg Zp Hp. destruct (Hent n0 e Hn0 He) as (Hn1 & Hml & Hnr & Hnc & _).
  set (n1 := fm_part fm e) in *. unfold mm_mid_pair. rewrite !(ld_level h R) by auto. cbn [bind].
  destruct (getz_in y0 n1) as [y01 Ey]; [lia|]. rewrite Ey. cbn [bind].
  destruct (Hget n0 e bij Hn0 He Hb) as (o & Eo & Oo & Vo). fold n1 in Eo. unfold fetch. rewrite Eo. cbn [bind].
  destruct (cluster_range h R n0 Hn0) as (C01 & C02 & C03). destruct (cluster_range h R n1 Hn1) as (C11 & C12 & C13).
  pose proof (rank_nonneg h R n0 Hn0) as Rk0. pose proof (rank_nonneg h R n1 Hn1) as Rk1.
  assert (Zr : 0 <= fm_nr fm e) by (rewrite Hnr; destruct (_ <=? _); lia).
  assert (Zc : 0 <= fm_nc fm e) by (rewrite Hnc; destruct (level h n0 <=? level h n1); lia).
  rewrite !(ld_mfirst h R) by auto. cbn [bind].
  (* source values *)
  assert (Sy : level h n0 <= level h n1 -> dm_ld y01 = nv /\ forall c l, 0 <= c < fm_nc fm e -> 0 <= l < nv ->
     ld (dm_data y01) (c * nv + l) = Some (sidex h (fun p => xv p l) n1 n0 c)).
  { intros Hle. destruct (Gy0 n1 Hn1 ltac:(lia)) as (m & Em & _ & Em2 & Vm). assert (m = y01) by congruence. subst m. split; auto.
    intros c l Hc Hl'. rewrite Hnc, (proj2 (Z.leb_le _ _)) in Hc by lia. rewrite sidex_comp by lia. auto. }
  assert (Sx : level h n1 < level h n0 -> forall c l, 0 <= c < fm_nc fm e -> 0 <= l < nv ->
     ld px (mfirst h n1 * prs + (if col then l * ldp + c else c * ldp + l)) = Some (sidex h (fun p => xv p l) n1 n0 c)).
  { intros Hlt c l Hc Hl'. rewrite Hnc, (proj2 (Z.leb_gt _ _)) in Hc by lia. rewrite sidex_own by lia. rewrite <- (Hpx (mfirst h n1 + c)%Z l) by lia.
    unfold Proof_MmFwd.pcell. destruct col; f_equal; lia. }
  pose proof Vo as Vo'. unfold gview in Vo'. destruct (view o) as [[[nrow ncol] ldb] tr] eqn:Ev. destruct Vo' as (E1 & E2 & Vb).
  (* the product into y1 *)
  assert (Ay : forall (X : mem K) xo ldx xt, level h n1 <= level h n0 ->
    (forall c l, 0 <= c < fm_nc fm e -> 0 <= l < nv -> ld X (xo + (if (xt : bool) then l * ldx + c else c * ldx + l)) = Some (sidex h (fun p => xv p l) n1 n0 c)) ->
    exists d, gemm tr xt nrow nv ncol (dm_data o) 0 ldb X xo ldx true (dm_data y10) 0 (dm_ld y10) = Some d /\ zlen d = zlen (dm_data y10) /\
      (forall c l, 0 <= c < rank h n0 -> 0 <= l < nv -> ld d (c * nv + l) = Some (g c l + wval n0 e c l))).
  { intros X xo ldx xt Hle HX. rewrite Hl, E1, E2. rewrite (proj2 (Z.leb_le _ _)) in Hnr by lia.
    destruct (gemm_spec tr xt (fm_nr fm e) nv (fm_nc fm e) (dm_data o) 0 ldb X xo ldx true (dm_data y10) 0 nv (fm_bv fm e)
      (fun c l => sidex h (fun p => xv p l) n1 n0 c) g) as (d & Ed & Zd & Vd & _); auto.
    - apply fits_ld; lia.
    - intros _ c l Hc Hl'. rewrite Z.add_0_l. apply Hg; lia.
    - exists d. split; auto. split; auto. intros c l Hc Hl'. specialize (Vd c l ltac:(lia) Hl'). rewrite Z.add_0_l in Vd. exact Vd. }
  assert (Tot : level h n1 <= level h n0 -> forall p l, node_total n0 f (fun c l => g c l + wval n0 e c l) p l = node_total n0 f g p l + term n0 e p l).
  { intros Hle p l. unfold node_total, term. fold n1. rewrite Hnr, (proj2 (Z.leb_le _ _)) by lia.
    rewrite (rsum_ext 0 (rank h n0) _ (fun c => basis h n0 p c * g c l + side h n0 n1 c p * wval n0 e c l)).
    2:{ intros c Hc. unfold side. rewrite (proj2 (Z.leb_le _ _)) by lia. ring. }
    rewrite rsum_add. ring. }
  destruct (Z.eqb_spec (level h n0) (level h n1)) as [Hle|Hne]; [|destruct (Z.ltb_spec (level h n1) (level h n0)) as [Hlt|Hge]].
  - destruct (Sy ltac:(lia)) as (Ly & Vy). rewrite Ly.
    destruct (Ay (dm_data y01) 0 nv false ltac:(lia)) as (d & Ed & Zd & Vd); [intros c l Hc Hl'; rewrite Z.add_0_l; auto|].
    rewrite Ed. cbn [bind]. rewrite (proj2 (Z.ltb_ge (level h n1) (level h n0))), (proj2 (Z.ltb_ge (level h n0) (level h n1))) by lia. cbn [bind].
    exists o, d, py, f, (fun c l => g c l + wval n0 e c l). split; auto. split; auto. split; auto. split; auto. split; auto. split; auto.
    intros p l _ _. apply Tot. lia.
  - cbn [bind]. destruct (Ay px (mfirst h n1 * prs)%Z ldp col ltac:(lia)) as (d & Ed & Zd & Vd); [auto|].
    rewrite Ed. cbn [bind]. rewrite (proj2 (Z.ltb_ge (level h n0) (level h n1))) by lia. cbn [bind].
    exists o, d, py, f, (fun c l => g c l + wval n0 e c l). split; auto. split; auto. split; auto. split; auto. split; auto. split; auto.
    intros p l _ _. apply Tot. lia.
  - cbn [bind]. rewrite (proj2 (Z.ltb_lt (level h n0) (level h n1))) by lia. destruct (Sy ltac:(lia)) as (Ly & Vy). rewrite Ly.
    rewrite (proj2 (Z.leb_gt _ _)) in Hnr by lia.
    destruct (acc_py o (fm_nr fm e) (fm_nc fm e) (fm_bv fm e) (dm_data y01) 0 nv false (fun c l => sidex h (fun p => xv p l) n1 n0 c) py f (mfirst h n0))
      as (py' & Ep & Zp' & Vp'); auto; try lia.
    rewrite Ev in Ep. cbn [negb] in Ep. rewrite Ep. cbn [bind].
    eexists o, (dm_data y10), py', _, g. split; [reflexivity|]. split; auto. split; auto. split; auto. split; [lia|]. split; [exact Vp'|].
    intros p l Hpp Hll. unfold node_total, term. fold n1.
    cut ((if (mfirst h n0 <=? p) && (p <? mfirst h n0 + fm_nr fm e)
      then rsum 0 (fm_nc fm e) (fun c => fm_bv fm e (p - mfirst h n0) c * sidex h (fun p0 => xv p0 l) n1 n0 c) else c0) =
      rsum 0 (fm_nr fm e) (fun r => side h n0 n1 r p * wval n0 e r l)); [intros ->; ring|].
    assert (Hsd : forall r, side h n0 n1 r p = if p =? mfirst h n0 + r then c1 else c0).
    { intros r. unfold side. now rewrite (proj2 (Z.leb_gt _ _)) by lia. }
    destruct (Z.leb_spec (mfirst h n0) p); destruct (Z.ltb_spec p (mfirst h n0 + fm_nr fm e)); cbn [andb].
    2,3,4: symmetry; apply rsum_zero; intros r Hr; rewrite Hsd; destruct (Z.eqb_spec p (mfirst h n0 + r)); [lia|ring].
    rewrite (rsum_only 0 (fm_nr fm e) _ (p - mfirst h n0)%Z); [|lia|].
    + rewrite Hsd. replace (mfirst h n0 + (p - mfirst h n0))%Z with p by lia. rewrite Z.eqb_refl. unfold wval. fold n1. ring.
    + intros r Hr Hne'. rewrite Hsd. destruct (Z.eqb_spec p (mfirst h n0 + r)); [lia|ring].
Qed.

Definition shapes (y1 : list (dmat K)) : Prop := forall i, 0 <= i < h_nnode h ->
  exists m, getz y1 i = Some m /\ y1sh m i /\ (forall n, ld (h_nr h) i = Some n -> n <> 0 -> dm_ld m = nv).
Definition filledm (y1 : list (dmat K)) (i : Z) : Prop := exists m, getz y1 i = Some m /\
  (dm_ld m = 0 \/ (dm_ld m = nv /\ rank h i * nv <= zlen (dm_data m) /\
     forall c l, 0 <= c < rank h i -> 0 <= l < nv -> exists v, ld (dm_data m) (c * nv + l) = Some v)).

Lemma mm_mid_node_spec s0 y1 m0 py f tid n0 : s_y0 s0 = Some y0 -> s_px s0 = px ->
  zlen y1 = h_nnode h -> Forall mok y1 -> shapes y1 -> m0_ok h m0 -> zlen py = (h_kms h * mmx)%Z -> pmat py f ->
  0 <= tid < nth -> 0 <= n0 < h_nnode h ->
  exists y1' m0' py' f', mm_mid_node h get bm nv ldp prs col ldp prs col tid n0 (bwd_st s0 y1 m0 py) = Some (bwd_st s0 y1' m0' py') /\
    zlen y1' = h_nnode h /\ Forall mok y1' /\ shapes y1' /\ (forall j, j <> n0 -> getz y1' j = getz y1 j) /\ filledm y1' n0 /\
    m0_ok h m0' /\ zlen py' = (h_kms h * mmx)%Z /\ pmat py' f' /\
    forall p l, 0 <= p < h_kms h -> 0 <= l < nv ->
      f' p l + rsum 0 (rank h n0) (fun c => basis h n0 p c * y1val y1' n0 (c * nv + l)) = f p l + lsum (fun e => term n0 e p l) (fm_ents fm n0).
Proof.
  intros E0 Ex Z1 F1 S1 (Zm & Fm) Zp Hp Ht Hn. unfold mm_mid_node, bwd_st at 1 2 3 4 5. cbn [s_y0 s_y1 s_m0 s_px s_py]. rewrite E0. cbn [bind].
  destruct (getz_in m0 tid ltac:(lia)) as [bij Eb]. rewrite Eb. cbn [bind].
  destruct (S1 n0 Hn) as (m & Em & Sm & Am). rewrite Em. cbn [bind].
  pose proof (Forall_getz _ _ _ _ F1 Em) as [Om Km].
  destruct (mzero_spec c0 (dm_data m) (dm_nrow m * dm_ncol m) Km) as (d0 & Ed & Zd & Vd). rewrite Ed. cbn [bind].
  destruct (Hrows n0 Hn) as (a & b & Ea & Eb' & Hab & Hperm). rewrite Ea, Eb'. cbn [bind].
  destruct (ro_nr _ R) as [_ Hnr]. destruct (Hnr n0 Hn) as (nn & Enn & _).
  pose (P := fun (done : list E) (x : dmat K * dmat K * mem K) => let '(bij, y10, py) := x in exists d f' g,
    dm_ok bij /\ y10 = dm_set_data m d /\ zlen d = zlen (dm_data m) /\ zlen py = (h_kms h * mmx)%Z /\ pmat py f' /\
    (dm_ld m = nv -> forall c l, 0 <= c < rank h n0 -> 0 <= l < nv -> ld d (c * nv + l) = Some (g c l)) /\
    (dm_ld m = 0 -> forall c l, g c l = c0) /\
    forall p l, 0 <= p < h_kms h -> 0 <= l < nv -> node_total n0 f' g p l = f p l + lsum (fun e => term n0 e p l) done).
  destruct (fam_loop (fm_ents fm n0) (fm_part fm) (bm_colidx bm) a b
    (fun node1 x => mm_mid_pair h get nv y0 px ldp prs col ldp prs col n0 node1 x) P (bij, dm_set_data m d0, py))
    as ([[bij' y10'] py'] & done & El & (d & f' & g & Q1 & -> & Q3 & Q4 & Q5 & Q6 & Q7 & Q8) & Hd); auto.
  - exists d0, f, (fun _ _ => c0). split; [eapply Forall_getz; eauto|]. do 5 (split; auto).
    + intros Hl c l Hc Hl'. apply Vd. destruct Sm as [?|(_ & -> & ->)]; [lia|]. nia.
    + split; auto. intros p l Hpp Hll. unfold node_total. rewrite lsum_nil. rewrite (rsum_zero 0 (rank h n0)); [ring|]. intros; ring.
  - intros e done [[bijc y10c] pyc] He (d & f' & g & Q1 & -> & Q3 & Q4 & Q5 & Q6 & Q7 & Q8).
    destruct (Hent n0 e Hn He) as (_ & _ & _ & _ & Hne). specialize (Am nn Enn (Hne nn Enn)).
    destruct Sm as [?|(_ & Sm1 & Sm2)]; [lia|].
    destruct (mm_mid_pair_spec n0 e bijc (dm_set_data m d) pyc f' g Hn He Q1) as (bij' & d' & py' & f2 & g2 & E2 & O2 & Z2 & V2 & Zp2 & Hp2 & T2); auto.
    { cbn [dm_set_data dm_data]. rewrite Q3, <- Sm1, <- Sm2. apply Km. }
    exists (bij', dm_set_data m d', py'). split; [exact E2|]. exists d', f2, g2. split; auto. split; auto. split; [cbn [dm_set_data dm_data] in Z2; lia|].
    split; auto. split; auto. split; auto. split; [intros; lia|]. intros p l Hpp Hll. rewrite T2, Q8, lsum_cons by auto. ring.
  - rewrite Ex. match type of El with ?L = _ => match goal with |- context [zfor a b ?f0 ?z0] => change (zfor a b f0 z0) with L end end. rewrite El. cbn [bind].
    change (s_m0 (bwd_st s0 y1 m0 py)) with m0.
    destruct (setz_Some m0 tid bij') as [m0' Es]; [lia|]. rewrite Es. cbn [bind].
    destruct (setz_Some y1 n0 (dm_set_data m d)) as [y1' Es1]; [lia|]. rewrite Es1. cbn [bind].
    exists y1', m0', py', f'. split; [reflexivity|]. pose proof (setz_zlen _ _ _ _ Es1) as Z1'. split; [lia|].
    split; [eapply (Forall_setz _ _ _ _ _ F1); [|exact Es1]; split; [now apply dm_set_data_ok|]; cbn [dm_set_data dm_nrow dm_ncol dm_data]; lia|].
    assert (Gy : forall j, getz y1' j = if n0 =? j then Some (dm_set_data m d) else getz y1 j) by (intros j; apply (getz_setz _ _ _ _ _ Es1)).
    split; [|split; [|split; [|split; [|split; [|split]]]]]; auto.
    + intros i Hi. rewrite Gy. destruct (Z.eqb_spec n0 i) as [<-|]; [|auto]. exists (dm_set_data m d). auto.
    + intros j Hj. rewrite Gy. destruct (Z.eqb_spec n0 j); [congruence|auto].
    + exists (dm_set_data m d). rewrite Gy, Z.eqb_refl. split; auto. cbn [dm_set_data dm_ld dm_data].
      destruct Sm as [?|(Hl & Sm1 & Sm2)]; [auto|]. right. split; auto. split; [rewrite Q3, <- Sm1, <- Sm2; apply Km|].
      intros c l Hc Hl'. rewrite Q6; eauto.
    + split; [rewrite (setz_zlen _ _ _ _ Es); auto|]. eapply (Forall_setz _ _ _ _ _ Fm); [|exact Es]; auto.
    + intros p l Hpp Hll. rewrite <- (lsum_perm _ _ _ Hd). rewrite <- Q8 by auto. unfold node_total. f_equal. apply rsum_ext. intros c Hc. f_equal.
      unfold y1val. rewrite Gy, Z.eqb_refl. cbn [dm_set_data dm_ld dm_data]. destruct (Z.eqb_spec (dm_ld m) 0) as [H0|H0].
      * now rewrite Q7.
      * destruct Sm as [?|(Hl & _)]; [contradiction|]. now rewrite Q6 by auto.
Qed.

Lemma mm_mid_spec evs s f : omp_for nth (h_nnode h) evs -> s_y0 s = Some y0 -> s_px s = px -> mats_mok (h_nnode h) (s_y1 s) -> m0_ok h (s_m0 s) ->
  zlen (s_py s) = (h_kms h * mmx)%Z -> pmat (s_py s) f ->
  exists y1 m0 py f', mm_mid h get bm nv ldp prs col ldp prs col evs s = Some (bwd_st s y1 m0 py) /\
    zlen y1 = h_nnode h /\ Forall mok y1 /\ (forall i, 0 <= i < h_nnode h -> filledm y1 i) /\
    m0_ok h m0 /\ zlen py = (h_kms h * mmx)%Z /\ pmat py f' /\
    forall p l, 0 <= p < h_kms h -> 0 <= l < nv ->
      f' p l + rsum 0 (h_nnode h) (fun i => rsum 0 (rank h i) (fun c => basis h i p c * y1val y1 i (c * nv + l))) =
      f p l + rsum 0 (h_nnode h) (fun i => lsum (fun e => term i e p l) (fm_ents fm i)).
Proof.
  intros [Ht Hpm] E0 Ex Hy1 Hm0 Zp Hp. unfold mm_mid.
  destruct (mm_init_y1_spec s Hy1) as (y1a & Ei & Za & Fa & Sa). rewrite Ei. cbn [bind].
  replace (set_y1 s y1a) with (bwd_st s y1a (s_m0 s) (s_py s)) by reflexivity.
  rewrite Forall_forall in Ht.
  destruct (run_each snd (fun ev => mm_mid_node h get bm nv ldp prs col ldp prs col (fst ev) (snd ev))
    (fun done s' => exists y1 m0 py f', s' = bwd_st s y1 m0 py /\ zlen y1 = h_nnode h /\ Forall mok y1 /\ shapes y1 /\ (forall i, In i done -> filledm y1 i) /\
      m0_ok h m0 /\ zlen py = (h_kms h * mmx)%Z /\ pmat py f' /\ forall p l, 0 <= p < h_kms h -> 0 <= l < nv ->
      f' p l + lsum (fun i => rsum 0 (rank h i) (fun c => basis h i p c * y1val y1 i (c * nv + l))) done =
      f p l + lsum (fun i => lsum (fun e => term i e p l) (fm_ents fm i)) done) evs [] (bwd_st s y1a (s_m0 s) (s_py s)))
    as (s' & Er & (y1 & m0 & py & f' & -> & Q1 & Q2 & Q3 & Q4 & Q5 & Q6 & Q7 & Q8)).
  - eapply Permutation_NoDup; [symmetry; exact Hpm|]. apply NoDup_zrange.
  - intros e He [].
  - exists y1a, (s_m0 s), (s_py s), f. split; auto. split; auto. split; auto. split; auto. split; [intros i []|]. auto.
  - intros done ev s' Hev Hnd (y1 & m0 & py & f' & -> & Q1 & Q2 & Q3 & Q4 & Q5 & Q6 & Q7 & Q8).
    assert (Hn : 0 <= snd ev < h_nnode h). { apply In_zrange. eapply Permutation_in; [exact Hpm|]. now apply in_map. }
    destruct (mm_mid_node_spec s y1 m0 py f' (fst ev) (snd ev)) as (y2 & m2 & py2 & f2 & E2 & A1 & A2 & A3 & A4 & A5 & A6 & A7 & A8 & A9); auto.
    exists (bwd_st s y2 m2 py2). split; auto. exists y2, m2, py2, f2. split; auto. split; auto. split; auto. split; auto. split.
    { intros i [<-|Hi]; auto. destruct (Q4 i Hi) as (m & Em & Hm). exists m. rewrite A4; auto. intros ->. contradiction. }
    split; auto. split; auto. split; auto. intros p l Hpp Hll. rewrite !lsum_cons.
    rewrite (lsum_ext _ (fun i => rsum 0 (rank h i) (fun c => basis h i p c * y1val y1 i (c * nv + l))) done).
    2:{ intros i Hi. apply rsum_ext. intros c Hc. unfold y1val. rewrite A4; auto. intros ->. contradiction. }
    transitivity (f2 p l + rsum 0 (rank h (snd ev)) (fun c => basis h (snd ev) p c * y1val y2 (snd ev) (c * nv + l)) +
      lsum (fun i => rsum 0 (rank h i) (fun c => basis h i p c * y1val y1 i (c * nv + l))) done); [ring|].
    rewrite A9 by auto.
    transitivity (f' p l + lsum (fun i => rsum 0 (rank h i) (fun c => basis h i p c * y1val y1 i (c * nv + l))) done + lsum (fun e => term (snd ev) e p l) (fm_ents fm (snd ev))); [ring|].
    rewrite Q8 by auto. ring.
  - exists y1, m0, py, f'. split; auto. rewrite app_nil_r in Q4, Q8.
    split; auto. split; auto. split.
    { intros i Hi. apply Q4. apply -> in_rev. apply (Permutation_in _ (Permutation_sym Hpm)). apply In_zrange. lia. }
    split; auto. split; auto. split; auto. intros p l Hpp Hll. specialize (Q8 p l Hpp Hll).
    
    assert (Hpr : Permutation (rev (map snd evs)) (zrange 0 (h_nnode h))) by (rewrite <- Permutation_rev; exact Hpm).
    rewrite !(lsum_perm _ _ _ Hpr) in Q8. exact Q8.
Qed.
End Mid.
