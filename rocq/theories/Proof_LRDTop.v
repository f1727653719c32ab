(** The low-rank plus diagonal preconditioner: sampled points, construction, application. *)
From Coq Require Import ZArith Reals List Lia Lra Bool.
From Verif Require Import Base Mem Num CRing FNum Model_Utils Spec_Dense Model_Dense Model_Partition Model_Matvec Model_Matmul Model_Build Spec_Lapack Proof_Lapack Spec_SPD Blk Model_ULV Proof_ULVMath Proof_ULVMem Model_FSAI Spec_FSAI Model_AFN Model_Nys Spec_Nys Model_Rand Spec_Rand Spec_BJ Model_LRD Spec_LRD
  Proof_Gemm Proof_Gemv Proof_Dense Proof_Dense3 Proof_Build Proof_BJ Proof_BJLeaf Proof_BJReal Proof_NysMath Proof_NysBuild Proof_Spectral Proof_Rand Proof_LRDMath Proof_LRDSel Proof_LRDBuild.
Import ListNotations.
Open Scope Z_scope.

Section Points.
Context {F : num}.
Variable rnd : Z -> Z.
Variables (dim n : Z) (coord : mem F) (X : Z -> Z -> F).
Hypothesis Hrnd : rand_ok rnd.
Hypothesis Hdim : 1 <= dim.
Hypothesis Hn : 1 <= n.
Hypothesis HX : forall q d, 0 <= q < n -> 0 <= d < dim -> ld coord (d * n + q) = Some (X q d).

Lemma coord_len : dim * n <= zlen coord.
Proof. pose proof (ld_range _ _ _ (HX (n - 1) (dim - 1) ltac:(lia) ltac:(lia))). nia. Qed.
Lemma coord_copy : exists c, mcpy (dm_data (@dm_init F dim n)) 0 coord 0 (dim * n) = Some c /\ zlen c = dim * n /\ forall q d, 0 <= q < n -> 0 <= d < dim -> ld c (d * n + q) = Some (X q d).
Proof.
  assert (Z0 : zlen (dm_data (@dm_init F dim n)) = dim * n). { unfold dm_init. cbn [dm_data]. rewrite !Z.max_r by lia. apply zlen_alloc. nia. }
  destruct (mcpy_spec (dm_data (@dm_init F dim n)) 0 coord 0 (dim * n)) as (c & E & Zc & Hc); try nia. { pose proof coord_len. lia. }
  exists c. split; auto. split; [lia|]. intros q d Hq Hd. rewrite <- (HX q d Hq Hd). unfold ld. rewrite Hc. rewrite (proj2 (Z.leb_le 0 _)), (proj2 (Z.ltb_lt _ _)) by nia. cbn [andb]. rewrite !Z.sub_0_r. reflexivity.
Qed.

(** The list of samples, and the places of the points that are really used. *)
Lemma points_of_samples fuel rank p s f q : 1 <= rank <= n -> rand_sample rnd fuel n rank (iv_data (iv_init rank)) 0 (arr (4 * n) (Some 0)) p = Some (s, f, q) ->
  exists ca cs l, lrd_points rnd fuel dim n rank coord p = Some (ca, cs, q) /\ zlen l = rank /\ first_different (fun q => rnd q mod n) p l q /\ (forall x, In x l -> 0 <= x < n) /\
    dm_ncol ca = n /\ coords_at (dm_data ca) 0 (dm_ld ca) n dim X /\ dm_ncol cs = rank /\ coords_at (dm_data cs) 0 (dm_ld cs) rank dim (fun j => X (nthz (chain l) j)).
Proof.
  intros Hr E. destruct coord_copy as (c & Ec & Zc & Hc). unfold lrd_points. cbv zeta. rewrite Ec. cbn [bind]. rewrite E. cbn [bind].
  pose proof (rand_sample_partial rnd Hrnd fuel n rank (iv_data (iv_init rank)) 0 (arr (4 * n) (Some 0)) p s f q ltac:(lia) ltac:(lia) ltac:(rewrite zlen_arr by lia; lia) E) as HS. cbn [sampled] in HS. destruct HS as (l & Zl & Fd & _ & _ & Hs).
  assert (Rg : forall x, In x l -> 0 <= x < n). { intros x Hx. destruct (fd_in _ _ _ _ _ Fd Hx) as (y & ->). apply Z.mod_pos_bound. lia. }
  rewrite (read_cells_spec s 0 rank (nthz l)); [|lia|].
  2:{ intros k Hk. rewrite Hs. rewrite (proj2 (Z.leb_le _ _)), (proj2 (Z.ltb_lt _ _)) by lia. cbn [andb]. replace (0 + k - 0) with k by lia. apply getz_nthz. lia. }
  cbn [bind]. assert (EL : map (fun k => nthz l (k - 0)) (zrange 0 (0 + rank)) = l).
  { apply getz_ext; [rewrite zlen_map, zlen_zrange by lia; lia|]. rewrite zlen_map, zlen_zrange by lia. intros i Hi.
    rewrite getz_map, getz_zrange by lia. cbn [option_map]. rewrite (getz_nthz l i) by lia. do 2 f_equal. lia. }
  rewrite EL.
  assert (Hm : dm_holds (dm_set_data (@dm_init F dim n) c) dim n (fun d q => X q d)).
  { unfold dm_holds, dm_ok, dm_set_data, dm_init. cbn [dm_size dm_data dm_nrow dm_ncol dm_ld]. rewrite !Z.max_r by lia. split; [lia|]. split; [reflexivity|]. split; [reflexivity|]. split; [|intros; apply Hc; auto]. rewrite Zc. repeat split; try lia. }
  destruct (select_any _ dim n _ l Hm Rg ltac:(lia)) as (cs & Es & Hcs). rewrite Es. cbn [bind].
  exists (dm_set_data (@dm_init F dim n) c), cs, l. split; [reflexivity|]. split; [exact Zl|]. split; [exact Fd|]. split; [exact Rg|].
  destruct Hm as (_ & _ & M2 & _ & M3). destruct Hcs as (_ & _ & C2 & _ & C3). rewrite Zl in *.
  split; [exact M2|]. split; [intros q' d Hq Hd; rewrite Z.add_0_l; apply M3; auto|]. split; [exact C2|]. intros j d Hj Hd. rewrite Z.add_0_l. apply C3; auto.
Qed.
Lemma points_inv fuel rank p r : lrd_points rnd fuel dim n rank coord p = Some r -> exists s f q, rand_sample rnd fuel n rank (iv_data (iv_init rank)) 0 (arr (4 * n) (Some 0)) p = Some (s, f, q).
Proof.
  unfold lrd_points. cbv zeta. destruct coord_copy as (c & Ec & _). rewrite Ec. cbn [bind]. destruct (rand_sample _ _ _ _ _ _ _ _) as [((s & f) & q)|]; [eauto|discriminate].
Qed.
End Points.

(** The first two different values. *)
Lemma fd_two v p l q : first_different v p l q -> v p <> v (p + 1) -> (zlen l = 0 -> q = p) /\ (zlen l = 1 -> l = [v p] /\ q = p + 1) /\ (2 <= zlen l -> exists rest, l = v p :: v (p + 1) :: rest).
Proof.
  intros H Hne. induction H as [|l q q' H IH Hq Hin Hni].
  - split; auto. split; intros Hz; zlia.
  - destruct IH as (I0 & I1 & I2). rewrite zlen_app. change (zlen [v q']) with 1. pose proof (zlen_nonneg l). split; [lia|].
    split.
    + intros Z1. assert (l = []) by (destruct l; [auto|rewrite zlen_cons in *; pose proof (zlen_nonneg l); lia]). subst l. rewrite I0 in * by reflexivity. destruct (Z.eq_dec q' p) as [->|N]; [auto|]. destruct (Hin p ltac:(lia)).
    + intros Z2. destruct (Z_lt_ge_dec 1 (zlen l)) as [G|G].
      * destruct I2 as (rest & ->); [lia|]. exists (rest ++ [v q']). reflexivity.
      * destruct I1 as (-> & ->); [lia|]. destruct (Z.eq_dec q' (p + 1)) as [->|N]; [exists []; reflexivity|]. destruct (Hin (p + 1) ltac:(lia)) as [Eq|[]]. congruence.
Qed.

Section Apply.
Context {F : num}.
Variables (n r : Z) (fwd bwd : list Z) (s : R) (Ut : mem Rring) (U : Z -> Z -> R).
Hypothesis Hn : 1 <= n.
Hypothesis Hr : 1 <= r.
Hypothesis Hs : (0 < s)%R.
Hypothesis HU : holds Ut 0 n r n U.
Hypothesis Zf : zlen fwd = n.
Hypothesis Zb : zlen bwd = n.
Hypothesis Hfb : forall p, 0 <= p < n -> 0 <= nthz fwd p < n /\ 0 <= nthz bwd p < n /\ nthz bwd (nthz fwd p) = p /\ nthz fwd (nthz bwd p) = p.

Lemma in_bound l : zlen l = n -> (forall p, 0 <= p < n -> 0 <= nthz l p < n) -> forall i, In i l -> 0 <= i < n.
Proof. intros Zl H i Hi. destruct (In_getz _ _ Hi) as (k & Hk). pose proof (getz_range _ _ _ Hk). rewrite <- (nthz_eq _ _ _ Hk). apply H. lia. Qed.

Lemma apply_spec (b x pb px w : mem Rring) (bf : Z -> R) : (forall i, 0 <= i < n -> ld b i = Some (bf i)) -> n <= zlen x -> n <= zlen pb -> n <= zlen px -> r <= zlen w ->
  exists x' pb' px' w', LRD_apply (LRDP n r s Ut fwd bwd) b x pb px w = Some (x', pb', px', w') /\ zlen x' = zlen x /\ zlen pb' = zlen pb /\ zlen px' = zlen px /\ zlen w' = zlen w /\
    (forall i, 0 <= i < n -> ld x' i = Some (S 0 n (fun c => lrd_inv r U s (nthz bwd i) c * bf (nthz fwd c))%R)) /\ (forall c, n <= c -> ld x' c = ld x c).
Proof.
  intros Hb Zx Zpb Zpx Zw. unfold LRD_apply. cbn [lp_n lp_rank lp_shift lp_Ut lp_fwd lp_bwd].
  destruct (gather_vector_spec n fwd b pb 0 0 bf n) as (pb' & E1 & Z1 & G1 & _); auto; try lia. { apply in_bound; auto. apply Hfb. }
  rewrite E1. cbn [bind].
  destruct (mcpy_spec px 0 pb' 0 n) as (px1 & E2 & Z2 & G2); try lia. all: try (change (n <= zlen pb'); exact (Z.le_trans _ _ _ Zpb (Z.eq_le_incl _ _ (eq_sym Z1)))). all: try exact Zpx.
  rwb E2.
  assert (Hp1 : forall c, 0 <= c < n -> ld pb' c = Some (bf (nthz fwd c))) by (intros c Hc; apply G1; auto).
  assert (Hx1 : forall c, 0 <= c < n -> ld px1 c = Some (bf (nthz fwd c))).
  { intros c Hc. rewrite <- Hp1 by auto. unfold ld. rewrite G2. rewrite (proj2 (Z.leb_le 0 _)), (proj2 (Z.ltb_lt _ _)) by lia. cbn [andb]. replace (0 + (c - 0)) with c by lia. reflexivity. }
  destruct (gemv_n_spec (K := Rring) r n Ut 0 n (fun c => ld pb' c) false w 0 U (fun c => bf (nthz fwd c)) (fun _ => 0%R)) as (w' & E3 & Z3 & G3 & _); auto; try lia.
  all: try exact Zw. all: try (intros i c Hi Hc; specialize (HU i c Hi Hc); rewrite Z.add_assoc in HU; exact HU).
  rwb E3. set (wv := fun k => S 0 n (fun c => U k c * bf (nthz fwd c))%R).
  assert (Hw : holds w' 0 1 r 1 (fun k _ => wv k)).
  { intros k j Hk Hj. replace (0 + (k * 1 + j)) with (0 + k) by lia. rewrite G3 by auto. f_equal. unfold wv. apply Rplus_0_l. }
  destruct (gemm_neg_upd (K := Rring) true n 1 r Ut 0 n w' 0 1 px1 0 1 (fun i j => U j i) (fun k _ => wv k) (fun i _ => bf (nthz fwd i))) as (px2 & E4 & (Z4 & G4 & _)); auto.
  { rewrite Z2. repeat split; try lia. }
  { intros i j Hi Hj. replace (0 + (i * 1 + j)) with i by lia. apply Hx1; auto. }
  rwb E4.
  assert (Ei : Rdiv_opt 1 s = Some (1 / s)%R). { unfold Rdiv_opt. destruct (Req_EM_T s 0); [lra|]. reflexivity. } rwb Ei.
  set (pv := fun i => (bf (nthz fwd i) - S 0 r (fun k => U k i * wv k))%R).
  assert (Hx2 : forall i, 0 <= i < n -> ld px2 i = Some (pv i)). { intros i Hi. specialize (G4 i 0 Hi ltac:(lia)). replace (0 + (i * 1 + 0)) with i in G4 by lia. exact G4. }
  assert (Z42 : zlen px2 = zlen px) by exact (eq_trans Z4 Z2).
  destruct (upd1 n (fun i (d : mem Rring) => v <- ld d i; st d i (v * (1 / s))%R) (fun i => pv i * (1 / s))%R (fun i => Some (pv i)) px2) as (px3 & E5 & Z5 & G5); auto; try lia.
  all: try exact (Z.le_trans _ _ _ Zpx (Z.eq_le_incl _ _ (eq_sym Z42))).
  { intros i d Hi _ Ld. cbv beta in Ld. rwb Ld. reflexivity. }
  rwb E5.
  destruct (gather_vector_spec n bwd px3 x 0 0 (fun i => pv i * (1 / s))%R n) as (x' & E6 & Z6 & G6 & O6); auto; try lia. { apply in_bound; auto. apply Hfb. }
  rwb E6. exists x', pb', px3, w'. split; [reflexivity|]. split; [exact Z6|]. split; [exact Z1|]. split; [exact (eq_trans Z5 Z42)|]. split; [exact Z3|]. split.
  - intros i Hi. specialize (G6 i Hi). rewrite Z.add_0_l in G6. refine (eq_trans G6 _). f_equal. set (q := nthz bwd i). assert (Hq : 0 <= q < n) by apply (Hfb i Hi).
    transitivity (/ s * (S 0 n (fun c => dl q c * bf (nthz fwd c)) - S 0 n (fun c => S 0 r (fun k => U k q * U k c) * bf (nthz fwd c))))%R.
    + rewrite (S_dl_l n q (fun c => bf (nthz fwd c)) Hq). unfold pv. assert (Ea : S 0 r (fun k => U k q * wv k)%R = S 0 n (fun c => S 0 r (fun k => U k q * U k c) * bf (nthz fwd c))%R) by exact (S_assoc r n (fun k => U k q) U (fun c => bf (nthz fwd c))).
      rewrite Ea. field. lra.
    + rewrite <- S_sub, <- S_mul_l. apply S_ext. intros c Hc. unfold lrd_inv, mm, tr. field. lra.
  - intros c Hc. unfold ld. rewrite O6; auto. lia.
Qed.
End Apply.
