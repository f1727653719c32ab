(** The periodic matvec: intermediate multiplication, one pair (Model_PerMv.v). *)
From Coq Require Import ZArith QArith List Lia Bool Permutation.
From Verif Require Import Base Mem Num CRing Conc Model_Utils Spec_Utils Proof_Utils Model_Dense Spec_Dense Proof_Dense Proof_Dense2 Model_Partition Spec_Tree Model_CSR Spec_CSR Model_Pairs Spec_Pairs Model_Matvec Spec_Matvec
  Model_Build Spec_Build Proof_Build Proof_BuildFill Proof_Gemv Proof_MvTree Proof_MvFwd Proof_MvMid Proof_MvBwd Model_Matmul Proof_Gemm Proof_MmFwd Proof_MmMid Proof_MmTop Proof_MmFam
  Model_Periodic Spec_Periodic Proof_PerBlock Proof_PerMid Proof_PerTop Model_JIT Proof_JitBlk Proof_JitExt Proof_JitApply Model_PerMv Proof_PerMvExt.
Import ListNotations.
Open Scope Z_scope.

Section Mid.
Context {F : num} {K : cring}.
Add Ring Kring : (cth K).
Local Open Scope ring_K.
Variable kern : list F -> list F -> Z -> Z -> K.
Variable simd : Z.
Hypothesis Hsimd : 1 <= simd.
Variable h : h2rep F K.
Hypothesis R : rep_ok h.
Hypothesis M0 : h_minlevel h = 0.
Variables (pt : Z -> list F) (js : Z -> list Z) (adm inadm : list (Z * Z)) (sB sD : Z -> Z -> F) (O : Z -> Z -> K) (c : pctx F K).
Hypothesis PO : per_ok h pt js adm inadm sB sD O c.
Notation kd := (h_kdim h).
Notation np := (h_npoint h).
Notation nth := (h_nthread h).
Variable mv : bool.

(** Position of component p of a vector, of component k of a coefficient vector of node i. *)
Definition pLy (p : Z) : Z := lay mv kd np p.
Definition ply (i k : Z) : Z := lay mv kd (rank h i / kd) k.

Lemma kd1 : 1 <= kd.
Proof. apply (ro_dims _ R). Qed.

Lemma dm_set_same {A} (m : dmat A) : dm_set_data m (dm_data m) = m.
Proof. now destruct m. Qed.

(** *** Applying one block *)
Lemma ext_block cs0 o0 ld0 n0 (P : Z -> list F) m1 n1 (Q : Z -> list F) s (xin : mem K) oi ldi (X : Z -> K) (out : mem K) oo ldo (g : Z -> K) :
  0 <= n0 -> 0 <= n1 -> (forall i, 0 <= i < n0 -> point (q_xdim c) cs0 o0 ld0 i = Some (P i)) -> shifted_points c m1 n1 Q s ->
  (forall cc, 0 <= cc < n1 * kd -> ld xin (oi + lay true kd ldi cc)%Z = Some (X cc)) ->
  0 <= oo -> n0 <= ldo -> (forall r, 0 <= r < n0 * kd -> ld out (oo + lay true kd ldo r)%Z = Some (g r)) ->
  exists out', ext_krnl_mv kern simd (q_xdim c) (q_kdim c) cs0 o0 ld0 n0 (dm_data m1) 0 (dm_ld m1) (dm_ncol m1) xin oi ldi out oo ldo = Some out' /\ zlen out' = zlen out /\
    (forall r, 0 <= r < n0 * kd -> ld out' (oo + lay true kd ldo r)%Z =
       Some (g r + rsum 0 (n1 * kd)%Z (fun cc => kern (P (r / kd)%Z) (moved (Q (cc / kd)%Z) s) (r mod kd)%Z (cc mod kd)%Z * X cc))) /\
    (forall k, (forall r, 0 <= r < n0 * kd -> k <> (oo + lay true kd ldo r)%Z) -> ld out' k = ld out k).
Proof.
  intros Hn0 Hn1 HP (_ & En & HQ) HX Ho Hl Hg. destruct (po_dims _ _ _ _ _ _ _ _ _ PO) as (P1 & P2 & P3 & _). pose proof kd1 as Hk.
  destruct (ext_krnl_mv_spec kern simd Hsimd (q_xdim c) kd cs0 o0 ld0 n0 (dm_data m1) 0 (dm_ld m1) n1 P (fun j => moved (Q j) s) xin oi ldi X out oo ldo g) as (out' & E & Z' & V' & O'); auto; try lia.
  - intros b j Hb Hj. rewrite <- (HX (j * kd + b)%Z) by nia. rewrite lay_comp by auto. reflexivity.
  - unfold fits. do 4 (split; [lia|]). intros H1 H2. specialize (Hg ((n0 - 1) * kd + (kd - 1))%Z ltac:(nia)). rewrite lay_comp in Hg by lia. apply ld_range in Hg. lia.
  - intros a i Ha Hi. rewrite <- (Hg (i * kd + a)%Z) by nia. rewrite lay_comp by auto. reflexivity.
  - rewrite P3, En. exists out'. split; auto. split; auto. split.
    + intros r Hr. destruct (comp_range kd n0 r Hk Hr) as (A & B & C). specialize (V' (r mod kd)%Z (r / kd)%Z B A). rewrite <- C in V'. exact V'.
    + intros k Hkk. unfold ld. rewrite O'; auto. intros a i Ha Hi. rewrite <- (lay_comp kd ldo i a) by auto. apply Hkk. nia.
Qed.

Lemma gemv_block (o : dmat K) m n f (x : Z -> option K) X (out : mem K) oo (g : Z -> K) : block_is o m n f -> 0 <= m -> 1 <= n ->
  (forall cc, 0 <= cc < n -> x cc = Some (X cc)) -> 0 <= oo -> (forall r, 0 <= r < m -> ld out (oo + r)%Z = Some (g r)) ->
  exists out', gemv_n (dm_nrow o) (dm_ncol o) (dm_data o) 0 (dm_ld o) x true out oo = Some out' /\ zlen out' = zlen out /\
    (forall r, 0 <= r < m -> ld out' (oo + r)%Z = Some (g r + rsum 0 n (fun cc => f r cc * X cc))) /\
    (forall k, (forall r, 0 <= r < m -> k <> (oo + r)%Z) -> ld out' k = ld out k).
Proof.
  intros (B1 & -> & -> & -> & B5) Hm Hn HX Ho Hg. destruct (Z.eq_dec m 0) as [->|Hm0].
  - unfold gemv_n. cbn [Z.eqb orb]. exists out. split; auto. split; auto. split; [intros; lia|auto].
  - destruct (gemv_n_spec m n (dm_data o) 0 n x true out oo f X g) as (out' & E & Z' & V' & O'); auto; try lia.
    + specialize (Hg (m - 1)%Z ltac:(lia)). apply ld_range in Hg. lia.
    + exists out'. split; auto. split; auto. split; [exact V'|]. intros k Hk. apply O'. intros Hin. apply (Hk (k - oo)%Z); lia.
Qed.

Variable xv : Z -> K.
Variables (y0 : list (dmat K)) (x : mem K).
Hypothesis Zy0 : zlen y0 = h_nnode h.
Hypothesis Gy0 : forall i, 0 <= i < h_nnode h -> exists m, getz y0 i = Some m /\ forall k, 0 <= k < rank h i -> ld (dm_data m) (ply i k) = Some (yhat h xv i k).
Hypothesis Hx : forall p, 0 <= p < h_kms h -> ld x (pLy p) = Some (xv p).

Definition yv_ok (y : mem K) (f : Z -> K) : Prop := forall p, 0 <= p < h_kms h -> ld y (pLy p) = Some (f p).

Lemma pLy_shift s r : pLy (kd * s + r)%Z = ((if mv then s else kd * s) + lay mv kd np r)%Z.
Proof. unfold pLy. apply lay_shift, kd1. Qed.
Lemma kms_np : h_kms h = (np * kd)%Z.
Proof. destruct (ro_dims _ R) as (_ & _ & _ & _ & E & _). lia. Qed.
Lemma pLy_inj p q : 0 <= p < h_kms h -> 0 <= q < h_kms h -> pLy p = pLy q -> p = q.
Proof. rewrite kms_np. intros H1 H2. apply lay_inj; auto. apply kd1. Qed.
Lemma ply_eq n r : 0 <= n < h_nnode h -> ply n r = lay mv kd (zlen (js n)) r /\ rank h n = (zlen (js n) * kd)%Z.
Proof.
  intros Hn. destruct (po_js _ _ _ _ _ _ _ _ _ PO n Hn) as (EJ & _). pose proof kd1. unfold ply. rewrite EJ, (Z.mul_comm kd), Z.div_mul by lia. auto.
Qed.

(** Values put at the places of the rows of a node. *)
Lemma yv_update (y y' : mem K) f n0 (v : Z -> K) : 0 <= n0 < h_nnode h -> yv_ok y f ->
  (forall r, 0 <= r < msize h n0 -> ld y' (pLy (mfirst h n0 + r)%Z) = Some (f (mfirst h n0 + r)%Z + v r)) ->
  (forall k, (forall r, 0 <= r < msize h n0 -> k <> pLy (mfirst h n0 + r)%Z) -> ld y' k = ld y k) ->
  yv_ok y' (fun p => f p + (if inside h n0 p then v (p - mfirst h n0)%Z else c0)).
Proof.
  intros Hn Hy Hv Ho p Hp. destruct (cluster_range h R n0 Hn) as (C1 & C2 & C3).
  destruct (inside h n0 p) eqn:Hi.
  - assert (Hr : (0 <= p - mfirst h n0 < msize h n0)%Z) by (unfold inside, msize in *; lia).
    specialize (Hv (p - mfirst h n0)%Z Hr). replace (mfirst h n0 + (p - mfirst h n0))%Z with p in Hv by lia. exact Hv.
  - rewrite Ho; [rewrite (Hy p Hp); f_equal; ring|]. intros r Hr E. apply pLy_inj in E; try lia. subst p. unfold inside, msize in *. lia.
Qed.

Notation fm := (bfam kern h pt js adm sB).
Definition vterm (n0 k p : Z) : K := term h fm (fun q _ => xv q) n0 k p 0.
Definition ntot (n0 : Z) (f g : Z -> K) (p : Z) : K := f p + rsum 0 (rank h n0) (fun r => basis h n0 p r * g r).
Definition wv (n0 k r : Z) : K := rsum 0 (fm_nc fm k) (fun cc => fm_bv fm k r cc * sidex h xv (second adm k) n0 cc).

Lemma tot_basis n0 k f g p : In k (fm_ents fm n0) -> level h (second adm k) <= level h n0 ->
  ntot n0 f (fun r => g r + wv n0 k r) p = ntot n0 f g p + vterm n0 k p.
Proof.
  intros Hk Hle. pose proof (bfam_in kern h pt js adm sB n0 k Hk) as Ek. unfold ntot, vterm, term. cbn [fm_nr fm_part bfam]. unfold first. rewrite Ek.
  unfold side_size. rewrite (proj2 (Z.leb_le _ _)) by lia.
  rewrite (rsum_ext 0 (rank h n0) _ (fun r => basis h n0 p r * g r + side h n0 (second adm k) r p * wval h fm (fun q _ => xv q) n0 k r 0)).
  2:{ intros r Hr. unfold side. rewrite (proj2 (Z.leb_le _ _)) by lia. change (wval h fm (fun q _ => xv q) n0 k r 0) with (wv n0 k r). ring. }
  rewrite rsum_add. ring.
Qed.
Lemma tot_rows n0 k f g p : In k (fm_ents fm n0) -> 0 <= n0 < h_nnode h -> level h n0 < level h (second adm k) -> 0 <= p < h_kms h ->
  ntot n0 (fun p => f p + (if inside h n0 p then wv n0 k (p - mfirst h n0)%Z else c0)) g p = ntot n0 f g p + vterm n0 k p.
Proof.
  intros Hk Hn Hlt Hp. pose proof (bfam_in kern h pt js adm sB n0 k Hk) as Ek. unfold ntot, vterm, term. cbn [fm_nr fm_part bfam]. unfold first. rewrite Ek.
  unfold side_size. rewrite (proj2 (Z.leb_gt _ _)) by lia.
  assert (Hsd : forall r, side h n0 (second adm k) r p = if p =? (mfirst h n0 + r)%Z then c1 else c0).
  { intros r. unfold side. now rewrite (proj2 (Z.leb_gt _ _)) by lia. }
  replace (if inside h n0 p then wv n0 k (p - mfirst h n0)%Z else c0) with (rsum 0 (msize h n0) (fun r => side h n0 (second adm k) r p * wval h fm (fun q _ => xv q) n0 k r 0)); [ring|].
  destruct (inside h n0 p) eqn:Hi.
  - assert (Hr : (0 <= p - mfirst h n0 < msize h n0)%Z) by (unfold inside, msize in *; lia).
    rewrite (rsum_only 0 (msize h n0) _ (p - mfirst h n0)%Z Hr).
    + rewrite Hsd. replace (mfirst h n0 + (p - mfirst h n0))%Z with p by lia. rewrite Z.eqb_refl. change (wval h fm (fun q _ => xv q) n0 k (p - mfirst h n0) 0) with (wv n0 k (p - mfirst h n0)). ring.
    + intros r Hr' Hne. rewrite Hsd. destruct (Z.eqb_spec p (mfirst h n0 + r)%Z); [lia|ring].
  - apply rsum_zero. intros r Hr. rewrite Hsd. destruct (Z.eqb_spec p (mfirst h n0 + r)%Z); [|ring]. unfold inside, msize in *. lia.
Qed.

Lemma fm_sizes n0 k : In k (fm_ents fm n0) -> fm_nr fm k = side_size h n0 (second adm k) /\ fm_nc fm k = side_size h (second adm k) n0 /\
  forall r cc, fm_bv fm k r cc = kshift kern h pt (sB k) (block_row h js n0 (second adm k) r) (block_row h js (second adm k) n0 cc).
Proof. intros Hk. pose proof (bfam_in kern h pt js adm sB n0 k Hk) as Ek. cbn. unfold first. now rewrite Ek. Qed.

(** Source of a block: the coefficients of the node or its part of the vector. *)
Lemma src_y0 n0 k : 0 <= second adm k < h_nnode h -> In k (fm_ents fm n0) -> level h n0 <= level h (second adm k) -> exists m, getz y0 (second adm k) = Some m /\
  forall cc, 0 <= cc < fm_nc fm k -> ld (dm_data m) (lay mv kd (zlen (js (second adm k))) cc) = Some (sidex h xv (second adm k) n0 cc).
Proof.
  intros Hn Hk Hle. destruct (Gy0 _ Hn) as (m & Em & Vm). exists m. split; auto. intros cc Hc. rewrite (proj1 (proj2 (fm_sizes n0 k Hk))) in Hc.
  unfold side_size in Hc. rewrite (proj2 (Z.leb_le _ _)) in Hc by lia. rewrite sidex_comp by lia. rewrite <- (proj1 (ply_eq _ cc Hn)). auto.
Qed.
Lemma src_x n0 k : 0 <= second adm k < h_nnode h -> In k (fm_ents fm n0) -> level h (second adm k) < level h n0 ->
  forall cc, 0 <= cc < fm_nc fm k -> ld x (pLy (mfirst h (second adm k) + cc)%Z) = Some (sidex h xv (second adm k) n0 cc).
Proof.
  intros Hn Hk Hlt cc Hc. rewrite (proj1 (proj2 (fm_sizes n0 k Hk))) in Hc. unfold side_size in Hc. rewrite (proj2 (Z.leb_gt _ _)) in Hc by lia.
  destruct (cluster_range h R _ Hn) as (C1 & C2 & C3). rewrite sidex_own by lia. apply Hx. lia.
Qed.

Lemma pv_mid_pair_spec n0 k i (bij y10 : dmat K) (m1 : dmat F) y f g :
  0 <= n0 < h_nnode h -> In k (fm_ents fm n0) -> ld (bm_colidx (q_bm c)) i = Some (second adm k) -> ld (bm_val (q_bm c)) i = Some (0 + k + 1)%Z ->
  dm_ok bij -> dm_ok m1 -> (forall r, 0 <= r < rank h n0 -> ld (dm_data y10) (ply n0 r) = Some (g r)) -> yv_ok y f ->
  exists bij' m1' d y' f' g', pv_mid_pair kern simd mv h c y0 x n0 i (bij, m1, y10, y) = Some (bij', m1', dm_set_data y10 d, y') /\
    dm_ok bij' /\ dm_ok m1' /\ zlen d = zlen (dm_data y10) /\ (forall r, 0 <= r < rank h n0 -> ld d (ply n0 r) = Some (g' r)) /\
    zlen y' = zlen y /\ yv_ok y' f' /\ forall p, 0 <= p < h_kms h -> ntot n0 f' g' p = ntot n0 f g p + vterm n0 k p.
Proof.
  intros Hn0 Hk Ec Ev Hb Hm Hg Hy. pose proof (bfam_in kern h pt js adm sB n0 k Hk) as Ek. destruct (fm_sizes n0 k Hk) as (Fr & Fc & Fb).
  pose proof (src_y0 n0 k) as Sy. pose proof (src_x n0 k) as Sx. pose proof (tot_basis n0 k f g) as Tb. pose proof (tot_rows n0 k f g) as Tr. unfold wv in Tb, Tr. rewrite Fc in Sx, Sy, Tb, Tr.
  set (n1 := second adm k) in *.
  destruct (po_adm _ _ _ _ _ _ _ _ _ PO k n0 n1 Ek) as (_ & Hn1 & Er & Ecc & Hs & Hz). pose proof kd1 as Hk1.
  specialize (Sy Hn1 Hk). specialize (Sx Hn1 Hk).
  destruct (po_dims _ _ _ _ _ _ _ _ _ PO) as (P1 & P2 & P3 & P4 & P5 & P6).
  destruct (cluster_at h R pt js adm inadm sB sD O c PO n0 Hn0) as (s0 & e0 & Es0 & Ee0 & B1 & B2 & B3 & B4 & B5).
  destruct (cluster_at h R pt js adm inadm sB sD O c PO n1 Hn1) as (s1 & e1 & Es1 & Ee1 & C1 & C2 & C3 & C4 & C5).
  destruct (side_points h R M0 pt js adm inadm sB sD O c PO n0 n1 Hn0) as (k0 & K1 & K2 & K3 & K4).
  destruct (side_points h R M0 pt js adm inadm sB sD O c PO n1 n0 Hn1) as (k1 & L1 & L2 & L3 & L4).
  unfold pv_mid_pair. rewrite Ec, Ev. cbn [bind]. cbv zeta. replace (0 + k + 1 - 1)%Z with k by lia. rewrite !(ld_level h R) by auto. cbn [bind].
  destruct (getz_in y0 n1 ltac:(lia)) as [y01 Ey]. rewrite Ey. cbn [bind].
  assert (Sy' : level h n0 <= level h n1 -> forall cc, 0 <= cc < side_size h n1 n0 -> ld (dm_data y01) (lay mv kd k1 cc) = Some (sidex h xv n1 n0 cc)).
  { intros Hle. destruct (Sy Hle) as (m & Em & Vm). replace m with y01 in * by congruence. rewrite L4, (proj2 (Z.leb_le _ _)) by lia. auto. }
  assert (Hg' : level h n1 <= level h n0 -> forall r, 0 <= r < side_size h n0 n1 -> ld (dm_data y10) (lay mv kd k0 r) = Some (g r)).
  { intros Hle r Hr. rewrite K4, (proj2 (Z.leb_le _ _)) by lia. rewrite <- (proj1 (ply_eq n0 r Hn0)). apply Hg. unfold side_size in Hr. rewrite (proj2 (Z.leb_le _ _)) in Hr by lia. auto. }
  assert (Gout : forall d, level h n1 <= level h n0 -> (forall r, 0 <= r < side_size h n0 n1 -> ld d (lay mv kd k0 r) = Some (g r + rsum 0 (side_size h n1 n0) (fun cc => fm_bv fm k r cc * sidex h xv n1 n0 cc))) ->
    forall r, 0 <= r < rank h n0 -> ld d (ply n0 r) = Some (g r + rsum 0 (side_size h n1 n0) (fun cc => fm_bv fm k r cc * sidex h xv n1 n0 cc))).
  { intros d Hle Hd r Hr. rewrite (proj1 (ply_eq n0 r Hn0)). rewrite <- Hd. 2:{ unfold side_size. now rewrite (proj2 (Z.leb_le _ _)) by lia. } rewrite K4, (proj2 (Z.leb_le _ _)) by lia. reflexivity. }
  assert (Ym : forall r, (kd * s0 + r)%Z = (mfirst h n0 + r)%Z) by (intros; lia).
  destruct mv eqn:Emv.
  - destruct (shift_fill (q_dim c) (fun d => ld (q_shB c) (k * q_dim c + d)) (sB k)) as (sh & Esh & Vsh); [lia|auto|auto|].
    unfold get_shift. rewrite Esh. cbn [bind]. rewrite Er, Ecc. cbn [bind]. rewrite !P3, K3, L3.
    destruct (Z.eqb_spec (level h n0) (level h n1)) as [Hle|Hne]; [|destruct (Z.ltb_spec (level h n1) (level h n0)) as [Hlt|Hge]].
    + destruct (skeleton_shifted_spec h pt js adm inadm sB sD O c PO n1 sh (sB k) m1 Hn1 Hm Vsh) as (m' & Em' & Sp). rewrite Em'. cbn [bind].
      destruct (getz_in (q_Jc c) n0) as [j0 Ej0]; [rewrite (proj1 (po_Jc _ _ _ _ _ _ _ _ _ PO)); lia|]. rewrite Ej0. cbn [bind].
      pose proof (proj2 (po_Jc _ _ _ _ _ _ _ _ _ PO) n0 j0 Ej0) as (_ & _ & Nj & _). rewrite Nj.
      rewrite (proj2 (Z.leb_le (level h n1) _)) in K4 by lia. rewrite (proj2 (Z.leb_le (level h n0) _)) in L4 by lia. rewrite <- P3.
      destruct (ext_block (dm_data j0) 0 (dm_ld j0) (zlen (js n0)) (fun i => pt (nthz (js n0) i)) m' (zlen (js n1)) (fun j => pt (nthz (js n1) j)) (sB k) (dm_data y01) 0 k1 (sidex h xv n1 n0) (dm_data y10) 0 k0 g)
        as (d & Ed & Zd & Vd & Od); auto; try lia.
      * intros i' Hi'. eapply skel_ok; eauto.
      * intros cc Hcc. rewrite Z.add_0_l. apply Sy'; lia.
      * intros r Hr. rewrite Z.add_0_l. apply Hg'; lia.
      * match goal with |- context [bind ?t _] => replace t with (Some d) by (symmetry; exact Ed) end. cbn [bind].
        eexists bij, m', d, y, f, _. split; [reflexivity|]. split; auto. split; [apply Sp|]. split; auto. split.
        { apply Gout; [lia|]. intros r Hr. rewrite <- (Z.add_0_l (lay true kd k0 r)), Vd by lia. f_equal. f_equal. rewrite L1, L4. apply rsum_ext. intros cc Hcc. f_equal. rewrite Fb.
          rewrite <- (moved_kshift kern h R pt js (sB k) n0 n1 r cc Hn0 Hn1). unfold bpoint. rewrite !(proj2 (Z.leb_le _ _)) by lia. reflexivity. }
        split; auto. split; auto. intros p Hp. apply Tb; auto. lia.
    + rewrite Es1. cbn [bind].
      destruct (cluster_shifted_spec h R pt js adm inadm sB sD O c PO n1 sh (sB k) m1 Hn1 Hm Vsh) as (m' & Em' & Sp). rewrite Em'. cbn [bind].
      destruct (getz_in (q_Jc c) n0) as [j0 Ej0]; [rewrite (proj1 (po_Jc _ _ _ _ _ _ _ _ _ PO)); lia|]. rewrite Ej0. cbn [bind].
      pose proof (proj2 (po_Jc _ _ _ _ _ _ _ _ _ PO) n0 j0 Ej0) as (_ & _ & Nj & _). rewrite Nj.
      rewrite (proj2 (Z.leb_le (level h n1) _)) in K4 by lia. rewrite (proj2 (Z.leb_gt (level h n0) _)) in L4 by lia. rewrite P4, <- P3.
      destruct (ext_block (dm_data j0) 0 (dm_ld j0) (zlen (js n0)) (fun i => pt (nthz (js n0) i)) m' (msize h n1 / kd)%Z (fun j => pt (mfirst h n1 / kd + j)%Z) (sB k) x s1 np (sidex h xv n1 n0) (dm_data y10) 0 k0 g)
        as (d & Ed & Zd & Vd & Od); auto; try lia.
      * intros i' Hi'. eapply skel_ok; eauto.
      * intros cc Hcc. rewrite <- Sx by lia. f_equal. rewrite C5, pLy_shift, Emv. reflexivity.
      * intros r Hr. rewrite Z.add_0_l. apply Hg'; lia.
      * match goal with |- context [bind ?t _] => replace t with (Some d) by (symmetry; exact Ed) end. cbn [bind].
        eexists bij, m', d, y, f, _. split; [reflexivity|]. split; auto. split; [apply Sp|]. split; auto. split.
        { apply Gout; [lia|]. intros r Hr. rewrite <- (Z.add_0_l (lay true kd k0 r)), Vd by lia. f_equal. f_equal. rewrite L1, L4. apply rsum_ext. intros cc Hcc. f_equal. rewrite Fb.
          rewrite <- (moved_kshift kern h R pt js (sB k) n0 n1 r cc Hn0 Hn1). unfold bpoint. rewrite (proj2 (Z.leb_le (level h n1) _)), (proj2 (Z.leb_gt (level h n0) _)) by lia. reflexivity. }
        split; auto. split; auto. intros p Hp. apply Tb; auto. lia.
    + rewrite Es0, Ee0. cbn [bind].
      destruct (skeleton_shifted_spec h pt js adm inadm sB sD O c PO n1 sh (sB k) m1 Hn1 Hm Vsh) as (m' & Em' & Sp). rewrite Em'. cbn [bind].
      rewrite (proj2 (Z.leb_gt (level h n1) _)) in K4 by lia. rewrite (proj2 (Z.leb_le (level h n0) _)) in L4 by lia. rewrite P4, <- P3.
      assert (Sw : side_size h n0 n1 = msize h n0) by (unfold side_size; rewrite (proj2 (Z.leb_gt (level h n1) _)) by lia; reflexivity).
      destruct (ext_block (q_coord c) s0 (q_npoint c) (e0 - s0 + 1)%Z (fun i => pt (s0 + i)%Z) m' (zlen (js n1)) (fun j => pt (nthz (js n1) j)) (sB k) (dm_data y01) 0 k1 (sidex h xv n1 n0) y s0 np (fun r => f (mfirst h n0 + r)%Z))
        as (d & Ed & Zd & Vd & Od); auto; try lia.
      * intros i' Hi'. eapply point_np; eauto. lia.
      * intros cc Hcc. rewrite Z.add_0_l. apply Sy'; lia.
      * intros r Hr. rewrite <- (Hy (mfirst h n0 + r)%Z) by (destruct (cluster_range h R n0 Hn0); lia). f_equal. rewrite B5, pLy_shift, Emv. reflexivity.
      * rewrite P4 in Ed. match goal with |- context [bind ?t _] => replace t with (Some d) by (symmetry; exact Ed) end. cbn [bind].
        eexists bij, m', (dm_data y10), d, _, g. split; [rewrite dm_set_same; reflexivity|]. split; auto. split; [apply Sp|]. split; auto. split; auto. split; auto. split.
        { apply (yv_update y d f n0 (fun r => rsum 0 (side_size h n1 n0) (fun cc => fm_bv fm k r cc * sidex h xv n1 n0 cc))); auto.
          - intros r Hr. rewrite B5, pLy_shift, Emv, Vd by lia. rewrite B5. f_equal. f_equal. rewrite L1, L4. apply rsum_ext. intros cc Hcc. f_equal. rewrite Fb.
            rewrite <- (moved_kshift kern h R pt js (sB k) n0 n1 r cc Hn0 Hn1). unfold bpoint. rewrite (proj2 (Z.leb_le (level h n0) _)), (proj2 (Z.leb_gt (level h n1) _)), B3 by lia. reflexivity.
          - intros k' Hk'. apply Od. intros r Hr. specialize (Hk' r ltac:(lia)). rewrite B5, pLy_shift, Emv in Hk'. exact Hk'. }
        intros p Hp. apply Tr; auto. lia.
  - destruct (per_B_block_spec kern h R M0 pt js adm inadm sB sD O c PO k n0 n1 bij m1 Ek Hb Hm) as (bij' & m1' & Eb & Hm1 & Blk). rewrite Eb. cbn [bind]. cbv zeta.
    rewrite (ld_mfirst h R n1 Hn1), (ld_mfirst h R n0 Hn0). cbn [bind].
    assert (Ob : dm_ok bij') by apply Blk.
    destruct (Z.eqb_spec (level h n0) (level h n1)) as [Hle|Hne]; [|destruct (Z.ltb_spec (level h n1) (level h n0)) as [Hlt|Hge]].
    + destruct (gemv_block bij' (side_size h n0 n1) (side_size h n1 n0) _ (fun k => ld (dm_data y01) k) (sidex h xv n1 n0) (dm_data y10) 0 g Blk) as (d & Ed & Zd & Vd & Od); try lia.
      * intros cc Hcc. apply (Sy' ltac:(lia) cc). lia.
      * intros r Hr. rewrite Z.add_0_l. apply Hg'; lia.
      * rewrite Ed. cbn [bind]. eexists bij', m1', d, y, f, _. split; [reflexivity|]. do 3 (split; [auto|]). split.
        { apply Gout; [lia|]. intros r Hr. change (lay false kd k0 r) with (0 + r)%Z. rewrite Vd by lia. f_equal. f_equal. apply rsum_ext. intros cc Hcc. now rewrite Fb. }
        split; auto. split; auto. intros p Hp. apply Tb; auto. lia.
    + destruct (gemv_block bij' (side_size h n0 n1) (side_size h n1 n0) _ (fun k => ld x (mfirst h n1 + k)%Z) (sidex h xv n1 n0) (dm_data y10) 0 g Blk) as (d & Ed & Zd & Vd & Od); try lia.
      * intros cc Hcc. rewrite <- Sx by lia. unfold pLy. now rewrite Emv.
      * intros r Hr. rewrite Z.add_0_l. apply Hg'; lia.
      * rewrite Ed. cbn [bind]. eexists bij', m1', d, y, f, _. split; [reflexivity|]. do 3 (split; [auto|]). split.
        { apply Gout; [lia|]. intros r Hr. change (lay false kd k0 r) with (0 + r)%Z. rewrite Vd by lia. f_equal. f_equal. apply rsum_ext. intros cc Hcc. now rewrite Fb. }
        split; auto. split; auto. intros p Hp. apply Tb; auto. lia.
    + assert (Sw : side_size h n0 n1 = msize h n0) by (unfold side_size; rewrite (proj2 (Z.leb_gt (level h n1) _)) by lia; reflexivity).
      destruct (gemv_block bij' (side_size h n0 n1) (side_size h n1 n0) _ (fun k => ld (dm_data y01) k) (sidex h xv n1 n0) y (mfirst h n0) (fun r => f (mfirst h n0 + r)%Z) Blk) as (d & Ed & Zd & Vd & Od); try lia.
      * intros cc Hcc. apply (Sy' ltac:(lia) cc). lia.
      * intros r Hr. rewrite <- (Hy (mfirst h n0 + r)%Z) by (destruct (cluster_range h R n0 Hn0); lia). unfold pLy. now rewrite Emv.
      * rewrite Ed. cbn [bind]. eexists bij', m1', (dm_data y10), d, _, g. split; [rewrite dm_set_same; reflexivity|]. do 5 (split; [auto|]). split.
        { apply (yv_update y d f n0 (fun r => rsum 0 (side_size h n1 n0) (fun cc => fm_bv fm k r cc * sidex h xv n1 n0 cc))); auto.
          - intros r Hr. unfold pLy. rewrite Emv. change (lay false kd np (mfirst h n0 + r)) with (mfirst h n0 + r)%Z. rewrite Vd by lia. f_equal. f_equal. apply rsum_ext. intros cc Hcc. now rewrite Fb.
          - intros k' Hk'. apply Od. intros r Hr. specialize (Hk' r ltac:(lia)). unfold pLy in Hk'. rewrite Emv in Hk'. exact Hk'. }
        intros p Hp. apply Tr; auto. lia.
Qed.
End Mid.
