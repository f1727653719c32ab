(** The just-in-time intermediate multiplication (Model_JIT.v). *)
From Coq Require Import ZArith List Lia Bool Permutation.
From Verif Require Import Base Mem Num CRing Conc Model_Utils Spec_Utils Proof_Utils Model_Dense Spec_Dense Proof_Dense2 Model_Partition Spec_Tree Model_Matvec Spec_Matvec Proof_Gemv Proof_MvTree Proof_MvFwd Proof_MvMid Proof_MvBwd Proof_MvTop Model_Build Model_JIT Proof_JitBlk Proof_JitExt Proof_JitApply.
Import ListNotations.
Open Scope Z_scope.

Section JMid.
Context {F : num} {K : cring}.
Add Ring Kring : (cth K).
Local Open Scope ring_K.
Variable kern : list F -> list F -> Z -> Z -> K.
Variables (simd esz : Z) (h : h2rep F K) (c : jctx F).
Notation kd := (h_kdim h).
Notation b := (jx_bimv c).
Notation nth := (h_nthread h).

(** First point and number of points of a node. *)
Definition pfirst (n : Z) : Z := val 0 (ld (a_cluster (h_t h)) (n * 2)).
Definition psize (n : Z) : Z := (val 0 (ld (a_cluster (h_t h)) (n * 2 + 1)) - pfirst n + 1)%Z.

(** [CP i] is the i-th point, [SP n i] the i-th skeleton point of node n; the
    (virtual) blocks of h are the kernel on them. *)
Definition spt (CP : Z -> list F) (SP : Z -> Z -> list F) (n m i : Z) : list F :=
  if level h m <=? level h n then SP n i else CP (pfirst n + i)%Z.
Record jit_data (CP : Z -> list F) (SP : Z -> Z -> list F) : Prop := {
  jd_dim : 0 <= jx_dim c /\ 1 <= simd /\ 1 <= esz;
  jd_coord : forall i, 0 <= i < h_npoint h -> point (jx_dim c) (jx_coord c) 0 (h_npoint h) i = Some (CP i);
  jd_skel : forall n, 0 <= n < h_nnode h -> h_minlevel h <= level h n -> exists j, getz (jx_Jc c) n = Some j /\
    rank h n = (dm_ncol j * kd)%Z /\ forall i, 0 <= i < dm_ncol j -> point (jx_dim c) (dm_data j) 0 (dm_ncol j) i = Some (SP n i);
  jd_B : forall k n0 n1, getz (h_adm h) k = Some (n0, n1) -> forall r q, 0 <= r < Bnrow h k -> 0 <= q < Bncol h k ->
    Bval h k r q = kval kern kd (spt CP SP n0 n1) (spt CP SP n1 n0) r q;
  jd_D0 : forall k, 0 <= k < h_nleaf h -> forall r q, 0 <= r < msize h (leaf h k) -> 0 <= q < msize h (leaf h k) ->
    Dval h k r q = kval kern kd (fun i => CP (pfirst (leaf h k) + i)%Z) (fun i => CP (pfirst (leaf h k) + i)%Z) r q;
  jd_D : forall k n0 n1, getz (h_inadm h) k = Some (n0, n1) -> forall r q, 0 <= r < msize h n0 -> 0 <= q < msize h n1 ->
    Dval h (h_nleaf h + k) r q = kval kern kd (fun i => CP (pfirst n0 + i)%Z) (fun i => CP (pfirst n1 + i)%Z) r q;
  (* the blocked evaluation can take at least one point at a time *)
  jd_fitB : b = false -> forall k, 0 <= k < zlen (h_adm h) -> 1 <= 131072 / (esz * Bncol h k) / kd;
  jd_fitD : b = false -> forall k, 0 <= k < h_nleaf h + zlen (h_inadm h) -> 1 <= 131072 / (esz * Dncol h k) / kd
}.

Hypothesis R : rep_ok h.
Variables (CP : Z -> list F) (SP : Z -> Z -> list F).
Hypothesis J : jit_data CP SP.

Lemma kd_pos : 1 <= kd.
Proof. apply (ro_dims _ R). Qed.
Lemma kms_pts : h_kms h = (h_npoint h * kd)%Z.
Proof. destruct (ro_dims _ R) as (_ & _ & _ & _ & E & _). lia. Qed.

Lemma pt_side_spec n : 0 <= n < h_nnode h -> pt_side h c n = Some (jx_coord c, pfirst n, h_npoint h, psize n) /\
  mfirst h n = (kd * pfirst n)%Z /\ msize h n = (psize n * kd)%Z /\ 0 <= pfirst n /\ 1 <= psize n /\ pfirst n + psize n <= h_npoint h /\
  forall i, 0 <= i < psize n -> point (jx_dim c) (jx_coord c) (pfirst n) (h_npoint h) i = Some (CP (pfirst n + i)%Z).
Proof.
  intros Hn. destruct (node_at h R n Hn) as (s & e & hh & (D1 & D2 & _) & H1 & H2 & _ & _ & M1 & M2 & _).
  rewrite Z.add_0_r in D1.
  assert (Ef : pfirst n = s) by (unfold pfirst; now rewrite D1).
  assert (Es : psize n = (e - s + 1)%Z) by (unfold psize; rewrite Ef, D2; reflexivity).
  unfold pt_side. rewrite D1, D2. cbn [bind]. rewrite Es, Ef. split; auto. split; auto. split; [unfold msize; rewrite M1, M2; lia|].
  do 3 (split; [lia|]). intros i Hi. rewrite <- (jd_coord _ _ J (s + i)%Z) by lia. unfold point. f_equal. apply map_ext. intros d. f_equal. lia.
Qed.

Definition Ly (p : Z) : Z := lay b kd (h_npoint h) p.
Definition ly (i k : Z) : Z := lay b kd (rank h i / kd) k.
Lemma rank_pts i : 0 <= i < h_nnode h -> h_minlevel h <= level h i -> exists n, 0 <= n /\ rank h i = (n * kd)%Z /\ (rank h i / kd = n)%Z.
Proof.
  intros Hi Hl. destruct (jd_skel _ _ J i Hi Hl) as (j & _ & E & _). exists (dm_ncol j). pose proof kd_pos. pose proof (rank_nonneg h R i Hi).
  split; [nia|]. split; auto. rewrite E. apply Z.div_mul. lia.
Qed.
Lemma ly_range i k : 0 <= i < h_nnode h -> h_minlevel h <= level h i -> 0 <= k < rank h i -> 0 <= ly i k < rank h i.
Proof.
  intros Hi Hl Hk. destruct (rank_pts i Hi Hl) as (n & Hn & E & Ed). unfold ly. rewrite Ed, E in *. apply lay_range; auto. apply kd_pos.
Qed.
Lemma ly_inj i k k' : 0 <= i < h_nnode h -> h_minlevel h <= level h i -> 0 <= k < rank h i -> 0 <= k' < rank h i -> ly i k = ly i k' -> k = k'.
Proof.
  intros Hi Hl Hk Hk' E. destruct (rank_pts i Hi Hl) as (n & Hn & Er & Ed). unfold ly in E. rewrite Ed, Er in *. apply (lay_inj b kd n); auto. apply kd_pos.
Qed.
Lemma Ly_range p : 0 <= p < h_kms h -> 0 <= Ly p < h_kms h.
Proof. rewrite kms_pts. intros H. apply lay_range; auto. apply kd_pos. Qed.
Lemma Ly_inj p q : 0 <= p < h_kms h -> 0 <= q < h_kms h -> Ly p = Ly q -> p = q.
Proof. rewrite kms_pts. intros H H'. apply lay_inj; auto. apply kd_pos. Qed.

Definition jtot (p : Z) (s : mvst K) : K :=
  match s_y1 s with
  | Some y1 => tysum h (s_ty s) (Ly p) + rsum 0 (h_nnode h) (fun i => rsum 0 (rank h i) (fun k =>
                 basis h i p k * rsum 0 nth (fun tid => y1val y1 i (tid * rank h i + ly i k)%Z)))
  | None => c0
  end.

Section Events.
Variable y0 : list (dmat K).
Variable x : mem K.
Variable xv : Z -> K.
Hypothesis Hy0 : forall i, 0 <= i < h_nnode h -> h_minlevel h <= level h i ->
  exists m, getz y0 i = Some m /\ forall k, 0 <= k < rank h i -> ld (dm_data m) (ly i k) = Some (yhat h xv i k).
Hypothesis Hx : forall p, 0 <= p < h_kms h -> ld x (Ly p) = Some (xv p).
Variable s0 : mvst K.

Definition jmid_ok (s : mvst K) : Prop :=
  s_y0 s = Some y0 /\ s_px s = s_px s0 /\ m0_ok h (s_m0 s) /\ s_py s = s_py s0 /\ s_yT s = s_yT s0 /\ ty_ok h (s_ty s) /\
  exists y1, s_y1 s = Some y1 /\ zlen y1 = h_nnode h /\ Forall mok y1 /\
    (forall i, 0 <= i < h_nnode h -> wide h y1 i) /\
    forall k n0 n1, getz (h_adm h) k = Some (n0, n1) -> forall i, (i = n0 \/ i = n1) -> h_minlevel h <= level h i -> active y1 i.
Notation D := (fun p => 0 <= p < h_kms h).

Lemma jadd_y1_spec node tid k v s : jmid_ok s -> 0 <= node < h_nnode h -> 0 <= tid < nth -> 0 <= k < rank h node -> h_minlevel h <= level h node ->
  (exists q n0 n1, getz (h_adm h) q = Some (n0, n1) /\ (node = n0 \/ node = n1)) ->
  exists s', add_y1 node (tid * rank h node) (ly node k) v s = Some s' /\ jmid_ok s' /\
    forall p, D p -> jtot p s' = jtot p s + basis h node p k * v.
Proof.
  intros (A1 & A2 & A3 & A4 & A5 & A6 & y1 & E1 & Z1 & F1 & W1 & Act) Hn Ht Hc Hl (q & n0 & n1 & Hq & Hor).
  destruct (Act q n0 n1 Hq node Hor Hl) as (m & Em & Hld). destruct (W1 node Hn) as (m' & Em' & [Hw|(W2 & W3 & W4 & W5 & W6)]).
  { congruence. }
  replace m' with m in * by congruence.
  pose proof (ly_range node k Hn Hl Hc) as Rl.
  assert (Rk : 0 <= tid * rank h node + ly node k < nth * rank h node) by nia.
  destruct (W6 _ Rk) as (cv & Hcv).
  destruct (madd_spec (dm_data m) (tid * rank h node + ly node k)%Z v cv Hcv) as (d & Ed & Zd & Gd).
  unfold add_y1. rewrite E1. cbn [bind]. rewrite Em. cbn [bind]. rewrite Ed. cbn [bind].
  destruct (setz_Some y1 node (dm_set_data m d)) as [y1' Es]; [lia|]. rewrite Es. cbn [bind].
  eexists. split; [reflexivity|].
  assert (Gv : forall i j, y1val y1' i j = if (i =? node) && (j =? tid * rank h node + ly node k) then y1val y1 i j + v else y1val y1 i j).
  { intros i j. unfold y1val. rewrite (getz_setz _ _ _ _ _ Es). destruct (Z.eqb_spec node i).
    - subst i. rewrite Em, Z.eqb_refl. cbn [dm_set_data dm_ld dm_data andb]. destruct (Z.eqb_spec (dm_ld m) 0); [contradiction|].
      rewrite Gd. destruct (Z.eqb_spec (tid * rank h node + ly node k) j); destruct (Z.eqb_spec j (tid * rank h node + ly node k)); subst; try lia; auto.
      rewrite Hcv. reflexivity.
    - destruct (Z.eqb_spec i node); [congruence|]. cbn [andb]. auto. }
  assert (Hact : forall i, active y1 i -> active y1' i).
  { intros i (mi & Emi & Hmi). unfold active. rewrite (getz_setz _ _ _ _ _ Es). destruct (Z.eqb_spec node i).
    - subst i. eexists; split; [reflexivity|]. auto.
    - eauto. }
  split.
  - do 6 (split; [solve [auto]|]). exists y1'. split; auto. split; [rewrite (setz_zlen _ _ _ _ Es); auto|]. split.
    { eapply (Forall_setz _ _ _ _ _ F1); [|exact Es]. apply mok_set_data; auto. eapply Forall_getz; eauto. }
    split.
    + intros i Hi. unfold wide. rewrite (getz_setz _ _ _ _ _ Es). destruct (Z.eqb_spec node i).
      * subst i. eexists; split; [reflexivity|]. right. cbn. rewrite Zd. repeat (split; auto).
        intros j Hj. rewrite Gd. destruct (Z.eqb_spec (tid * rank h node + ly node k) j); eauto.
      * apply W1; auto.
    + intros j m0 m1 Hj i Hi Hli. apply Hact. eapply Act; eauto.
  - intros p Hp. unfold jtot. cbn [s_y1 set_y1 s_ty]. rewrite E1.
    rewrite (rsum_upd 0 (h_nnode h) (fun i => rsum 0 (rank h i) (fun k => basis h i p k * rsum 0 nth (fun tid => y1val y1 i (tid * rank h i + ly i k)))) _ node (basis h node p k * v)); [ring|auto| |].
    + rewrite (rsum_upd 0 (rank h node) (fun k => basis h node p k * rsum 0 nth (fun tid => y1val y1 node (tid * rank h node + ly node k))) _ k (basis h node p k * v)); [ring|auto| |].
      * rewrite (rsum_upd 0 nth (fun tid => y1val y1 node (tid * rank h node + ly node k)) _ tid v); [ring|auto| |].
        { rewrite Gv, !Z.eqb_refl. reflexivity. }
        { intros i Hi Hne. rewrite Gv, Z.eqb_refl. destruct (Z.eqb_spec (i * rank h node + ly node k) (tid * rank h node + ly node k)); [nia|]. reflexivity. }
      * intros i Hi Hne. f_equal. apply rsum_ext. intros j Hj. rewrite Gv, Z.eqb_refl.
        destruct (Z.eqb_spec (j * rank h node + ly node i) (tid * rank h node + ly node k)) as [e|]; [|reflexivity].
        exfalso. pose proof (ly_range node i Hn Hl Hi). apply grid_inj in e as [_ e]; auto. apply Hne. apply (ly_inj node); auto.
    + intros i Hi Hne. apply rsum_ext. intros k' Hk'. f_equal. apply rsum_ext. intros j Hj. rewrite Gv.
      destruct (Z.eqb_spec i node); [contradiction|]. reflexivity.
Qed.

Lemma ty_add_layout ty tid q v : ty_ok h ty -> 0 <= tid < nth -> 0 <= q < h_kms h ->
  exists m d ty', getz ty tid = Some m /\ madd m (Ly q) v = Some d /\ setz ty tid d = Some ty' /\ ty_ok h ty' /\
    forall p, D p -> tysum h ty' (Ly p) = tysum h ty (Ly p) + (if p =? q then c1 else c0) * v.
Proof.
  intros Hty Ht Hq. destruct (ty_add h ty tid (Ly q) v Hty Ht (Ly_range q Hq)) as (m & d & ty' & A & B & C & O & T).
  exists m, d, ty'. do 4 (split; auto). intros p Hp. rewrite T. destruct (Z.eqb_spec (Ly p) (Ly q)) as [e|e]; destruct (Z.eqb_spec p q); auto.
  - apply Ly_inj in e; auto. contradiction.
  - subst. contradiction.
Qed.

Lemma jadd_ty_spec tid off k q v s : jmid_ok s -> 0 <= tid < nth -> 0 <= q < h_kms h -> (off + k)%Z = Ly q ->
  exists s', add_ty tid off k v s = Some s' /\ jmid_ok s' /\
    forall p, D p -> jtot p s' = jtot p s + (if p =? q then c1 else c0) * v.
Proof.
  intros (A1 & A2 & A3 & A4 & A5 & A6 & y1 & E1 & Hy1) Ht Hq Eo.
  destruct (ty_add_layout (s_ty s) tid q v A6 Ht Hq) as (m & d & ty' & Em & Ed & Es & Ok & Ts).
  unfold add_ty. rewrite Em. cbn [bind]. rewrite Eo, Ed. cbn [bind]. rewrite Es. cbn [bind].
  eexists. split; [reflexivity|]. split.
  - do 6 (split; [solve [auto]|]). exists y1. auto.
  - intros p Hp. unfold jtot. cbn [set_ty s_y1 s_ty]. rewrite E1, Ts by auto. ring.
Qed.

Lemma jmid_m0 s l : jmid_ok s -> m0_ok h l -> jmid_ok (set_m0 s l) /\ forall p, D p -> jtot p (set_m0 s l) = jtot p s.
Proof. intros (A1 & A2 & A3 & A4 & A5 & A6 & Hy) Hl. split; [do 6 (split; [solve [auto]|]); auto|]. reflexivity. Qed.
Lemma jmid_m0_ok s : jmid_ok s -> m0_ok h (s_m0 s).
Proof. intros H. apply H. Qed.

Lemma jy0_at s i k : jmid_ok s -> 0 <= i < h_nnode h -> h_minlevel h <= level h i -> 0 <= k < rank h i ->
  y0_at s i (ly i k) = Some (yhat h xv i k).
Proof. intros (A1 & _) Hi Hl Hk. unfold y0_at. rewrite A1. cbn [bind]. destruct (Hy0 i Hi Hl) as (m & -> & V). cbn [bind]. auto. Qed.

Lemma skel_side_spec n : 0 <= n < h_nnode h -> h_minlevel h <= level h n -> exists d np, skel_side c n = Some (d, 0, np, np) /\ 0 <= np /\
  rank h n = (np * kd)%Z /\ (rank h n / kd)%Z = np /\ forall i, 0 <= i < np -> point (jx_dim c) d 0 np i = Some (SP n i).
Proof.
  intros Hn Hl. destruct (jd_skel _ _ J n Hn Hl) as (j & Ej & Er & Pj). unfold skel_side. rewrite Ej. cbn [bind].
  pose proof kd_pos. pose proof (rank_nonneg h R n Hn). exists (dm_data j), (dm_ncol j). split; auto. split; [nia|]. split; auto. split; auto.
  rewrite Er. apply Z.div_mul. lia.
Qed.

Lemma jmid_pair_spec tid k s : jmid_ok s -> 0 <= tid < nth -> 0 <= k < zlen (h_adm h) ->
  exists s', jmid_pair kern simd esz h c x tid k s = Some s' /\ jmid_ok s' /\ forall p, D p -> jtot p s' = jtot p s + pairc h xv k p.
Proof.
  intros Hs Ht Hk. destruct (getz_in (h_adm h) k Hk) as [[n0 n1] En]. pose proof kd_pos as Kp.
  destruct (ro_adm _ R _ _ _ En) as (N0 & N1 & Nd & Nl). destruct (jd_dim _ _ J) as (Dd & Ds & De).
  destruct (ro_B _ R _ _ _ En) as (ptr & nrow & ncol & P1 & P2 & P3 & P4 & P5 & P6).
  unfold jmid_pair. rewrite En. cbn [bind]. rewrite !(ld_level h R) by auto. cbn [bind]. rewrite P2, P3. cbn [bind].
  assert (Er : Bnrow h k = nrow) by (unfold Bnrow; now rewrite P2).
  assert (Ec : Bncol h k = ncol) by (unfold Bncol; now rewrite P3).
  destruct (cluster_range h R n0 N0) as (C01 & C02 & C03). destruct (cluster_range h R n1 N1) as (C11 & C12 & C13).
  assert (Rk : forall n, 0 <= n < h_nnode h -> h_minlevel h <= level h n -> 1 <= rank h n).
  { intros n Hn Hl. destruct (U_at h R n Hn) as (U & _ & EU & _ & HU). specialize (HU Hl). lia. }
  assert (Hn1 : 1 <= ncol).
  { subst ncol. destruct (Z.leb_spec (level h n0) (level h n1)); [|lia]. apply Rk; auto. lia. }
  unfold jit_blk. destruct (Z.eqb_spec ncol 0); [lia|]. cbn [bind]. set (blk := (131072 / (esz * ncol) / kd)%Z).
  assert (Hblk : 0 <= blk). { unfold blk. apply Z.div_pos; [|lia]. apply Z.div_pos; nia. }
  assert (Hblk1 : b = false -> 1 <= blk). { intros Hb. unfold blk. rewrite <- Ec. apply (jd_fitB _ _ J); auto. }
  destruct (get_m0_spec h jmid_ok (fun s => jmid_m0_ok s) tid (blk * kd)%Z ncol s Hs Ht) as (m & Em & Om & _ & _ & Lm); [nia|].
  rewrite Em. cbn [bind].
  destruct (put_m0_spec h jmid_ok D jtot jmid_m0_ok jmid_m0 tid m s Hs Ht Om) as (s1 & E1 & I1 & T1 & G1 & l1 & ->).
  rewrite E1. cbn [bind]. clear E1 Em.
  assert (Fin : forall r, (exists s', r = Some s' /\ jmid_ok s' /\ forall p, D p -> jtot p s' = jtot p (set_m0 s l1) +
      rsum 0 nrow (bi_term ncol (fun p r => side h n0 n1 r p) (fun p q => side h n1 n0 q p) (kval kern kd (spt CP SP n0 n1) (spt CP SP n1 n0)) (sidex h xv n1 n0) (sidex h xv n0 n1) p)) ->
    exists s', r = Some s' /\ jmid_ok s' /\ forall p, D p -> jtot p s' = jtot p s + pairc h xv k p).
  { intros r (s' & E & M & T'). exists s'. split; auto. split; auto. intros p Hp. rewrite T', T1 by auto. f_equal.
    rewrite <- (pairc_bi h xv k n0 n1 p En). rewrite Er, Ec. apply rsum_ext. intros i Hi. unfold bi_term. f_equal; [f_equal|]; apply rsum_ext; intros j Hj;
      rewrite (jd_B _ _ J k n0 n1 En) by (rewrite ?Er, ?Ec; lia); reflexivity. }
  pose proof I1 as (A1 & A2 & A3 & A4 & A5 & A6 & y1 & Ey1 & Z1 & F1 & W1 & Act).
  assert (MC : forall i, 0 <= i < h_nnode h -> active y1 i -> exists m, getz y1 i = Some m /\ dm_ncol m = rank h i).
  { intros i Hi (m' & Em & Hm). destruct (W1 i Hi) as (m2 & Em2 & [Hw|Hw]); [congruence|]. exists m2. split; auto. apply Hw. }
  assert (X0 : forall node v s q, node = n0 \/ node = n1 -> h_minlevel h <= level h node -> 0 <= q < rank h node -> jmid_ok s ->
    exists s', add_y1 node (tid * rank h node) (lay b kd (rank h node / kd) q) v s = Some s' /\ jmid_ok s' /\ forall p, D p -> jtot p s' = jtot p s + basis h node p q * v).
  { intros node v s' q Hor Hl Hq Hs'. apply jadd_y1_spec; auto; [destruct Hor as [-> | ->]; auto|]. exists k, n0, n1. auto. }
  assert (X1 : forall node v s q, 0 <= node < h_nnode h -> 0 <= q < msize h node -> jmid_ok s ->
    exists s', add_ty tid (if b then pfirst node else mfirst h node) (lay b kd (h_npoint h) q) v s = Some s' /\ jmid_ok s' /\
      forall p, D p -> jtot p s' = jtot p s + (if p =? mfirst h node + q then c1 else c0) * v).
  { intros node v s' q Hnode Hq Hs'. destruct (cluster_range h R node Hnode) as (B1 & B2 & B3). apply jadd_ty_spec; auto; [lia|].
    destruct (pt_side_spec node Hnode) as (_ & Ef & _). unfold Ly. rewrite Ef, lay_shift by lia. reflexivity. }
  assert (X2 : forall node q, 0 <= node < h_nnode h -> 0 <= q < msize h node ->
    ld x ((if b then pfirst node else mfirst h node) + lay b kd (h_npoint h) q) = Some (xv (mfirst h node + q)%Z)).
  { intros node q Hnode Hq. destruct (cluster_range h R node Hnode) as (B1 & B2 & B3). rewrite <- Hx by lia. f_equal.
    destruct (pt_side_spec node Hnode) as (_ & Ef & _). unfold Ly. rewrite Ef, lay_shift by lia. reflexivity. }
  assert (HB : forall n1', (n1' * kd = ncol)%Z -> b = false -> 1 <= blk /\ exists m, getz (s_m0 (set_m0 s l1)) tid = Some m /\ (blk * kd * (n1' * kd) <= zlen (dm_data m))%Z).
  { intros n1' <- Hb. split; auto. exists m. split; auto. }
  destruct (Z.eqb_spec (level h n0) (level h n1)) as [Hl|Hl]; [|destruct (Z.ltb_spec (level h n1) (level h n0)) as [Hl'|Hl']].
  - rewrite Ey1. cbn [bind].
    assert (Ac0 : active y1 n0) by (eapply Act; eauto; lia). assert (Ac1 : active y1 n1) by (eapply Act; eauto; lia).
    destruct (MC n0 N0 Ac0) as (m0 & Em0 & Em0c). destruct (MC n1 N1 Ac1) as (m1 & Em1 & Em1c).
    rewrite Em0, Em1. cbn [bind]. rewrite Em0c, Em1c. rewrite (proj2 (Z.leb_le _ _)) in P4 by lia. rewrite (proj2 (Z.leb_le _ _)) in P5 by lia.
    destruct (skel_side_spec n0 N0 ltac:(lia)) as (d0 & np0 & S0 & Hp0 & Er0 & Ed0 & Pt0). destruct (skel_side_spec n1 N1 ltac:(lia)) as (d1 & np1 & S1 & Hp1 & Er1 & Ed1 & Pt1).
    rewrite S0, S1. cbn [bind]. apply Fin. rewrite P4, P5, Er0, Er1.
    apply apply_block_spec with (I := jmid_ok) (D := D) (T := jtot); auto.
    + apply jmid_m0_ok.
    + apply jmid_m0.
    + intros i Hi. unfold spt. rewrite (proj2 (Z.leb_le _ _)) by lia. auto.
    + intros i Hi. unfold spt. rewrite (proj2 (Z.leb_le _ _)) by lia. auto.
    + intros j Hj. rewrite sidex_comp by lia. rewrite <- Er1. apply jy0_at; auto; lia.
    + intros j Hj. rewrite sidex_comp by lia. rewrite <- Er0. apply jy0_at; auto; lia.
    + intros i v s' Hi Hs'. unfold side. rewrite (proj2 (Z.leb_le _ _)) by lia. rewrite <- Er0. apply X0; auto; lia.
    + intros i v s' Hi Hs'. unfold side. rewrite (proj2 (Z.leb_le _ _)) by lia. rewrite <- Er1. apply X0; auto; lia.
    + apply HB. lia.
  - destruct (pt_side_spec n1 N1) as (S1 & Ef1 & Es1 & Hf1 & Hp1 & Hfp1 & Pt1). rewrite S1, (ld_mfirst h R) by auto. rewrite Ey1. cbn [bind].
    assert (Ac0 : active y1 n0) by (eapply Act; eauto; lia).
    destruct (MC n0 N0 Ac0) as (m0 & Em0 & Em0c). rewrite Em0. cbn [bind]. rewrite Em0c.
    rewrite (proj2 (Z.leb_le _ _)) in P4 by lia. rewrite (proj2 (Z.leb_gt _ _)) in P5 by lia.
    destruct (skel_side_spec n0 N0 ltac:(lia)) as (d0 & np0 & S0 & Hp0 & Er0 & Ed0 & Pt0). rewrite S0. cbn [bind fst snd]. apply Fin. rewrite P4, P5, Er0, Es1.
    apply apply_block_spec with (I := jmid_ok) (D := D) (T := jtot); auto; try lia.
    + apply jmid_m0_ok.
    + apply jmid_m0.
    + intros i Hi. unfold spt. rewrite (proj2 (Z.leb_le _ _)) by lia. auto.
    + intros i Hi. unfold spt. rewrite (proj2 (Z.leb_gt _ _)) by lia. auto.
    + intros j Hj. rewrite sidex_own by lia. apply X2; auto. lia.
    + intros j Hj. rewrite sidex_comp by lia. rewrite <- Er0. apply jy0_at; auto; lia.
    + intros i v s' Hi Hs'. unfold side. rewrite (proj2 (Z.leb_le _ _)) by lia. rewrite <- Er0. apply X0; auto; lia.
    + intros i v s' Hi Hs'. unfold side. rewrite (proj2 (Z.leb_gt _ _)) by lia. apply X1; auto. lia.
    + apply HB. lia.
  - destruct (pt_side_spec n0 N0) as (S0 & Ef0 & Es0 & Hf0 & Hp0 & Hfp0 & Pt0). rewrite S0, (ld_mfirst h R) by auto. rewrite Ey1. cbn [bind].
    assert (Ac1 : active y1 n1) by (eapply Act; eauto; lia).
    destruct (MC n1 N1 Ac1) as (m1 & Em1 & Em1c). rewrite Em1. cbn [bind]. rewrite Em1c.
    rewrite (proj2 (Z.leb_gt _ _)) in P4 by lia. rewrite (proj2 (Z.leb_le _ _)) in P5 by lia.
    destruct (skel_side_spec n1 N1 ltac:(lia)) as (d1 & np1 & S1 & Hp1 & Er1 & Ed1 & Pt1). rewrite S1. cbn [bind fst snd]. apply Fin. rewrite P4, P5, Er1, Es0.
    apply apply_block_spec with (I := jmid_ok) (D := D) (T := jtot); auto; try lia.
    + apply jmid_m0_ok.
    + apply jmid_m0.
    + intros i Hi. unfold spt. rewrite (proj2 (Z.leb_gt _ _)) by lia. auto.
    + intros i Hi. unfold spt. rewrite (proj2 (Z.leb_le _ _)) by lia. auto.
    + intros j Hj. rewrite sidex_comp by lia. rewrite <- Er1. apply jy0_at; auto; lia.
    + intros j Hj. rewrite sidex_own by lia. apply X2; auto. lia.
    + intros i v s' Hi Hs'. unfold side. rewrite (proj2 (Z.leb_gt _ _)) by lia. apply X1; auto. lia.
    + intros i v s' Hi Hs'. unfold side. rewrite (proj2 (Z.leb_le _ _)) by lia. rewrite <- Er1. apply X0; auto; lia.
    + apply HB. lia.
Qed.
Lemma jmid_schedule_perm l : jmid_schedule h l ->
  Forall (fun ev => 0 <= fst ev < nth) l /\
  exists m, 0 <= m <= zlen (h_adm h) /\ Permutation (map snd l) (zrange 0 m) /\
    forall k, m <= k < zlen (h_adm h) -> (Bnrow h k * Bncol h k = 0)%Z.
Proof.
  intros (asg & [A1 A2] & Hi).
  destruct (ro_Bblk _ R) as (bl & Hb & B1 & B2 & B3 & B4 & B5). pose proof Hb as (_ & I2 & _).
  destruct (thread_items_spec _ _ _ Hb B1 B2 B3 A2) as [T1 T2].
  apply inter_permutation in Hi. split.
  - rewrite Forall_forall. intros [t0 i] Hev. cbn [fst]. rewrite <- A1. apply (T2 t0 i). eapply Permutation_in; eauto.
  - exists (nthz bl (zlen bl - 1)). split.
    + split; auto. apply (zrange_tile bl (zlen bl)); auto. lia.
    + split; auto. rewrite Hi. auto.
Qed.

Lemma jmid_events_spec evs s : jmid_schedule h evs -> jmid_ok s ->
  exists s', run (map (fun ev => jmid_pair kern simd esz h c x (fst ev) (snd ev)) evs) s = Some s' /\ jmid_ok s' /\
    forall p, D p -> jtot p s' = jtot p s + rsum 0 (zlen (h_adm h)) (fun k => pairc h xv k p).
Proof.
  intros Hsc Hs. destruct (jmid_schedule_perm evs Hsc) as (Ht & m & Hm & Hp & He).
  rewrite Forall_forall in Ht.
  destruct (run_each snd (fun ev => jmid_pair kern simd esz h c x (fst ev) (snd ev))
    (fun done s' => jmid_ok s' /\ forall p, D p -> jtot p s' = jtot p s + lsum (fun k => pairc h xv k p) done) evs [] s) as (s' & E & Ok & T'); auto.
  - eapply Permutation_NoDup; [symmetry; exact Hp|apply NoDup_zrange].
  - split; auto. intros p _. rewrite lsum_nil. ring.
  - intros done ev s1 Hev Hd [O1 T1]. assert (Hk : 0 <= snd ev < m).
    { apply In_zrange. eapply Permutation_in; [exact Hp|]. now apply in_map. }
    destruct (jmid_pair_spec (fst ev) (snd ev) s1 O1 (Ht ev Hev) ltac:(lia)) as (s2 & E2 & O2 & T2).
    exists s2. split; auto. split; auto. intros p Hpp. rewrite T2, T1, lsum_cons by auto. ring.
  - exists s'. split; auto. split; auto. intros p Hpp. rewrite T', app_nil_r by auto. f_equal.
    rewrite (lsum_perm _ _ (zrange 0 m)).
    + rewrite (rsum_split 0 m (zlen (h_adm h))) by lia. rewrite (rsum_zero m). { unfold rsum. ring. }
      intros k Hk. apply pairc_empty. auto.
    + rewrite <- Hp. symmetry. apply Permutation_rev.
Qed.
End Events.
End JMid.
