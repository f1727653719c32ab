(** The steps of the ULV solves at one node. *)
From Coq Require Import ZArith List Lia Bool Permutation.
From Verif Require Import Base Mem Num CRing Conc Model_Utils Spec_Utils Model_Dense Spec_Dense Proof_Dense Model_Partition Spec_Tree Model_Matvec Spec_Matvec Proof_MvTree Proof_MvFwd Proof_Gemm Spec_Lapack Blk Model_ULV Spec_ULV Proof_ULVMath Proof_ULVTree Proof_ULVMem Proof_ULVAsm Proof_ULVFac Proof_ULVNode.
Import ListNotations.
Open Scope Z_scope.

Section Vec.
Context {F : num} {K : cring}.
Add Ring Kring4 : (cth K).
Local Open Scope ring_K.
Variable la : lapack K.
Hypothesis LA : lapack_ok la.
Variable h : h2rep F K.
Hypothesis R : rep_ok h.
Notation nn := (h_nnode h).
Notation N := (h_kms h).

(** An array whose first n cells are the vector f. *)
Definition vec (x : mem K) (n : Z) (f : Z -> K) : Prop := n <= zlen x /\ forall i, 0 <= i < n -> ld x i = Some (f i).
Definition put (o m : Z) (g f : Z -> K) (i : Z) : K := if (o <=? i)%Z && (i <? o + m)%Z then g (i - o)%Z else f i.
Lemma put_in o m g f i : (o <= i < o + m)%Z -> put o m g f i = g (i - o)%Z.
Proof. intros H. unfold put. destruct (Z.leb_spec o i), (Z.ltb_spec i (o + m)); try lia. reflexivity. Qed.
Lemma put_out o m g f i : ~ (o <= i < o + m)%Z -> put o m g f i = f i.
Proof. intros H. unfold put. destruct (Z.leb_spec o i), (Z.ltb_spec i (o + m)); cbn [andb]; auto; lia. Qed.
Lemma vec_ext x n f g : vec x n f -> (forall i, 0 <= i < n -> f i = g i) -> vec x n g.
Proof. intros [Z1 H] E. split; auto. intros i Hi. rewrite <- E by auto. auto. Qed.
Lemma vec_holds x n f o m : vec x n f -> 0 <= o -> (o + m <= n)%Z -> holds x o 1 m 1 (fun i _ => f (o + i)%Z).
Proof. intros [Z1 H] Ho Hm i j Hi Hj. assert (j = 0) by lia. subst j. rewrite <- H by lia. f_equal. lia. Qed.
Lemma vec_fits x n f o m : vec x n f -> 0 <= o -> 0 <= m -> (o + m <= n)%Z -> fits m 1 o 1 (zlen x).
Proof. intros [Z1 H] Ho Hm Hn. split; [lia|]. split; [lia|]. split; [lia|]. split; [lia|]. lia. Qed.
Lemma vec_upd x x' n f o m g : vec x n f -> updr x x' o 1 m 1 g -> vec x' n (put o m (fun i => g i 0%Z) f) /\ zlen x' = zlen x.
Proof.
  intros [Z1 H] (Z2 & Hg & Fr). split; auto. split; [lia|]. intros i Hi. destruct (Z.le_gt_cases o i), (Z.lt_ge_cases i (o + m)).
  - rewrite put_in by lia. rewrite <- (Hg (i - o)%Z 0%Z) by lia. f_equal. lia.
  - rewrite put_out by lia. rewrite <- H by auto. unfold ld. rewrite Fr; auto. intros i' j' Hi' Hj'. lia.
  - rewrite put_out by lia. rewrite <- H by auto. unfold ld. rewrite Fr; auto. intros i' j' Hi' Hj'. lia.
  - rewrite put_out by lia. rewrite <- H by auto. unfold ld. rewrite Fr; auto. intros i' j' Hi' Hj'. lia.
Qed.

(** The permuted vector. *)
Definition pv (px : mem K) (v : Z -> K) : Prop := zlen px = N /\ forall p, 0 <= p < N -> ld px p = Some (v p).

Lemma gather_vec iv ps n px v x0 : pv px v -> iv_len iv = n -> 0 <= n -> (forall k, 0 <= k < n -> ld (iv_data iv) k = Some (ps k)) -> (forall k, 0 <= k < n -> 0 <= ps k < N) -> n <= zlen x0 ->
  exists x, gather_idx iv px x0 = Some x /\ vec x n (fun k => v (ps k)) /\ zlen x = zlen x0.
Proof.
  intros [Zp Hp] Ln Hn Hps Rps Hz. unfold gather_idx. rewrite Ln.
  destruct (zfor_inv (fun k0 (x : mem K) => zlen x = zlen x0 /\ forall k, 0 <= k < k0 -> ld x k = Some (v (ps k))) 0 n (fun k x0 => i <- ld (iv_data iv) k; x <- ld px i; st x0 k x) x0) as (x & E & Z1 & H1); auto.
  - split; auto. intros; lia.
  - intros k x Hk (Zx & Hx). rewrite Hps by auto. cbn [bind]. rewrite Hp by auto. cbn [bind]. destruct (st_Some x k (v (ps k))) as [x' E]; [lia|]. exists x'. split; auto.
    split; [rewrite (st_zlen _ _ _ _ E); auto|]. intros j Hj. rewrite (ld_st _ _ _ _ _ E). destruct (Z.eqb_spec k j); [congruence|]. apply Hx; lia.
  - exists x. split; auto. split; auto. split; [lia|auto].
Qed.
Lemma scatter_vec iv ps n px v x f : pv px v -> iv_len iv = n -> 0 <= n -> (forall k, 0 <= k < n -> ld (iv_data iv) k = Some (ps k)) -> (forall k, 0 <= k < n -> 0 <= ps k < N) ->
  (forall k l, 0 <= k < n -> 0 <= l < n -> ps k = ps l -> k = l) -> vec x n f ->
  exists px' v', scatter_idx iv x px = Some px' /\ pv px' v' /\ (forall k, 0 <= k < n -> v' (ps k) = f k) /\ forall p, (forall k, 0 <= k < n -> p <> ps k) -> v' p = v p.
Proof.
  intros [Zp Hp] Ln Hn Hps Rps Inj [Zx Hx]. unfold scatter_idx. rewrite Ln.
  destruct (zfor_inv (fun k0 (q : mem K) => exists v', pv q v' /\ (forall k, 0 <= k < k0 -> v' (ps k) = f k) /\ forall p, (forall k, 0 <= k < k0 -> p <> ps k) -> v' p = v p) 0 n
     (fun k px => i <- ld (iv_data iv) k; x <- ld x k; st px i x) px) as (px' & E & v' & H1 & H2 & H3); auto.
  - exists v. split; [split; auto|]. split; auto. intros; lia.
  - intros k q Hk (v' & [Zq Hq] & H2 & H3). rewrite Hps by auto. cbn [bind]. rewrite Hx by auto. cbn [bind]. pose proof (Rps k Hk) as Rk.
    destruct (st_Some q (ps k) (f k)) as [q' E]; [lia|]. exists q'. split; auto. exists (fun p => if (p =? ps k)%Z then f k else v' p). split; [|split].
    + split; [rewrite (st_zlen _ _ _ _ E); auto|]. intros p Hpp. rewrite (ld_st _ _ _ _ _ E), (Z.eqb_sym (ps k) p). destruct (p =? ps k)%Z; auto.
    + intros j Hj. destruct (Z.eqb_spec (ps j) (ps k)) as [Eq|Ne]; [apply Inj in Eq; [now subst|lia..]|]. apply H2. assert (j <> k) by (intros ->; contradiction). lia.
    + intros p Hpp. destruct (Z.eqb_spec p (ps k)) as [Eq|Ne]; [destruct (Hpp k ltac:(lia) Eq)|]. apply H3. intros j Hj. apply Hpp. lia.
  - exists px', v'. auto.
Qed.

(** Triangular solve and matrix-vector product within a vector. *)
Lemma trsm_vec lower trans unit m (A : mem K) ao lda (x : mem K) o w (g : Z -> K) (av : Z -> Z -> K) : vec x w g -> 0 <= m -> 0 <= o -> (o + m <= w)%Z -> holds A ao lda m m av ->
  exists x' X, trsm la true lower trans unit m 1 A ao lda x o 1 = Some x' /\ zlen x' = zlen x /\ vec x' w (put o m X g) /\
    ((unit = false -> forall i, 0 <= i < m -> av i i <> c0) -> forall i, 0 <= i < m -> rsum 0 m (fun l => top trans (tri lower unit av) i l * X l) = g (o + i)%Z).
Proof.
  intros Hx Hm Ho Hw HA. destruct (trsm_left_upd la lower trans unit m 1 A ao lda x o 1 av (fun i _ => g (o + i)%Z) LA Hm) as (x' & X & E & U & Q); auto.
  - eapply vec_fits; eauto; lia.
  - eapply vec_holds; eauto; lia.
  - destruct (vec_upd _ _ _ _ _ _ _ Hx U) as [V Zx]. exists x', (fun i => X i 0%Z). split; auto. split; auto. split; auto. intros D i Hi. apply (Q D i 0%Z); lia.
Qed.
Lemma gemv_vec (ta : bool) m k (A : mem K) ao lda (x : mem K) bo co w (g : Z -> K) (av : Z -> Z -> K) : vec x w g -> 0 <= m -> 0 <= k -> 0 <= bo -> 0 <= co -> (bo + k <= w)%Z -> (co + m <= w)%Z ->
  (if ta then holds A ao lda k m (fun i j => av j i) else holds A ao lda m k av) ->
  exists x', gemm_neg ta m 1 k A ao lda x bo 1 x co 1 = Some x' /\ zlen x' = zlen x /\ vec x' w (put co m (fun i => g (co + i)%Z - rsum 0 k (fun p => av i p * g (bo + p)%Z)) g).
Proof.
  intros Hx Hm Hk Hb Hc Hbk Hcm HA.
  destruct (gemm_neg_upd ta m 1 k A ao lda x bo 1 x co 1 av (fun i _ => g (bo + i)%Z) (fun i _ => g (co + i)%Z)) as (x' & E & U); auto.
  - eapply vec_fits; eauto; lia.
  - eapply vec_holds; eauto; lia.
  - eapply vec_holds; eauto; lia.
  - destruct (vec_upd _ _ _ _ _ _ _ Hx U) as [V Zx]. exists x'. split; auto.
Qed.

(** ** One node *)
Variable chol : bool.
Variable u : @ulv K.
Variables (t : Z) (f : @nfac K) (ps : Z -> Z).
Hypothesis Ht : 0 <= t < nn.
Hypothesis St : stored h chol u t f ps.
Hypothesis Hr : 0 <= f_r f <= f_n f.
Hypothesis Hps : forall k, 0 <= k < f_n f -> 0 <= ps k < N.
Hypothesis Inj : forall k l, 0 <= k < f_n f -> 0 <= l < f_n f -> ps k = ps l -> k = l.
Hypothesis Hpmr : forall i, 0 <= i < f_n f - f_r f -> 0 <= f_pm f i < f_n f - f_r f.
Notation n := (f_n f).
Notation r := (f_r f).

Definition mok (m0s : list (dmat K)) : Prop := zlen m0s = h_nthread h /\ Forall dm_ok m0s.
Definition put_at (v v' : Z -> K) (g : Z -> K) : Prop := (forall k, 0 <= k < n -> v' (ps k) = g k) /\ forall p, (forall k, 0 <= k < n -> p <> ps k) -> v' p = v p.
Definition up_done (s : option svst) (v : Z -> K) : Prop := exists px' m0s' v' out, s = Some (px', m0s') /\ mok m0s' /\ pv px' v' /\ put_at v v' out /\ up_rel f (fun i => v (ps i)) out.
Definition down_done (s : option svst) (v : Z -> K) : Prop := exists px' m0s' v' z, s = Some (px', m0s') /\ mok m0s' /\ pv px' v' /\ put_at v v' z /\ down_rel f (fun i => v (ps i)) z.

Lemma qt_root inn i : f_Q f = delta -> 0 <= i < n -> qt_vec f inn i = inn i.
Proof.
  intros E Hi. unfold qt_vec. rewrite E. rewrite (rsum_ext 0 n _ (fun a => delta i a * inn a)) by (intros; unfold delta; now rewrite Z.eqb_sym). now apply rsum_delta_l.
Qed.

(** The multiplication with Q^T or Q, skipped at the root. *)
Lemma apply_q (trans : bool) (Lm Q : dmat K) (x : mem K) (g : Z -> K) (w : Z) : geto (u_Q u) t = Some Q -> dm_nrow Lm = n -> vec x w g -> n <= w -> 0 < level h t ->
  exists x', ormqr true trans (dm_nrow Lm) 1 (dm_ncol Q) (dm_data Q) 0 (dm_ncol Q) ((dm_nrow Q - 1) * dm_ncol Q) x 0 1 = Some x' /\ zlen x' = zlen x /\
    vec x' w (put 0 n (fun i => rsum 0 n (fun a => top trans (f_Q f) i a * g a)) g).
Proof.
  intros EQ En Hx Hw Hl. pose proof St as Sx; destruct Sx as (Lm' & Lf & v & Q' & _ & _ & _ & _ & _ & _ & EQ' & HQ & _). rewrite EQ in EQ'. injection EQ' as <-.
  destruct (Z.ltb_spec 0 (level h t)); [|lia]. destruct HQ as (P & tau & Q1 & Q2 & Q3 & Q4 & Q5). rewrite Q1, Q2, En.
  replace ((n + 1 - 1) * r)%Z with (n * r)%Z by lia.
  destruct (ormqr_left_upd trans n 1 r (dm_data Q) 0 r (n * r) x 0 1 P tau (fun i _ => g (0 + i)%Z)) as (x' & E & U); auto.
  - eapply vec_fits; eauto; lia.
  - eapply vec_holds; eauto; lia.
  - destruct (vec_upd _ _ _ _ _ _ _ Hx U) as [V Zx]. exists x'. split; auto. split; auto. eapply vec_ext; [exact V|]. intros i Hi. unfold put.
    destruct ((0 <=? i)%Z && (i <? 0 + n)%Z); auto. rewrite Q5. reflexivity.
Qed.

Lemma finish iv px v m0s tid m0 X0 x g : getz m0s tid = Some m0 -> mok m0s -> pv px v -> iv_len iv = n -> (forall k, 0 <= k < n -> ld (iv_data iv) k = Some (ps k)) ->
  dm_ok X0 -> zlen x = zlen (dm_data X0) -> vec x n g ->
  exists px' m0s' v', (px <- scatter_idx iv x px; m0s <- setz m0s tid (dm_set_data X0 x); Some (px, m0s)) = Some (px', m0s') /\ mok m0s' /\ pv px' v' /\ put_at v v' g.
Proof.
  intros Em [Zm Hm] Hv Liv Hiv OX Zx Vx.
  destruct (scatter_vec iv ps n px v x g Hv Liv ltac:(lia) Hiv Hps Inj Vx) as (px' & v' & E & P & Q1 & Q2). rewrite E. cbn [bind].
  destruct (setz_Some m0s tid (dm_set_data X0 x)) as [m' Em']; [eapply getz_range; eauto|]. rewrite Em'. cbn [bind]. exists px', m', v'. split; auto. split.
  - split; [rewrite (setz_zlen _ _ _ _ Em'); auto|]. exact (Forall_setz _ _ _ _ _ Hm (dm_set_data_ok _ _ OX Zx) Em').
  - split; auto. split; auto.
Qed.

Lemma up_alg inn out X : (forall i, 0 <= i < n - r -> rsum 0 (n - r) (fun l => f_T1 f i l * X l) = qt_vec f inn (r + f_pm f i)) ->
  (forall l, 0 <= l < n - r -> out (r + l)%Z = X l) -> (forall i, 0 <= i < r -> out i = qt_vec f inn i - rsum 0 (n - r) (fun l => f_C12 f i l * X l)) -> up_rel f inn out.
Proof.
  intros H1 H2 H3. split.
  - intros i Hi. rewrite <- H1 by auto. apply rsum_ext. intros l Hl. now rewrite H2.
  - intros i Hi. rewrite H3 by auto. f_equal. apply rsum_ext. intros l Hl. now rewrite H2.
Qed.
Lemma down_alg w z X : (forall i, 0 <= i < n - r -> rsum 0 (n - r) (fun l => f_T2 f i l * X l) = w (r + i)%Z - rsum 0 r (fun l => f_C21 f i l * w l)) ->
  (forall i, 0 <= i < n -> z i = rsum 0 n (fun l => f_Q f i l * put r (n - r) X w l)) -> down_rel f w z.
Proof.
  intros H1 H2. exists X. split; auto. intros i Hi. rewrite H2 by auto. rewrite (rsum_split0 r n) by lia. f_equal.
  - apply rsum_ext. intros l Hl. now rewrite put_out by lia.
  - apply rsum_ext. intros l Hl. rewrite put_in by lia. do 2 f_equal. lia.
Qed.

Ltac res m0 a b O := destruct (dm_resize_ok m0 a b O) as (T1 & T2 & T3 & T4 & T5); [lia|].

Lemma lu_up_ok tid px m0s v : chol = false -> 0 <= tid < h_nthread h -> pv px v -> mok m0s -> up_done (lu_up_node la u (level h t) tid t (px, m0s)) v.
Proof.
  intros Hc Htid Hv [Zm Hm]. pose proof St as Sx; destruct Sx as (Lm & Lf & iv & Q & E1 & E2 & E3 & (ET1 & ET2 & EC12 & EC21) & Hdg & Hpm & EQ & HQ & Eiv & Liv & Hiv).
  rewrite Hc in Hpm. destruct Hpm as (p & Ep & Lp & Hp). unfold lu_up_node. rewrite Eiv. cbn [bind]. rewrite Ep. cbn [bind]. rewrite EQ. cbn [bind]. rewrite E2. cbn [bind]. rewrite E1. cbn [bind].
  destruct (getz_in m0s tid) as [m0 Em]; [lia|]. rewrite Em. cbn [bind]. pose proof (Forall_getz _ _ _ _ Hm Em) as Om.
  pose proof E3 as (L1 & _ & L3 & L4). rewrite L1, L3, Lp, Z.eqb_refl. cbn [negb]. rewrite Liv. set (ls := (n - r)%Z).
  destruct (dm_resize_ok m0 (n + ls) 1 Om) as (T1 & T2 & T3 & T4 & T5); [lia|]. set (X0 := dm_resize m0 (n + ls) 1) in *.
  destruct (gather_vec iv ps n px v (dm_data X0) Hv Liv ltac:(lia) Hiv Hps ltac:(lia)) as (x1 & Ex1 & V1 & Z1). rewrite Ex1. cbn [bind].
  set (inn := fun i => v (ps i)) in *.
  assert (S2 : exists x2, (if (0 <? level h t)%Z then ormqr true true n 1 (dm_ncol Q) (dm_data Q) 0 (dm_ncol Q) ((dm_nrow Q - 1) * dm_ncol Q) x1 0 1 else Some x1) = Some x2 /\
     zlen x2 = zlen x1 /\ vec x2 n (qt_vec f inn)).
  { destruct (Z.ltb_spec 0 (level h t)) as [Hl|Hl].
    - destruct (apply_q true Lm Q x1 inn n EQ L1 V1 ltac:(lia) Hl) as (x2 & Ex2 & Z2 & V2). rewrite L1 in Ex2. exists x2. split; auto. split; auto.
      eapply vec_ext; [exact V2|]. intros i Hi. now rewrite put_in, Z.sub_0_r by lia.
    - exists x1. split; auto. split; auto. eapply vec_ext; [exact V1|]. intros i Hi. symmetry. now apply qt_root. }
  destruct S2 as (x2 & Ex2 & Z2 & V2). rewrite Ex2. cbn [bind]. set (qt := qt_vec f inn) in *.
  assert (S3 : exists x3, mcpy_in x2 (r + ls) r ls = Some x3 /\ zlen x3 = zlen x2 /\ vec x3 (n + ls) (fun i => if (i <? n)%Z then qt i else qt (i - ls)%Z)).
  { unfold mcpy_in. destruct (Z.leb_spec ls 0).
    - exists x2. split; auto. split; auto. split; [lia|]. intros i Hi. destruct (Z.ltb_spec i n); [|lia]. now apply V2.
    - destruct (Z.leb_spec (r + ls + ls) r), (Z.leb_spec (r + ls) (r + ls)); try lia. cbn [orb].
      destruct (mcpy_spec x2 (r + ls) x2 r ls) as (x3 & A1 & A2 & A3); try lia. exists x3. split; auto. split; auto. split; [lia|]. intros i Hi. unfold ld. rewrite A3.
      destruct (Z.ltb_spec i n).
      + destruct (Z.leb_spec (r + ls) i); [lia|]. cbn [andb]. destruct V2 as [_ V2]. now apply V2.
      + destruct (Z.leb_spec (r + ls) i), (Z.ltb_spec i (r + ls + ls)); try lia. cbn [andb]. destruct V2 as [_ V2]. replace (r + (i - (r + ls)))%Z with (i - ls)%Z by lia. apply V2. lia. }
  destruct S3 as (x3 & Ex3 & Z3 & V3). rewrite Ex3. cbn [bind].
  assert (S4 : exists x4, zfor 0 ls (fun k x => q <- ld (iv_data p) k; v0 <- ld x (r + ls + q)%Z; st x (r + k)%Z v0) x3 = Some x4 /\ zlen x4 = zlen x3 /\
     vec x4 n (put r ls (fun k => qt (r + f_pm f k)%Z) qt)).
  { destruct (zfor_inv (fun k0 (x : mem K) => zlen x = zlen x3 /\ forall i, 0 <= i < n + ls -> ld x i = Some (if (i <? n)%Z then put r k0 (fun k => qt (r + f_pm f k)%Z) qt i else qt (i - ls)%Z)) 0 ls
       (fun k x => q <- ld (iv_data p) k; v0 <- ld x (r + ls + q)%Z; st x (r + k)%Z v0) x3) as (x4 & Ex4 & Z4 & V4).
    - lia.
    - split; auto. intros i Hi. destruct V3 as [_ V3]. rewrite V3 by auto. destruct (i <? n)%Z; auto. rewrite put_out by lia. reflexivity.
    - intros k x Hk (Zx & Hx). pose proof (Hpmr k Hk) as Hfp. fold ls in Hfp.
      rewrite Hp by auto. cbn [bind]. rewrite Hx by lia. destruct (Z.ltb_spec (r + ls + f_pm f k) n); [lia|]. cbn [bind].
      destruct (st_Some x (r + k) (qt (r + ls + f_pm f k - ls)%Z)) as [x' Ex']; [destruct V3; lia|]. exists x'. split; auto. split; [rewrite (st_zlen _ _ _ _ Ex'); auto|].
      intros i Hi. rewrite (ld_st _ _ _ _ _ Ex'). destruct (Z.eqb_spec (r + k) i) as [<-|Ne].
      + destruct (Z.ltb_spec (r + k) n); [|lia]. rewrite put_in by lia. do 2 f_equal. replace (r + k - r)%Z with k by lia. lia.
      + rewrite Hx by auto. destruct (Z.ltb_spec i n); auto. f_equal. unfold put. destruct (Z.leb_spec r i), (Z.ltb_spec i (r + k)), (Z.ltb_spec i (r + (k + 1))); cbn [andb]; auto; lia.
    - exists x4. split; auto. split; auto. split; [lia|]. intros i Hi. rewrite V4 by lia. destruct (Z.ltb_spec i n); [reflexivity|lia]. }
  destruct S4 as (x4 & Ex4 & Z4 & V4). rewrite Ex4. cbn [bind].
  destruct (trsm_vec true false true ls (dm_data Lm) (r * (n + 1)) n x4 r n _ (fun i j => Lf (r + i)%Z (r + j)%Z) V4) as (x5 & X & Ex5 & Z5 & V5 & H5); [lia|lia|lia|eapply holds_sub0; eauto; lia|].
  rewrite Ex5. cbn [bind].
  destruct (gemv_vec false r ls (dm_data Lm) r n x5 r 0 n _ (fun i j => Lf (0 + i)%Z (r + j)%Z) V5) as (x6 & Ex6 & Z6 & V6); [lia|lia|lia|lia|lia|lia|eapply holds_sub0; eauto; lia|].
  rewrite Ex6. cbn [bind].
  destruct (finish iv px v m0s tid m0 X0 x6 _ Em (conj Zm Hm) Hv Liv Hiv T1 ltac:(lia) V6) as (px' & m' & v' & E & M' & P' & A'). eexists px', m', v', _. split; [exact E|]. split; [exact M'|]. split; [exact P'|]. split; [exact A'|].
  eapply (up_alg _ _ X).
  - intros i Hi. rewrite ET1. unfold T1_. rewrite Hc. cbn [negb]. cbn [top] in H5. rewrite H5; [|discriminate|auto]. fold inn. fold qt. rewrite put_in by lia. now replace (r + i - r)%Z with i by lia.
  - intros l Hl. rewrite put_out, put_in by lia. f_equal. lia.
  - intros i Hi. rewrite put_in by lia. rewrite Z.sub_0_r, Z.add_0_l, !put_out by lia. f_equal. apply rsum_ext. intros l Hl. rewrite put_in by lia. rewrite EC12. unfold C12_. f_equal. f_equal. lia.
Qed.

(** The down step shared by the two factorisations. *)
Lemma down_tail (Lm Q : dmat K) iv px v m0s tid m0 X0 x w X (lev : Z) : geto (u_Q u) t = Some Q -> dm_nrow Lm = n -> getz m0s tid = Some m0 -> mok m0s -> pv px v -> iv_len iv = n ->
  (forall k, 0 <= k < n -> ld (iv_data iv) k = Some (ps k)) -> dm_ok X0 -> zlen x = zlen (dm_data X0) -> vec x n (put r (n - r) X w) -> lev = level h t ->
  (lev <= 0 -> f_Q f = delta) -> (forall i, 0 <= i < n - r -> rsum 0 (n - r) (fun l => f_T2 f i l * X l) = w (r + i)%Z - rsum 0 r (fun l => f_C21 f i l * w l)) ->
  (forall i, 0 <= i < n -> w i = v (ps i)) ->
  down_done (x <- (if 0 <? lev then ormqr true false (dm_nrow Lm) 1 (dm_ncol Q) (dm_data Q) 0 (dm_ncol Q) ((dm_nrow Q - 1) * dm_ncol Q) x 0 1 else Some x);
             px <- scatter_idx iv x px; m0s <- setz m0s tid (dm_set_data X0 x); Some (px, m0s)) v.
Proof.
  intros EQ En Em Hm Hv Liv Hiv OX Zx Vx -> HQ HX Hw.
  assert (S : exists x2, (if (0 <? level h t)%Z then ormqr true false (dm_nrow Lm) 1 (dm_ncol Q) (dm_data Q) 0 (dm_ncol Q) ((dm_nrow Q - 1) * dm_ncol Q) x 0 1 else Some x) = Some x2 /\
     zlen x2 = zlen x /\ vec x2 n (fun i => rsum 0 n (fun l => f_Q f i l * put r (n - r) X w l))).
  { destruct (Z.ltb_spec 0 (level h t)) as [Hl|Hl].
    - destruct (apply_q false Lm Q x _ n EQ En Vx ltac:(lia) Hl) as (x2 & Ex2 & Z2 & V2). exists x2. split; auto. split; auto.
      eapply vec_ext; [exact V2|]. intros i Hi. now rewrite put_in, Z.sub_0_r by lia.
    - exists x. split; auto. split; auto. eapply vec_ext; [exact Vx|]. intros i Hi. rewrite HQ by auto. symmetry. now apply rsum_delta_l. }
  destruct S as (x2 & Ex2 & Z2 & V2). rewrite Ex2. cbn [bind].
  destruct (finish iv px v m0s tid m0 X0 x2 _ Em Hm Hv Liv Hiv OX ltac:(lia) V2) as (px' & m' & v' & E & M' & P' & A'). eexists px', m', v', _. split; [exact E|]. split; [exact M'|]. split; [exact P'|]. split; [exact A'|].
  apply (down_alg _ _ X).
  - intros i Hi. rewrite HX by auto. rewrite Hw by lia. f_equal. apply rsum_ext. intros l Hl. now rewrite Hw by lia.
  - intros i Hi. apply rsum_ext. intros l Hl. f_equal. unfold put. destruct ((r <=? l)%Z && (l <? r + (n - r))%Z); auto.
Qed.

Lemma lu_down_ok tid px m0s v : chol = false -> 0 <= tid < h_nthread h -> pv px v -> mok m0s -> down_done (lu_down_node la u (level h t) tid t (px, m0s)) v.
Proof.
  intros Hc Htid Hv [Zm Hm]. pose proof St as Sx; destruct Sx as (Lm & Lf & iv & Q & E1 & E2 & E3 & (ET1 & ET2 & EC12 & EC21) & Hdg & Hpm & EQ & HQ & Eiv & Liv & Hiv).
  unfold lu_down_node. rewrite Eiv. cbn [bind]. rewrite EQ. cbn [bind]. rewrite E2. cbn [bind]. rewrite E1. cbn [bind].
  destruct (getz_in m0s tid) as [m0 Em]; [lia|]. rewrite Em. cbn [bind]. pose proof (Forall_getz _ _ _ _ Hm Em) as Om.
  pose proof E3 as (L1 & _ & L3 & L4). rewrite L1, L3, Liv. set (ls := (n - r)%Z).
  destruct (dm_resize_ok m0 n 1 Om) as (T1 & T2 & T3 & T4 & T5); [lia|]. set (X0 := dm_resize m0 n 1) in *.
  destruct (gather_vec iv ps n px v (dm_data X0) Hv Liv ltac:(lia) Hiv Hps ltac:(lia)) as (x1 & Ex1 & V1 & Z1). rewrite Ex1. cbn [bind].
  set (inn := fun i => v (ps i)) in *.
  destruct (gemv_vec false ls r (dm_data Lm) (r * n) n x1 0 r n _ (fun i j => Lf (r + i)%Z (0 + j)%Z) V1) as (x2 & Ex2 & Z2 & V2); [lia|lia|lia|lia|lia|lia|eapply holds_sub0; eauto; lia|].
  rewrite Ex2. cbn [bind].
  destruct (trsm_vec false false false ls (dm_data Lm) (r * (n + 1)) n x2 r n _ (fun i j => Lf (r + i)%Z (r + j)%Z) V2) as (x3 & X & Ex3 & Z3 & V3 & H3); [lia|lia|lia|eapply holds_sub0; eauto; lia|].
  rewrite Ex3. cbn [bind]. rewrite <- L1 at 1.
  apply (down_tail Lm Q iv px v m0s tid m0 X0 x3 inn X (level h t)); auto; try (split; assumption); try lia.
  - eapply vec_ext; [exact V3|]. intros i Hi. unfold put. fold ls. destruct ((r <=? i)%Z && (i <? r + ls)%Z); auto.
  - intros Hl. destruct (Z.ltb_spec 0 (level h t)); [lia|]. exact HQ.
  - intros i Hi. rewrite ET2. unfold T2_. rewrite Hc. cbn [top] in H3. fold ls. rewrite H3 by (auto; intros; now apply Hdg). rewrite put_in by lia. replace (r + i - r)%Z with i by lia. f_equal.
    apply rsum_ext. intros l Hl. rewrite EC21. unfold C21_. rewrite Hc. reflexivity.
Qed.

Lemma ch_up_ok tid px m0s v : chol = true -> 0 < level h t -> 0 <= tid < h_nthread h -> pv px v -> mok m0s -> up_done (ch_up_node la u tid t (px, m0s)) v.
Proof.
  intros Hc Hl Htid Hv [Zm Hm]. pose proof St as Sx; destruct Sx as (Lm & Lf & iv & Q & E1 & E2 & E3 & (ET1 & ET2 & EC12 & EC21) & Hdg & Hpm & EQ & HQ & Eiv & Liv & Hiv).
  rewrite Hc in Hpm. unfold ch_up_node. rewrite Eiv. cbn [bind]. rewrite EQ. cbn [bind]. rewrite E2. cbn [bind]. rewrite E1. cbn [bind].
  destruct (getz_in m0s tid) as [m0 Em]; [lia|]. rewrite Em. cbn [bind]. pose proof (Forall_getz _ _ _ _ Hm Em) as Om.
  pose proof E3 as (L1 & _ & L3 & L4). rewrite L3, Liv. 
  destruct (dm_resize_ok m0 n 1 Om) as (T1 & T2 & T3 & T4 & T5); [lia|]. set (X0 := dm_resize m0 n 1) in *.
  destruct (gather_vec iv ps n px v (dm_data X0) Hv Liv ltac:(lia) Hiv Hps ltac:(lia)) as (x1 & Ex1 & V1 & Z1). rewrite Ex1. cbn [bind].
  set (inn := fun i => v (ps i)) in *.
  destruct (apply_q true Lm Q x1 inn n EQ L1 V1 ltac:(lia) Hl) as (x2 & Ex2 & Z2 & V2). rewrite Ex2. cbn [bind]. rewrite L1. set (ls := (n - r)%Z).
  assert (V2' : vec x2 n (qt_vec f inn)). { eapply vec_ext; [exact V2|]. intros i Hi. now rewrite put_in, Z.sub_0_r by lia. }
  clear V2. set (qt := qt_vec f inn) in *.
  destruct (trsm_vec true false false ls (dm_data Lm) (r * (n + 1)) n x2 r n _ (fun i j => Lf (r + i)%Z (r + j)%Z) V2') as (x5 & X & Ex5 & Z5 & V5 & H5); [lia|lia|lia|eapply holds_sub0; eauto; lia|].
  rewrite Ex5. cbn [bind].
  destruct (gemv_vec false r ls (dm_data Lm) r n x5 r 0 n _ (fun i j => Lf (0 + i)%Z (r + j)%Z) V5) as (x6 & Ex6 & Z6 & V6); [lia|lia|lia|lia|lia|lia|eapply holds_sub0; eauto; lia|].
  rewrite Ex6. cbn [bind].
  destruct (finish iv px v m0s tid m0 X0 x6 _ Em (conj Zm Hm) Hv Liv Hiv T1 ltac:(lia) V6) as (px' & m' & v' & E & M' & P' & A'). eexists px', m', v', _. split; [exact E|]. split; [exact M'|]. split; [exact P'|]. split; [exact A'|].
  eapply (up_alg _ _ X).
  - intros i Hi. rewrite ET1. unfold T1_. rewrite Hc. cbn [negb]. cbn [top] in H5. rewrite H5; [|intros; now apply Hdg|auto]. fold inn. fold qt. now rewrite Hpm.
  - intros l Hl'. rewrite put_out, put_in by lia. f_equal. lia.
  - intros i Hi. rewrite put_in by lia. rewrite Z.sub_0_r, Z.add_0_l, !put_out by lia. f_equal. apply rsum_ext. intros l Hl'. rewrite put_in by lia. rewrite EC12. unfold C12_. f_equal. f_equal. lia.
Qed.

Lemma ch_down_ok tid px m0s v : chol = true -> 0 < level h t -> 0 <= tid < h_nthread h -> pv px v -> mok m0s -> down_done (ch_down_node la u tid t (px, m0s)) v.
Proof.
  intros Hc Hl Htid Hv [Zm Hm]. pose proof St as Sx; destruct Sx as (Lm & Lf & iv & Q & E1 & E2 & E3 & (ET1 & ET2 & EC12 & EC21) & Hdg & Hpm & EQ & HQ & Eiv & Liv & Hiv).
  unfold ch_down_node. rewrite Eiv. cbn [bind]. rewrite EQ. cbn [bind]. rewrite E2. cbn [bind]. rewrite E1. cbn [bind].
  destruct (getz_in m0s tid) as [m0 Em]; [lia|]. rewrite Em. cbn [bind]. pose proof (Forall_getz _ _ _ _ Hm Em) as Om.
  pose proof E3 as (L1 & _ & L3 & L4). rewrite L1, L3, Liv. set (ls := (n - r)%Z).
  destruct (dm_resize_ok m0 n 1 Om) as (T1 & T2 & T3 & T4 & T5); [lia|]. set (X0 := dm_resize m0 n 1) in *.
  destruct (gather_vec iv ps n px v (dm_data X0) Hv Liv ltac:(lia) Hiv Hps ltac:(lia)) as (x1 & Ex1 & V1 & Z1). rewrite Ex1. cbn [bind].
  set (inn := fun i => v (ps i)) in *.
  destruct (gemv_vec true ls r (dm_data Lm) r n x1 0 r n _ (fun i j => Lf (0 + j)%Z (r + i)%Z) V1) as (x2 & Ex2 & Z2 & V2); [lia|lia|lia|lia|lia|lia|eapply holds_sub0; eauto; lia|].
  rewrite Ex2. cbn [bind].
  destruct (trsm_vec true true false ls (dm_data Lm) (r * (n + 1)) n x2 r n _ (fun i j => Lf (r + i)%Z (r + j)%Z) V2) as (x3 & X & Ex3 & Z3 & V3 & H3); [lia|lia|lia|eapply holds_sub0; eauto; lia|].
  rewrite Ex3. cbn [bind]. rewrite <- L1 at 1.
  pose proof (down_tail Lm Q iv px v m0s tid m0 X0 x3 inn X (level h t)) as DT. destruct (Z.ltb_spec 0 (level h t)); [|lia].
  apply DT; auto; try (split; assumption); try lia.
  - eapply vec_ext; [exact V3|]. intros i Hi. unfold put. fold ls. destruct ((r <=? i)%Z && (i <? r + ls)%Z); auto.
  - intros i Hi. rewrite ET2. unfold T2_, T1_. rewrite Hc. cbn [top negb] in H3 |- *. fold ls. rewrite H3 by (auto; intros; now apply Hdg). rewrite put_in by lia. replace (r + i - r)%Z with i by lia. f_equal.
    apply rsum_ext. intros l Hl'. rewrite EC21. unfold C21_. rewrite Hc. reflexivity.
Qed.

(** The root of the Cholesky solve. *)
Lemma ch_root_up px m0s v : chol = true -> level h t = 0 -> r = 0 -> 0 < h_nthread h -> pv px v -> mok m0s -> up_done (ch_root_node la u false t (px, m0s)) v.
Proof.
  intros Hc Hl H0 Htid Hv [Zm Hm]. pose proof St as Sx; destruct Sx as (Lm & Lf & iv & Q & E1 & E2 & E3 & (ET1 & ET2 & EC12 & EC21) & Hdg & Hpm & EQ & HQ & Eiv & Liv & Hiv).
  rewrite Hc in Hpm. rewrite Hl in HQ. cbn in HQ. unfold ch_root_node. rewrite Eiv. cbn [bind]. rewrite E2. cbn [bind].
  destruct (getz_in m0s 0) as [m0 Em]; [lia|]. rewrite Em. cbn [bind]. pose proof (Forall_getz _ _ _ _ Hm Em) as Om.
  pose proof E3 as (L1 & _ & L3 & L4). rewrite L1, L3, Liv.
  destruct (dm_resize_ok m0 n 1 Om) as (T1 & T2 & T3 & T4 & T5); [lia|]. set (X0 := dm_resize m0 n 1) in *.
  destruct (gather_vec iv ps n px v (dm_data X0) Hv Liv ltac:(lia) Hiv Hps ltac:(lia)) as (x1 & Ex1 & V1 & Z1). rewrite Ex1. cbn [bind].
  set (inn := fun i => v (ps i)) in *.
  destruct (trsm_vec true false false n (dm_data Lm) 0 n x1 0 n _ Lf V1) as (x2 & X & Ex2 & Z2 & V2 & H2); [lia|lia|lia|auto|].
  rewrite Ex2. cbn [bind].
  destruct (finish iv px v m0s 0 m0 X0 x2 _ Em (conj Zm Hm) Hv Liv Hiv T1 ltac:(lia) V2) as (px' & m' & v' & E & M' & P' & A'). eexists px', m', v', _. split; [exact E|]. split; [exact M'|]. split; [exact P'|]. split; [exact A'|].
  eapply (up_alg _ _ X).
  - intros i Hi. rewrite ET1. unfold T1_. rewrite Hc, H0 in *. rewrite Hpm, Z.sub_0_r in *. cbn [negb]. cbn [top] in H2. rewrite qt_root by (auto; lia). rewrite Z.add_0_l in *. apply H2; [|lia]. intros _ j Hj. specialize (Hdg j). rewrite ?Z.add_0_l, ?Z.sub_0_r in Hdg. apply Hdg; lia.
  - intros l Hl'. rewrite put_in by lia. f_equal. lia.
  - intros i Hi. lia.
Qed.
Lemma ch_root_down px m0s v : chol = true -> level h t = 0 -> r = 0 -> 0 < h_nthread h -> pv px v -> mok m0s -> down_done (ch_root_node la u true t (px, m0s)) v.
Proof.
  intros Hc Hl H0 Htid Hv [Zm Hm]. pose proof St as Sx; destruct Sx as (Lm & Lf & iv & Q & E1 & E2 & E3 & (ET1 & ET2 & EC12 & EC21) & Hdg & Hpm & EQ & HQ & Eiv & Liv & Hiv).
  rewrite Hl in HQ. cbn in HQ. unfold ch_root_node. rewrite Eiv. cbn [bind]. rewrite E2. cbn [bind].
  destruct (getz_in m0s 0) as [m0 Em]; [lia|]. rewrite Em. cbn [bind]. pose proof (Forall_getz _ _ _ _ Hm Em) as Om.
  pose proof E3 as (L1 & _ & L3 & L4). rewrite L1, L3, Liv.
  destruct (dm_resize_ok m0 n 1 Om) as (T1 & T2 & T3 & T4 & T5); [lia|]. set (X0 := dm_resize m0 n 1) in *.
  destruct (gather_vec iv ps n px v (dm_data X0) Hv Liv ltac:(lia) Hiv Hps ltac:(lia)) as (x1 & Ex1 & V1 & Z1). rewrite Ex1. cbn [bind].
  set (inn := fun i => v (ps i)) in *.
  destruct (trsm_vec true true false n (dm_data Lm) 0 n x1 0 n _ Lf V1) as (x2 & X & Ex2 & Z2 & V2 & H2); [lia|lia|lia|auto|].
  rewrite Ex2. cbn [bind].
  pose proof (down_tail Lm Q iv px v m0s 0 m0 X0 x2 inn X (level h t)) as DT. rewrite Hl in DT. cbn [Z.ltb Z.compare bind] in DT.
  apply DT; auto; try (split; assumption); try lia.
  - eapply vec_ext; [exact V2|]. intros i Hi. unfold put. rewrite H0. now rewrite !Z.sub_0_r.
  - intros i Hi. rewrite ET2. unfold T2_, T1_. rewrite Hc, H0, Z.sub_0_r in *. rewrite (rsum_empty 0 0) by lia. cbn [top negb] in H2 |- *.
    change (inn (0 + i)%Z) with (inn i). replace (inn i - c0) with (inn i) by ring. apply H2; [|lia]. intros _ j Hj. specialize (Hdg j). rewrite ?Z.add_0_l, ?Z.sub_0_r in Hdg. apply Hdg; lia.
Qed.
End Vec.
