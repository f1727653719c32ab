(** One node of a ULV factorisation keeps the invariant of the factorisation. *)
From Coq Require Import ZArith List Lia Bool Permutation.
From Verif Require Import Base Mem Num CRing Conc Model_Utils Spec_Utils Proof_Utils Model_Dense Spec_Dense Proof_Dense Model_Partition Spec_Tree Model_Pairs Model_Matvec Spec_Matvec Proof_MvTree Proof_MvFwd Proof_MvCor Model_Matmul Proof_Gemm Model_Build Spec_Build Proof_Build Spec_Lapack Blk Model_ULV Spec_ULV Proof_ULVMath Proof_ULVTree Proof_ULVMem Proof_ULVAsm Proof_ULVFac.
Import ListNotations.
Open Scope Z_scope.

Definition fupd {A} (g : Z -> A) (t : Z) (v : A) (x : Z) : A := if x =? t then v else g x.
Lemma fupd_same {A} (g : Z -> A) t v : fupd g t v t = v.
Proof. unfold fupd. now rewrite Z.eqb_refl. Qed.
Lemma fupd_other {A} (g : Z -> A) t v x : x <> t -> fupd g t v x = g x.
Proof. unfold fupd. destruct (Z.eqb_spec x t); congruence. Qed.
Lemma geto_setz {A} (l : list (option A)) i x l' j : setz l i x = Some l' -> geto l' j = if j =? i then x else geto l j.
Proof. intros E. unfold geto. rewrite (getz_setz _ _ _ _ _ E). rewrite Z.eqb_sym. now destruct (j =? i). Qed.

Section Node.
Context {F : num} {K : cring}.
Add Ring Kring3 : (cth K).
Local Open Scope ring_K.
Variable la : lapack K.
Hypothesis LA : lapack_ok la.
Variable h : h2rep F K.
Hypothesis R : rep_ok h.
Hypothesis HS : hss_ok h.
Variables getB getD : Z -> Z -> dmat K -> option (option (dmat K)).
Hypothesis HG : gets_ok h getB getD.
Variable chol : bool.
Hypothesis HD : chol = true -> diag_sym h.
Variable shift : K.
Notation nn := (h_nnode h).
Notation matrix := (Z -> Z -> K).
Notation nfac := (@nfac K).

Lemma root_not_leaf t : 0 <= t < nn -> level h t = 0 -> nchild h t <> 0.
Proof.
  intros Ht Hl. apply (level0_root h R) in Hl; auto. subst t. destruct (ct_root _ _ _ _ _ _ (ro_tree _ R)) as (_ & _ & nc & Hn).
  destruct (ct_node _ _ _ _ _ _ (ro_tree _ R) _ Ht) as (s & e & lv & hh & nc' & Hn' & _ & _ & _ & _ & _ & Hz).
  destruct Hn as (_ & _ & _ & N4 & N5). destruct Hn' as (_ & _ & _ & N4' & N5'). rewrite N4 in N4'. rewrite N5 in N5'. injection N4' as <-. injection N5' as <-.
  rewrite (ld_nchild h R) in N5 by auto. injection N5 as N5. pose proof (hs_min h HS). destruct (ro_dims _ R) as (_ & _ & _ & _ & _ & Hm). lia.
Qed.
Lemma rank_le t : 0 <= t < nn -> 0 <= rank h t <= nrows h t.
Proof.
  intros Ht. destruct (U_at h R t Ht) as (U & _ & _ & H0 & H1). pose proof (hs_min h HS) as Hm. pose proof (level_range h R t Ht).
  destruct (Z.eq_dec (level h t) 0) as [E|E].
  - rewrite H0 by lia. split; [lia|]. unfold nrows. pose proof (root_not_leaf t Ht E). destruct (Z.eqb_spec (nchild h t) 0); [contradiction|].
    pose proof (nchild_range h R t Ht). destruct (choff_le h R t 0 Ht ltac:(lia)). destruct (child_at h R t 0 Ht ltac:(lia)) as (_ & Rc & _). pose proof (rank_nonneg h R _ Rc). lia.
  - specialize (H1 ltac:(lia)). split; [lia|]. apply (hs_rank h HS); auto; lia.
Qed.
Lemma rank_root t : 0 <= t < nn -> level h t = 0 -> rank h t = 0.
Proof. intros Ht E. destruct (U_at h R t Ht) as (U & _ & _ & H0 & H1). pose proof (hs_min h HS). apply H0. lia. Qed.

Definition mkfac (n r : Z) (Dh Uh Q Lf : matrix) (pm : Z -> Z) (Rm Df : matrix) : nfac :=
  NF n r Dh Uh Q (T1_ chol r Lf) (T2_ chol r Lf) (C12_ r Lf) (C21_ chol r Lf) pm Rm Df.

Lemma mkfac_ok n r Dh Uh Q Lf pm Rm Df : 0 <= r <= n -> orthogonal n Q ->
  (forall i c, 0 <= i < n -> 0 <= c < r -> rsum 0 n (fun a => Q a i * Uh a c) = if (i <? r)%Z then Rm i c else c0) ->
  blk_ok chol n r (fun i j => rsum 0 n (fun a => rsum 0 n (fun b => Q a i * Dh a b * Q b j))) Lf pm Df -> fac_ok (mkfac n r Dh Uh Q Lf pm Rm Df).
Proof.
  intros Hr HQ HU [B1 B2 B3 B4 B5 B6 B7 B8]. split; cbn [mkfac f_n f_r f_Q f_Uh f_R f_pm f_T1 f_T2 f_C12 f_C21 f_D]; auto.
Qed.

Lemma delta_orth n : orthogonal n (@delta K).
Proof.
  assert (D : forall i j : Z, delta i j = delta j i :> K) by (intros; unfold delta; now rewrite Z.eqb_sym).
  split; intros i j Hi Hj.
  - rewrite (rsum_ext 0 n _ (fun l => delta i l * delta l j)) by (intros; now rewrite (D i)). now rewrite rsum_delta_l.
  - rewrite rsum_delta_l by auto. apply D.
Qed.
Lemma delta_conj n (Dh : matrix) i j : 0 <= i < n -> 0 <= j < n -> rsum 0 n (fun a => rsum 0 n (fun b => delta a i * Dh a b * delta b j)) = Dh i j.
Proof.
  assert (D : forall i j : Z, delta i j = delta j i :> K) by (intros; unfold delta; now rewrite Z.eqb_sym).
  intros Hi Hj. rewrite (rsum_ext 0 n _ (fun a => delta i a * rsum 0 n (fun b => delta j b * Dh a b))).
  2:{ intros a Ha. rewrite <- rsum_mul_l. apply rsum_ext. intros b Hb. rewrite (D a i), (D b j). ring. }
  rewrite rsum_delta_l by auto. now rewrite rsum_delta_l.
Qed.

(** What is stored for a node of the factorisation. *)
Definition stored (u : @ulv K) (t : Z) (f : nfac) (pos : Z -> Z) : Prop :=
  exists Lm Lf v Q,
    ld (u_Ls u) t = Some (f_r f) /\ geto (u_L u) t = Some Lm /\ mholds Lm (f_n f) (f_n f) Lf /\
    (f_T1 f = T1_ chol (f_r f) Lf /\ f_T2 f = T2_ chol (f_r f) Lf /\ f_C12 f = C12_ (f_r f) Lf /\ f_C21 f = C21_ chol (f_r f) Lf) /\
    (forall i, 0 <= i < f_n f - f_r f -> Lf (f_r f + i)%Z (f_r f + i)%Z <> c0) /\
    (if chol then forall i, f_pm f i = i
     else exists p, geto (u_p u) t = Some p /\ iv_len p = (f_n f - f_r f)%Z /\ forall k, 0 <= k < f_n f - f_r f -> ld (iv_data p) k = Some (f_pm f k)) /\
    geto (u_Q u) t = Some Q /\
    (if (0 <? level h t)%Z then exists P tau, dm_nrow Q = (f_n f + 1)%Z /\ dm_ncol Q = f_r f /\ holds (dm_data Q) 0 (f_r f) (f_n f) (f_r f) P /\
        holds (dm_data Q) (f_n f * f_r f) (f_r f) 1 (f_r f) (fun _ j => tau j) /\ f_Q f = qmat (f_n f) (f_r f) P tau
     else f_Q f = delta) /\
    geto (u_idx u) t = Some v /\ iv_len v = f_n f /\ forall k, 0 <= k < f_n f -> ld (iv_data v) k = Some (pos k).

Lemma stored_ext u u' t f pos : ld (u_Ls u') t = ld (u_Ls u) t -> geto (u_L u') t = geto (u_L u) t -> geto (u_p u') t = geto (u_p u) t -> geto (u_Q u') t = geto (u_Q u) t ->
  geto (u_idx u') t = geto (u_idx u) t -> stored u t f pos -> stored u' t f pos.
Proof. intros E1 E2 E3 E4 E5 (Lm & Lf & v & Q & H). exists Lm, Lf, v, Q. rewrite E1, E2, E3, E4, E5. exact H. Qed.

(** Rows of the permuted vector a node works on: its own at a leaf, otherwise the
    leading ones of its children. *)
Definition pos_ok (pos : Z -> Z -> Z) (t : Z) : Prop :=
  (nchild h t = 0 -> forall i, 0 <= i < msize h t -> pos t i = (mfirst h t + i)%Z) /\
  forall k d, 0 <= k < nchild h t -> 0 <= d < rank h (child h t k) -> pos t (choff h t k + d)%Z = pos (child h t k) d.

Lemma linkedm_ext nf nf' Dh Uh t : (forall k, 0 <= k < nchild h t -> nf (child h t k) = nf' (child h t k)) -> linkedm h shift nf Dh Uh t -> linkedm h shift nf' Dh Uh t.
Proof.
  intros E [L1 L2 L3 L4 L5]. split; auto.
  - intros k i j Hk Hi Hj. rewrite <- E by auto. now apply L3.
  - intros q k l i j Hk Hl Eq Hi Hj. rewrite <- !E by lia. now apply L4.
  - intros k i c Hk Hi Hc. rewrite <- E by auto. now apply L5.
Qed.

Definition symm (n : Z) (A : matrix) : Prop := forall i j, 0 <= i < n -> 0 <= j < n -> A i j = A j i.

Lemma Dh_sym nf Dh Uh t : 0 <= t < nn -> diag_sym h -> linkedm h shift nf Dh Uh t -> (forall k, 0 <= k < nchild h t -> symm (rank h (child h t k)) (f_D (nf (child h t k)))) -> symm (nrows h t) Dh.
Proof.
  intros Ht Hs Hl Hc i j Hi Hj. unfold nrows in *. destruct (Z.eqb_spec (nchild h t) 0) as [E|E].
  - destruct (leaf_list h R) as (ls & Zls & Gls & Nls & Ils).
    destruct (In_getz ls t (proj2 (Ils t) (conj Ht E))) as (k0 & Gk). pose proof (getz_range _ _ _ Gk) as Hk0. rewrite Zls in Hk0. rewrite Gls in Gk by lia. injection Gk as Gk.
    rewrite !(lk_leafD h shift nf _ _ t Hl k0) by auto. rewrite (Hs k0) by (auto; rewrite Gk; auto). unfold delta. now rewrite (Z.eqb_sym i j).
  - pose proof (nchild_range h R t Ht).
    destruct (choff_find h t (nchild h t) i Ht ltac:(lia) Hi) as (k & a & Hk & Ha & ->). destruct (choff_find h t (nchild h t) j Ht ltac:(lia) Hj) as (l & b & Hl' & Hb & ->).
    destruct (Z.lt_trichotomy k l) as [Lt|[->|Lt]].
    + destruct (hs_all h HS t k l Ht ltac:(lia) ltac:(lia)) as (q & Eq). destruct (lk_off h shift nf _ _ t Hl q k l a b ltac:(lia) ltac:(lia) Eq Ha Hb) as [-> ->]. reflexivity.
    + rewrite !(lk_diag h shift nf _ _ t Hl) by auto. now apply Hc.
    + destruct (hs_all h HS t l k Ht ltac:(lia) ltac:(lia)) as (q & Eq). destruct (lk_off h shift nf _ _ t Hl q l k b a ltac:(lia) ltac:(lia) Eq Hb Ha) as [-> ->]. reflexivity.
Qed.
Lemma conj_sym n (Q Dh : matrix) : symm n Dh -> symm n (fun i j => rsum 0 n (fun a => rsum 0 n (fun b => Q a i * Dh a b * Q b j))).
Proof.
  intros Hs i j Hi Hj. cbv beta. rewrite rsum_swap. apply rsum_ext. intros a Ha. apply rsum_ext. intros b Hb. rewrite (Hs b a) by auto. ring.
Qed.
Lemma blk_sym n r Dq Lf pm Df : 0 <= r <= n -> symm n Dq -> blk_ok true n r Dq Lf pm Df -> symm r Df.
Proof.
  intros Hr Hs B i j Hi Hj. rewrite !(bo_11 _ _ _ _ _ _ _ B) by auto. rewrite (Hs i j) by lia. f_equal. apply rsum_ext. intros l Hl. unfold C12_, C21_. ring.
Qed.

(** ** Step 3 and step 4 *)
Lemma node_idx_spec (idx : list (option int_vec)) (Dm : list (option (dmat K))) t (pos : Z -> Z -> Z) : 0 <= t < nn ->
  (forall k, 0 <= k < nchild h t -> exists D v, geto Dm (child h t k) = Some D /\ dm_nrow D = rank h (child h t k) /\ geto idx (child h t k) = Some v /\
     forall d, 0 <= d < rank h (child h t k) -> ld (iv_data v) d = Some (pos (child h t k) d)) ->
  exists v ps, node_idx h idx Dm t (nchild h t) (nrows h t) = Some v /\ iv_len v = nrows h t /\ (forall k, 0 <= k < nrows h t -> ld (iv_data v) k = Some (ps k)) /\
    pos_ok (fupd pos t ps) t.
Proof.
  intros Ht Hc. unfold node_idx, nrows. destruct (cluster_range h R t Ht) as (M1 & M2 & M3). destruct (Z.eqb_spec (nchild h t) 0) as [E|E].
  - rewrite (ld_mfirst h R), (ld_mlast h R) by auto. cbn [bind]. change (mlast h t - mfirst h t + 1)%Z with (msize h t).
    assert (Zv : iv_data (iv_init (msize h t)) = alloc (msize h t)) by (unfold iv_init; destruct (Z.ltb_spec (msize h t) 0); [lia|reflexivity]). rewrite Zv.
    destruct (zfor_inv (fun k0 (d : mem Z) => zlen d = msize h t /\ forall k, 0 <= k < k0 -> ld d k = Some (mfirst h t + k)%Z) 0 (msize h t) (fun k d => st d k (mfirst h t + k)%Z) (alloc (msize h t))) as (d & Ed & Zd & Hd).
    + lia.
    + rewrite zlen_alloc by lia. split; auto. intros; lia.
    + intros k d Hk (Zd & Hd). destruct (st_Some d k (mfirst h t + k)%Z) as [d' Ed]; [lia|]. exists d'. split; auto. split; [rewrite (st_zlen _ _ _ _ Ed); auto|].
      intros j Hj. rewrite (ld_st _ _ _ _ _ Ed). destruct (Z.eqb_spec k j); [congruence|]. apply Hd; lia.
    + rewrite Ed. cbn [bind iv_len]. rewrite Z.eqb_refl. exists (mkIV (iv_cap (iv_init (msize h t))) (msize h t) d), (fun k => (mfirst h t + k)%Z). split; [reflexivity|]. split; [reflexivity|]. split; [exact Hd|].
      split; [intros _ i Hi; now rewrite fupd_same|]. rewrite E. intros; lia.
  - set (nc := nchild h t) in *. pose proof (nchild_range h R t Ht) as Hn. fold nc in Hn.
    assert (Or : forall k, 0 <= k < nc -> (0 <= choff h t k /\ choff h t k + rank h (child h t k) <= choff h t nc)%Z) by (intros; now apply (choff_le h R)).
    assert (Rk : forall k, 0 <= k < nc -> 0 <= rank h (child h t k)) by (intros k Hk; destruct (child_at h R t k Ht Hk) as (_ & Rc & _); now apply (rank_nonneg h R)).
    assert (On : 0 <= choff h t nc) by (destruct (Or 0 ltac:(lia)); specialize (Rk 0 ltac:(lia)); lia).
    match goal with |- context [zfor 0 nc ?bd 0%Z] => destruct (zfor_inv (fun k n => n = choff h t k) 0 nc bd 0%Z) as (n & En & ->) end.
    + lia.
    + now rewrite choff_0.
    + intros k n Hk ->. destruct (child_at h R t k Ht Hk) as (Ec & _). rewrite Ec. cbn [bind]. destruct (Hc k Hk) as (D & v & ED & Er & _). rewrite ED. cbn [bind].
      eexists. split; [reflexivity|]. rewrite choff_step by lia. lia.
    + rewrite En. cbn [bind].
      assert (Zv : iv_data (iv_init (choff h t nc)) = alloc (choff h t nc)) by (unfold iv_init; destruct (Z.ltb_spec (choff h t nc) 0); [lia|reflexivity]). rewrite Zv.
      match goal with |- context [zfor 0 nc ?bd (alloc _, 0%Z)] => set (body := bd) end.
      destruct (zfor_inv (fun k0 (s : mem Z * Z) => zlen (fst s) = choff h t nc /\ snd s = choff h t k0 /\
        forall k d, 0 <= k < k0 -> 0 <= d < rank h (child h t k) -> ld (fst s) (choff h t k + d) = Some (pos (child h t k) d)) 0 nc body (alloc (choff h t nc), 0%Z)) as ([d n] & Ed & Zd & En' & Hd).
      * lia.
      * cbn [fst snd]. rewrite zlen_alloc, choff_0 by lia. split; auto. split; auto. intros; lia.
      * intros k [d n] Hk (Zd & En' & Hd). cbn [fst snd] in *. subst n. unfold body. destruct (child_at h R t k Ht Hk) as (Ec & _). rewrite Ec. cbn [bind].
        destruct (Hc k Hk) as (D & v & ED & Er & Ev & Hv). rewrite ED, Ev. cbn [bind]. rewrite Er. destruct (Or k Hk) as [Or1 Or2]. pose proof (Rk k Hk) as Rk0.
        destruct (zfor_inv (fun l0 (e : mem Z) => zlen e = choff h t nc /\ (forall x, (x < choff h t k)%Z -> ld e x = ld d x) /\ forall l, 0 <= l < l0 -> ld e (choff h t k + l) = Some (pos (child h t k) l))
           0 (rank h (child h t k)) (fun l d => x <- ld (iv_data v) l; st d (choff h t k + l)%Z x) d) as (d' & Ed' & Zd' & Fd' & Hd').
        { lia. } { split; auto. split; auto. intros; lia. }
        { intros l e Hl (Ze & Fe & He). rewrite Hv by auto. cbn [bind]. destruct (st_Some e (choff h t k + l) (pos (child h t k) l)) as [e' Ee]; [lia|].
          exists e'. split; auto. split; [rewrite (st_zlen _ _ _ _ Ee); auto|]. split.
          - intros x Hx. rewrite (ld_st _ _ _ _ _ Ee). destruct (Z.eqb_spec (choff h t k + l) x); [lia|]. now apply Fe.
          - intros l' Hl'. rewrite (ld_st _ _ _ _ _ Ee). destruct (Z.eqb_spec (choff h t k + l) (choff h t k + l')); [f_equal; f_equal; lia|]. apply He; lia. }
        rewrite Ed'. cbn [bind]. eexists. split; [reflexivity|]. cbn [fst snd]. split; auto. split; [rewrite choff_step by lia; lia|].
        intros k' d0 Hk' Hd0. destruct (Z.eq_dec k' k) as [->|Hne]; [now apply Hd'|]. rewrite Fd'; [apply Hd; auto; lia|].
        pose proof (off_next h R HS t Ht E k' k ltac:(lia) ltac:(fold nc; lia)). lia.
      * rewrite Ed. cbn [bind iv_len fst snd] in *. subst n. rewrite Z.eqb_refl.
        exists (mkIV (iv_cap (iv_init (choff h t nc))) (choff h t nc) d), (fun k => match ld d k with Some x => x | None => 0%Z end). split; [reflexivity|]. split; [reflexivity|]. cbn [iv_data].
        assert (Hal : forall k, 0 <= k < choff h t nc -> ld d k = Some (match ld d k with Some x => x | None => 0%Z end)).
        { intros k Hk. destruct (choff_find h t nc k Ht ltac:(lia) Hk) as (c & a & Hc' & Ha & ->). rewrite Hd by auto. reflexivity. }
        split; [exact Hal|]. split; [intros; contradiction|]. intros k d0 Hk Hd0. rewrite fupd_same. rewrite fupd_other by (destruct (child_at h R t k Ht Hk) as (_ & _ & Lt & _); lia). now rewrite Hd.
Qed.

Lemma free_children_spec t (m : list (option (dmat K))) : 0 <= t < nn -> zlen m = nn -> exists m', free_children h t (nchild h t) m = Some m' /\ zlen m' = nn /\
  forall x, (forall k, 0 <= k < nchild h t -> x <> child h t k) -> geto m' x = geto m x.
Proof.
  intros Ht Zm. unfold free_children. pose proof (nchild_range h R t Ht).
  destruct (zfor_inv (fun k0 (m' : list (option (dmat K))) => zlen m' = nn /\ forall x, (forall k, 0 <= k < nchild h t -> x <> child h t k) -> geto m' x = geto m x) 0 (nchild h t)
    (fun k m => c <- ld (a_children (h_t h)) (t * h_maxchild h + k); setz m c None) m) as (m' & E & Z1 & H1); [lia|auto| |now exists m'].
  intros k e Hk (Ze & He). destruct (child_at h R t k Ht Hk) as (Ec & Rc & _). rewrite Ec. cbn [bind].
  destruct (setz_Some e (child h t k) None) as [e' Ee]; [lia|]. exists e'. split; auto. split; [rewrite (setz_zlen _ _ _ _ Ee); auto|].
  intros x Hx. rewrite (geto_setz _ _ _ _ _ Ee). destruct (Z.eqb_spec x (child h t k)); [destruct (Hx k Hk e0)|]. now apply He.
Qed.

(** ** The invariant *)
Record inv (S : Z -> Prop) (s : @ulv K) (nf : Z -> nfac) (pos : Z -> Z -> Z) : Prop := {
  in_sizes : zlen (u_Ls s) = nn /\ zlen (u_idx s) = nn /\ zlen (u_p s) = nn /\ zlen (u_Q s) = nn /\ zlen (u_L s) = nn /\ zlen (u_U s) = nn /\ zlen (u_D s) = nn;
  in_tb : zlen (u_tb s) = h_nthread h /\ Forall bufok (u_tb s);
  in_node : forall t, 0 <= t < nn -> S t -> f_n (nf t) = nrows h t /\ f_r (nf t) = rank h t /\ fac_ok (nf t) /\ linkedm h shift nf (f_Dh (nf t)) (f_Uh (nf t)) t /\
    stored s t (nf t) (pos t) /\ pos_ok pos t /\ (chol = true -> symm (rank h t) (f_D (nf t)));
  in_mid : forall p k, 0 <= p < nn -> 0 <= k < nchild h p -> ~ S p -> S (child h p k) -> mid_ok h nf (u_U s) (u_D s) (child h p k);
  in_closed : forall t k, 0 <= t < nn -> S t -> 0 <= k < nchild h t -> S (child h t k) }.

Lemma core_inner n r m0 d lg Dq : 0 <= r <= n -> dm_ok m0 -> holds d 0 n n n Dq -> (chol = true -> symm n Dq) ->
  exists p L Dm ok lg' m0' d',
    (if chol then '(L, Dm, ok, lg, d) <- chol_inner la n r d lg; Some (None, L, Dm, ok, lg, m0, d)
     else '(p, L, Dm, ok, lg, m0, d) <- lu_inner la n r m0 d lg; Some (Some p, L, Dm, ok, lg, m0, d)) = Some (p, L, Dm, ok, lg', m0', d') /\
    dm_ok m0' /\ zlen d' = zlen d /\ (ok = false -> bad_piv la chol (n - r) (fun i j => Dq (r + i)%Z (r + j)%Z)) /\
    (ok = true -> exists Lf pm Df, mholds L n n Lf /\ mholds Dm r r Df /\ blk_ok chol n r Dq Lf pm Df /\
       if chol then forall i, pm i = i else exists p', p = Some p' /\ iv_len p' = (n - r)%Z /\ forall k, 0 <= k < n - r -> ld (iv_data p') k = Some (pm k)).
Proof.
  intros Hr O0 Hd Hs. destruct chol eqn:Ec.
  - destruct (chol_inner_spec la LA n r d lg Dq Hr Hd (Hs eq_refl)) as (L & Dm & ok & lg' & d' & E & Zd & HB & H). rewrite E. cbn [bind].
    eexists _, _, _, _, _, _, _. split; [reflexivity|]. split; [exact O0|]. split; [exact Zd|]. split; [exact HB|]. intros Hok. destruct (H Hok) as (Lf & Df & H1 & H2 & H3). exists Lf, (fun i => i), Df. auto.
  - destruct (lu_inner_spec la LA n r m0 d lg Dq Hr O0 Hd) as (p & L & Dm & ok & lg' & m0' & d' & E & O' & Zd & HB & H). rewrite E. cbn [bind].
    eexists _, _, _, _, _, _, _. split; [reflexivity|]. split; [exact O'|]. split; [exact Zd|]. split; [exact HB|]. intros Hok. destruct (H Hok) as (Lf & pm & Df & H1 & H2 & H3 & H4 & H5). exists Lf, pm, Df. split; auto. split; auto. split; auto. exists p. auto.
Qed.
Lemma core_root n d lg Dh : 0 <= n -> holds d 0 n n n Dh -> (chol = true -> symm n Dh) ->
  exists p L ok lg',
    (if chol then '(L, ok, lg) <- chol_root la n d lg; Some (None, L, ok, lg) else '(p, L, ok, lg) <- lu_root la n d lg; Some (Some p, L, ok, lg)) = Some (p, L, ok, lg') /\ (ok = false -> bad_piv la chol n Dh) /\
    (ok = true -> exists Lf pm, mholds L n n Lf /\ (forall Df, blk_ok chol n 0 Dh Lf pm Df) /\
       if chol then forall i, pm i = i else exists p', p = Some p' /\ iv_len p' = n /\ forall k, 0 <= k < n -> ld (iv_data p') k = Some (pm k)).
Proof.
  intros Hn Hd Hs. destruct chol eqn:Ec.
  - destruct (chol_root_spec la LA n d lg Dh Hn Hd (Hs eq_refl)) as (L & ok & lg' & E & HB & H). rewrite E. cbn [bind].
    eexists _, _, _, _. split; [reflexivity|]. split; [exact HB|]. intros Hok. destruct (H Hok) as (Lf & H1 & H2). exists Lf, (fun i => i). auto.
  - destruct (lu_root_spec la LA n d lg Dh Hn Hd) as (p & L & ok & lg' & E & HB & H). rewrite E. cbn [bind].
    eexists _, _, _, _. split; [reflexivity|]. split; [exact HB|]. intros Hok. destruct (H Hok) as (Lf & pm & H1 & H2 & H3 & H4). exists Lf, pm. split; auto. split; auto. exists p. auto.
Qed.

(** A node whose pivot block is reported as bad. *)
Definition failing (nf : Z -> nfac) (t : Z) : Prop := exists (Dh Uh Q : matrix),
  linkedm h shift nf Dh Uh t /\ orthogonal (nrows h t) Q /\ (chol = true -> symm (nrows h t) Dh) /\
  bad_piv la chol (nrows h t - rank h t) (fun i j => rsum 0 (nrows h t) (fun a => rsum 0 (nrows h t) (fun b => Q a (rank h t + i)%Z * Dh a b * Q b (rank h t + j)%Z))).

Section Step.
Variable S : Z -> Prop.
Variables (s : @ulv K) (nf : Z -> nfac) (pos : Z -> Z -> Z).
Hypothesis I : inv S s nf pos.
Variable t : Z.
Hypothesis Ht : 0 <= t < nn.
Hypothesis Nt : ~ S t.
Hypothesis Ct : forall k, 0 <= k < nchild h t -> S (child h t k).

(** The state after the common part of the step. *)
Lemma step_inv s1 f ps uU uD ix v :
  ld (u_Ls s1) t = Some (f_r f) -> (forall x, x <> t -> ld (u_Ls s1) x = ld (u_Ls s) x) ->
  (forall x, x <> t -> geto (u_L s1) x = geto (u_L s) x) -> (forall x, x <> t -> geto (u_p s1) x = geto (u_p s) x) -> (forall x, x <> t -> geto (u_Q s1) x = geto (u_Q s) x) ->
  (forall x, x <> t -> geto (u_U s1) x = geto (u_U s) x) -> (forall x, x <> t -> geto (u_D s1) x = geto (u_D s) x) ->
  (level h t <> 0 -> mid_ok h (fupd nf t f) (u_U s1) (u_D s1) t) ->
  zlen (u_Ls s1) = nn -> zlen (u_p s1) = nn -> zlen (u_Q s1) = nn -> zlen (u_L s1) = nn -> zlen (u_U s1) = nn -> zlen (u_D s1) = nn ->
  zlen (u_tb s1) = h_nthread h -> Forall bufok (u_tb s1) ->
  setz (u_idx s) t (Some v) = Some ix -> free_children h t (nchild h t) (u_U s1) = Some uU -> free_children h t (nchild h t) (u_D s1) = Some uD ->
  f_n f = nrows h t -> f_r f = rank h t -> fac_ok f -> linkedm h shift nf (f_Dh f) (f_Uh f) t ->
  (chol = true -> symm (rank h t) (f_D f)) -> pos_ok (fupd pos t ps) t ->
  let s' := Ulv (u_Ls s1) ix (u_p s1) (u_Q s1) (u_L s1) uU uD (u_ok s1) (u_logdet s1) (u_tb s1) in
  stored s' t f ps ->
  inv (fun x => x = t \/ S x) s' (fupd nf t f) (fupd pos t ps).
Proof.
  intros L1 L2 E1 E2 E3 E4 E5 Md Z1 Z2 Z3 Z4 Z5 Z6 Tb1 Tb2 Eix EuU EuD Fn Fr Ff Fl Fs Fp s' St.
  destruct I as [(Y1 & Y2 & Y3 & Y4 & Y5 & Y6 & Y7) IT IN IM IC].
  destruct (free_children_spec t (u_U s1) Ht Z5) as (uU' & EuU' & ZU & GU). rewrite EuU in EuU'. injection EuU' as <-.
  destruct (free_children_spec t (u_D s1) Ht Z6) as (uD' & EuD' & ZD & GD). rewrite EuD in EuD'. injection EuD' as <-.
  assert (Cne : forall p k, 0 <= p < nn -> 0 <= k < nchild h p -> S p -> child h p k <> t) by (intros p k Hp Hk Sp Eq; apply Nt; rewrite <- Eq; now apply IC).
  split.
  - unfold s'. cbn. rewrite (setz_zlen _ _ _ _ Eix). auto 10.
  - split; auto.
  - intros x Hx [->|Sx].
    + rewrite !fupd_same. split; auto. split; auto. split; auto. split; [|split; [exact St|split; auto]].
      eapply linkedm_ext; [|exact Fl]. intros k Hk. rewrite fupd_other; auto. destruct (child_at h R t k Ht Hk) as (_ & _ & Lt & _). lia.
    + assert (Hne : x <> t) by (intros ->; contradiction). rewrite !(fupd_other _ t _ x) by auto. destruct (IN x Hx Sx) as (N1 & N2 & N3 & N4 & N5 & N6 & N7).
      split; auto. split; auto. split; auto. split; [|split; [|split; auto]].
      * eapply linkedm_ext; [|exact N4]. intros k Hk. rewrite fupd_other; auto.
      * eapply stored_ext; [..|exact N5]; unfold s'; cbn [u_Ls u_L u_p u_Q u_idx]; auto. rewrite (geto_setz _ _ _ _ _ Eix). destruct (Z.eqb_spec x t); [contradiction|auto].
      * destruct N6 as [P1 P2]. split; [now rewrite fupd_other by auto|]. intros k d Hk Hd. rewrite !fupd_other by auto. now apply P2.
  - intros p k Hp Hk Np Sc. unfold s'. cbn [u_U u_D]. assert (Hpt : p <> t) by (intros ->; apply Np; auto).
    destruct (child_at h R p k Hp Hk) as (_ & Rc & Lt & Lc).
    assert (Gu : geto uU (child h p k) = geto (u_U s1) (child h p k)).
    { apply GU. intros k' Hk' Eq. destruct (child_inj h R p k t k' Hp Hk Ht Hk' Eq). contradiction. }
    assert (Gd : geto uD (child h p k) = geto (u_D s1) (child h p k)).
    { apply GD. intros k' Hk' Eq. destruct (child_inj h R p k t k' Hp Hk Ht Hk' Eq). contradiction. }
    destruct Sc as [Eq|Sc].
    + rewrite Eq in *. destruct Md as (U & D & M1 & M2 & M3); [pose proof (level_range h R p Hp); lia|]. exists U, D. rewrite Gu, Gd. auto.
    + assert (Hne : child h p k <> t) by (intros Eq; rewrite Eq in Sc; contradiction).
      destruct (IM p k Hp Hk (fun H => Np (or_intror H)) Sc) as (U & D & M1 & M2 & M3). exists U, D. rewrite Gu, Gd, E4, E5, fupd_other by auto. auto.
  - intros x k Hx [->|Sx] Hk; right; [now apply Ct|now apply IC].
Qed.

Lemma ulv_node_spec tid : 0 <= tid < h_nthread h -> u_ok s = true ->
  exists s', ulv_node la chol h getB getD shift (level h t) tid t s = Some s' /\ (u_ok s' = false -> failing nf t) /\
    (u_ok s' = true -> exists nf' pos', inv (fun x => x = t \/ S x) s' nf' pos').
Proof.
  intros Htid Hok. unfold ulv_node. rewrite Hok. cbn [negb]. rewrite (ld_nchild h R t Ht). cbn [bind].
  destruct I as [(Y1 & Y2 & Y3 & Y4 & Y5 & Y6 & Y7) [IT1 IT2] IN IM IC].
  destruct (getz_in (u_tb s) tid) as [b Eb]; [lia|]. rewrite Eb. cbn [bind]. pose proof (Forall_getz _ _ _ _ IT2 Eb) as Bb.
  assert (Hmid : forall k, 0 <= k < nchild h t -> mid_ok h nf (u_U s) (u_D s) (child h t k)) by (intros k Hk; apply IM; auto).
  destruct (assemble_spec h R HS getB getD HG shift nf t (u_U s) (u_D s) b Ht (root_not_leaf t Ht) Bb Hmid) as (b' & Dh & Uh & Ea & Bb' & Nr & Nc & M1 & Lk).
  rewrite Ea. cbn [bind]. destruct Bb' as (C1 & C2 & C3 & C4). pose proof (rank_le t Ht) as Hrk. pose proof (level_range h R t Ht) as Hlv.
  assert (SyD : chol = true -> symm (nrows h t) Dh).
  { intros Hc. apply (Dh_sym nf Dh Uh t Ht (HD Hc) Lk). intros k Hk. destruct (child_at h R t k Ht Hk) as (_ & Rc & _). apply (IN _ Rc (Ct k Hk)). exact Hc. }
  assert (Hidx : forall (Dm : list (option (dmat K))), (forall k, 0 <= k < nchild h t -> geto Dm (child h t k) = geto (u_D s) (child h t k)) ->
     exists v ps, node_idx h (u_idx s) Dm t (nchild h t) (nrows h t) = Some v /\ iv_len v = nrows h t /\ (forall k, 0 <= k < nrows h t -> ld (iv_data v) k = Some (ps k)) /\ pos_ok (fupd pos t ps) t).
  { intros Dm HDm. apply node_idx_spec; auto. intros k Hk. destruct (Hmid k Hk) as (U & D & _ & ED & _ & (D1 & _)). destruct (child_at h R t k Ht Hk) as (_ & Rc & _).
    destruct (IN _ Rc (Ct k Hk)) as (N1 & N2 & _ & _ & (Lm & Lf & v & Q & _ & _ & _ & _ & _ & _ & _ & _ & Ev & Ev2 & Hv) & _). exists D, v. rewrite HDm by auto. split; auto. split; auto. split; auto.
    intros d Hd. apply Hv. pose proof (rank_le _ Rc). lia. }
  assert (Cne : forall k, 0 <= k < nchild h t -> child h t k <> t) by (intros k Hk; destruct (child_at h R t k Ht Hk) as (_ & _ & Lt & _); lia).
  destruct (Z.ltb_spec 0 (level h t)) as [Hl|Hl].
  - destruct Nc as (M01 & M02 & M03 & M04). rewrite M01, M02.
    assert (R1 : 1 <= rank h t) by (destruct (U_at h R t Ht) as (U & _ & _ & _ & HU); pose proof (hs_min h HS); apply HU; lia).
    destruct (ulv_qr_spec la LA (ub_m0 b') (ub_m1 b') (nrows h t) (rank h t) Uh Dh) as (Qm & Um & d & P & tau & Rm & Eq & Q1 & Q2 & Q3 & Q4 & Q5 & Q6 & Q7 & Zd & Hd); [lia|split; auto|exact M1|].
    set (Q := qmat (nrows h t) (rank h t) P tau) in *. rewrite Eq. cbn [bind].
    destruct (core_inner (nrows h t) (rank h t) (ub_m0 b') d (u_logdet s) _ Hrk C2 Hd (fun Hc => conj_sym _ Q Dh (SyD Hc))) as (p & L & Dm & ok & lg & m0 & d' & E & Om & Zd' & HB & Hcore).
    rewrite E. cbn [bind].
    destruct (st_Some (u_Ls s) t (rank h t)) as [Ls ELs]; [lia|]. rewrite ELs. cbn [bind].
    destruct (setz_Some (u_p s) t p) as [up Eup]; [lia|]. rewrite Eup. cbn [bind].
    destruct (setz_Some (u_Q s) t (Some Qm)) as [uQ EuQ]; [lia|]. rewrite EuQ. cbn [bind].
    destruct (setz_Some (u_L s) t (Some L)) as [uL EuL]; [lia|]. rewrite EuL. cbn [bind].
    destruct (setz_Some (u_U s) t (Some Um)) as [uU EuU]; [lia|]. rewrite EuU. cbn [bind].
    destruct (setz_Some (u_D s) t (Some Dm)) as [uD EuD]; [lia|]. rewrite EuD. cbn [bind].
    match goal with |- context [setz (u_tb s) tid ?nb] => destruct (setz_Some (u_tb s) tid nb) as [tb Etb]; [lia|]; assert (Onb : bufok nb) end.
    { split; [exact C1|]. split; [exact Om|]. split; [apply dm_set_data_ok; auto; lia|exact C4]. }
    rewrite Etb. cbn [bind u_ok]. destruct ok; cbn [negb]; [|eexists; split; [reflexivity|]; cbn; split; [|discriminate]; intros _; exists Dh, Uh, Q; split; [exact Lk|]; split; [assumption|]; split; [exact SyD|]; apply HB; reflexivity].
    destruct (Hcore eq_refl) as (Lf & pm & Df & HL & HDm & Hblk & Hp). clear Hcore. cbn [u_L u_idx u_D u_U u_Ls u_p u_Q u_logdet u_tb].
    assert (EL : geto uL t = Some L) by (rewrite (geto_setz _ _ _ _ _ EuL), Z.eqb_refl; reflexivity). rewrite EL. cbn [bind].
    pose proof HL as (HL1 & _). rewrite HL1.
    destruct (Hidx uD) as (v & ps & Ev & Ev2 & Hv & Hps). { intros k Hk. rewrite (geto_setz _ _ _ _ _ EuD). destruct (Z.eqb_spec (child h t k) t); [destruct (Cne k Hk e)|reflexivity]. }
    rewrite Ev. cbn [bind]. destruct (setz_Some (u_idx s) t (Some v)) as [ix Eix]; [lia|]. rewrite Eix. cbn [bind].
    destruct (free_children_spec t uU Ht) as (uU' & EfU & _); [rewrite (setz_zlen _ _ _ _ EuU); lia|]. rewrite EfU. cbn [bind].
    destruct (free_children_spec t uD Ht) as (uD' & EfD & _); [rewrite (setz_zlen _ _ _ _ EuD); lia|]. rewrite EfD. cbn [bind].
    eexists. split; [reflexivity|]. split; [discriminate|]. intros _. exists (fupd nf t (mkfac (nrows h t) (rank h t) Dh Uh Q Lf pm Rm Df)), (fupd pos t ps).
    pose (s1 := Ulv Ls (u_idx s) up uQ uL uU uD true lg tb).
    assert (Gu : forall x, x <> t -> geto uU x = geto (u_U s) x /\ geto uD x = geto (u_D s) x /\ geto uL x = geto (u_L s) x /\ geto uQ x = geto (u_Q s) x /\ geto up x = geto (u_p s) x).
    { intros x Hx. rewrite (geto_setz _ _ _ _ _ EuU), (geto_setz _ _ _ _ _ EuD), (geto_setz _ _ _ _ _ EuL), (geto_setz _ _ _ _ _ EuQ), (geto_setz _ _ _ _ _ Eup).
      destruct (Z.eqb_spec x t); [contradiction|auto]. }
    apply (step_inv s1 (mkfac (nrows h t) (rank h t) Dh Uh Q Lf pm Rm Df) ps uU' uD' ix v); unfold s1; cbn [u_Ls u_L u_p u_Q u_idx u_U u_D u_tb mkfac f_n f_r f_Dh f_Uh f_D]; auto.
    + rewrite (ld_st _ _ _ _ _ ELs), Z.eqb_refl. reflexivity.
    + intros x Hx. rewrite (ld_st _ _ _ _ _ ELs). destruct (Z.eqb_spec t x); [congruence|reflexivity].
    + intros x Hx. apply Gu; auto.
    + intros x Hx. apply Gu; auto.
    + intros x Hx. apply Gu; auto.
    + intros x Hx. apply Gu; auto.
    + intros x Hx. apply Gu; auto.
    + intros _. exists Um, Dm. rewrite (geto_setz _ _ _ _ _ EuU), (geto_setz _ _ _ _ _ EuD), Z.eqb_refl, fupd_same. cbn [mkfac f_R f_D]. auto.
    + rewrite (st_zlen _ _ _ _ ELs); lia.
    + rewrite (setz_zlen _ _ _ _ Eup); lia.
    + rewrite (setz_zlen _ _ _ _ EuQ); lia.
    + rewrite (setz_zlen _ _ _ _ EuL); lia.
    + rewrite (setz_zlen _ _ _ _ EuU); lia.
    + rewrite (setz_zlen _ _ _ _ EuD); lia.
    + rewrite (setz_zlen _ _ _ _ Etb); lia.
    + eapply Forall_setz; [exact IT2|exact Onb|exact Etb].
    + apply mkfac_ok; auto.
    + intros Hc. rewrite Hc in Hblk. eapply blk_sym; [exact Hrk|apply conj_sym, SyD, Hc|exact Hblk].
    + exists L, Lf, v, Qm. cbn [u_Ls u_L u_p u_Q u_idx mkfac f_n f_r f_T1 f_T2 f_C12 f_C21 f_pm f_Q].
      split; [rewrite (ld_st _ _ _ _ _ ELs), Z.eqb_refl; reflexivity|]. split; [exact EL|]. split; [exact HL|]. split; [auto|]. split; [apply (bo_diag _ _ _ _ _ _ _ Hblk)|].
      split. { destruct chol; [exact Hp|]. destruct Hp as (p' & -> & Hp1 & Hp2). exists p'. rewrite (geto_setz _ _ _ _ _ Eup), Z.eqb_refl. auto. }
      split; [rewrite (geto_setz _ _ _ _ _ EuQ), Z.eqb_refl; reflexivity|].
      split. { destruct (Z.ltb_spec 0 (level h t)); [|lia]. exists P, tau. auto 10. }
      split; [rewrite (geto_setz _ _ _ _ _ Eix), Z.eqb_refl; reflexivity|]. auto.
  - assert (L0 : level h t = 0) by lia. pose proof (rank_root t Ht L0) as Rk0.
    rewrite Nr. pose proof M1 as (_ & _ & _ & Hd). assert (Hn : 0 <= nrows h t) by lia.
    destruct (core_root (nrows h t) (dm_data (ub_m1 b')) (u_logdet s) Dh Hn Hd SyD) as (p & L & ok & lg & E & HB & Hcore). rewrite E. cbn [bind].
    destruct (st_Some (u_Ls s) t 0%Z) as [Ls ELs]; [lia|]. rewrite ELs. cbn [bind].
    destruct (setz_Some (u_p s) t p) as [up Eup]; [lia|]. rewrite Eup. cbn [bind].
    destruct (setz_Some (u_Q s) t (Some (dm_init 1 1))) as [uQ EuQ]; [lia|]. rewrite EuQ. cbn [bind].
    destruct (setz_Some (u_L s) t (Some L)) as [uL EuL]; [lia|]. rewrite EuL. cbn [bind].
    destruct (setz_Some (u_tb s) tid b') as [tb Etb]; [lia|]. rewrite Etb. cbn [bind u_ok]. destruct ok; cbn [negb].
    2:{ eexists; split; [reflexivity|]; cbn; split; [|discriminate]; intros _; exists Dh, Uh, delta; split; [exact Lk|]; split; [apply delta_orth|]; split; [exact SyD|].
        destruct (HB eq_refl) as (A & HA & Hi). exists A. rewrite Rk0, Z.sub_0_r. split; [|exact Hi]. intros i j Hi' Hj. rewrite HA by auto. symmetry. now apply delta_conj. }
    destruct (Hcore eq_refl) as (Lf & pm & HL & Hblk & Hp). clear Hcore. cbn [u_L u_idx u_D u_U u_Ls u_p u_Q u_logdet u_tb].
    assert (EL : geto uL t = Some L) by (rewrite (geto_setz _ _ _ _ _ EuL), Z.eqb_refl; reflexivity). rewrite EL. cbn [bind].
    pose proof HL as (HL1 & _). rewrite HL1.
    destruct (Hidx (u_D s)) as (v & ps & Ev & Ev2 & Hv & Hps); [auto|].
    rewrite Ev. cbn [bind]. destruct (setz_Some (u_idx s) t (Some v)) as [ix Eix]; [lia|]. rewrite Eix. cbn [bind].
    destruct (free_children_spec t (u_U s) Ht Y6) as (uU' & EfU & _). rewrite EfU. cbn [bind].
    destruct (free_children_spec t (u_D s) Ht Y7) as (uD' & EfD & _). rewrite EfD. cbn [bind].
    set (f := mkfac (nrows h t) (rank h t) Dh Uh delta Lf pm (fun _ _ => c0) (fun _ _ => c0)).
    eexists. split; [reflexivity|]. split; [discriminate|]. intros _. exists (fupd nf t f), (fupd pos t ps).
    pose (s1 := Ulv Ls (u_idx s) up uQ uL (u_U s) (u_D s) true lg tb).
    assert (Gu : forall x, x <> t -> geto uL x = geto (u_L s) x /\ geto uQ x = geto (u_Q s) x /\ geto up x = geto (u_p s) x).
    { intros x Hx. rewrite (geto_setz _ _ _ _ _ EuL), (geto_setz _ _ _ _ _ EuQ), (geto_setz _ _ _ _ _ Eup). destruct (Z.eqb_spec x t); [contradiction|auto]. }
    apply (step_inv s1 f ps uU' uD' ix v); unfold s1, f; cbn [u_Ls u_L u_p u_Q u_idx u_U u_D u_tb mkfac f_n f_r f_Dh f_Uh f_D]; auto.
    + rewrite (ld_st _ _ _ _ _ ELs), Z.eqb_refl, Rk0. reflexivity.
    + intros x Hx. rewrite (ld_st _ _ _ _ _ ELs). destruct (Z.eqb_spec t x); [congruence|reflexivity].
    + intros x Hx. apply Gu; auto.
    + intros x Hx. apply Gu; auto.
    + intros x Hx. apply Gu; auto.
    + intros; contradiction.
    + rewrite (st_zlen _ _ _ _ ELs); lia.
    + rewrite (setz_zlen _ _ _ _ Eup); lia.
    + rewrite (setz_zlen _ _ _ _ EuQ); lia.
    + rewrite (setz_zlen _ _ _ _ EuL); lia.
    + rewrite (setz_zlen _ _ _ _ Etb); lia.
    + eapply Forall_setz; [exact IT2| |exact Etb]. split; auto.
    + apply mkfac_ok; [lia|apply delta_orth|intros; lia|]. rewrite Rk0. eapply blk_ok_ext; [lia| |apply Hblk]. intros i j Hi Hj. symmetry. now apply delta_conj.
    + intros _ i j Hi. lia.
    + exists L, Lf, v, (dm_init 1 1). cbn [u_Ls u_L u_p u_Q u_idx mkfac f_n f_r f_T1 f_T2 f_C12 f_C21 f_pm f_Q].
      split; [rewrite (ld_st _ _ _ _ _ ELs), Z.eqb_refl, Rk0; reflexivity|]. split; [exact EL|]. split; [exact HL|]. split; [auto|]. split; [rewrite Rk0; apply (bo_diag _ _ _ _ _ _ _ (Hblk Dh))|].
      split. { destruct chol; [exact Hp|]. destruct Hp as (p' & -> & Hp1 & Hp2). exists p'. rewrite (geto_setz _ _ _ _ _ Eup), Z.eqb_refl, Rk0, Z.sub_0_r. auto. }
      split; [rewrite (geto_setz _ _ _ _ _ EuQ), Z.eqb_refl; reflexivity|].
      split. { destruct (Z.ltb_spec 0 (level h t)); [lia|]. reflexivity. }
      split; [rewrite (geto_setz _ _ _ _ _ Eix), Z.eqb_refl; reflexivity|]. auto.
Qed.
End Step.
End Node.
