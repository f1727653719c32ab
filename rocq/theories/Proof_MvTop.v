(** Dense part, final reduction and the whole matvec. *)
From Coq Require Import ZArith List Lia Bool Permutation.
From Verif Require Import Base Mem Num CRing Conc Model_Utils Spec_Utils Proof_Utils Model_Dense Spec_Dense Proof_Dense2 Proof_Dense3 Model_Partition Spec_Tree Model_Matvec Spec_Matvec Proof_Gemv Proof_MvTree Proof_MvFwd Proof_MvMid Proof_MvBwd.
Import ListNotations.
Open Scope Z_scope.

Lemma blocks_perm nth blk n size asg : 0 <= nth -> blocks_ok blk n size -> block_assignment nth (iv_len blk - 1) asg ->
  exists m, 0 <= m <= n /\ Permutation (map snd (concat (thread_items blk asg))) (zrange 0 m) /\
    (forall t i, In (t, i) (concat (thread_items blk asg)) -> 0 <= t < nth) /\
    (forall k, m <= k < n -> size k = 0) /\ zlen asg = nth.
Proof.
  intros Hn (b & Hb & B1 & B2 & B3 & B4 & B5) Ha. pose proof Hb as (_ & I2 & _).
  apply assignment_perm in Ha as [A1 A2]; try lia.
  destruct (thread_items_spec _ _ _ Hb B1 B2 B3 A2) as [T1 T2]. rewrite A1 in T2.
  exists (nthz b (zlen b - 1)). split; [split; auto; apply (zrange_tile b (zlen b)); auto; lia|]. auto.
Qed.

Lemma concat_combine_perm {A B} (l0 l1 : list (list A)) (f g : A -> B) : length l0 = length l1 ->
  Permutation (concat (map (fun '(x, y) => map f x ++ map g y) (combine l0 l1))) (map f (concat l0) ++ map g (concat l1)).
Proof.
  revert l1. induction l0 as [|x l0 IH]; intros [|y l1] H; cbn in H; try lia; [constructor|].
  cbn [combine map concat]. rewrite (IH l1) by lia. rewrite !map_app.
  rewrite <- !app_assoc. apply Permutation_app_head. rewrite !app_assoc. apply Permutation_app_tail. apply Permutation_app_comm.
Qed.

Lemma NoDup_tagged (l0 l1 : list Z) : NoDup l0 -> NoDup l1 -> NoDup (map (pair false) l0 ++ map (pair true) l1).
Proof.
  intros H0 H1. induction H0 as [|a l0 Hn H0 IH]; cbn [map app].
  - induction H1 as [|b l1 Hn H1 IH]; cbn [map]; constructor; auto. rewrite in_map_iff. intros (x & E & Hx). injection E as ->. auto.
  - constructor; auto. rewrite in_app_iff, !in_map_iff. intros [(x & E & Hx)|(x & E & Hx)]; [injection E as ->; auto|discriminate].
Qed.

Section Top.
Context {F : num} {K : cring}.
Add Ring Kring : (cth K).
Local Open Scope ring_K.
Variable h : h2rep F K.
Hypothesis R : rep_ok h.
Notation t := (h_t h).
Notation nth := (h_nthread h).

Lemma number_length {A} (l : list A) : length (number l) = length l.
Proof. unfold number. rewrite combine_length. unfold zrange. rewrite map_length, seq_length. unfold zlen. lia. Qed.

Lemma den_schedule_perm l : den_schedule h l ->
  Forall (fun ev => 0 <= fst ev < nth) l /\
  exists m0 m1, 0 <= m0 <= h_nleaf h /\ 0 <= m1 <= zlen (h_inadm h) /\
    Permutation (map snd l) (map (pair false) (zrange 0 m0) ++ map (pair true) (zrange 0 m1)) /\
    (forall k, m0 <= k < h_nleaf h -> (Dnrow h k * Dncol h k = 0)%Z) /\
    forall k, m1 <= k < zlen (h_inadm h) -> (Dnrow h (h_nleaf h + k) * Dncol h (h_nleaf h + k) = 0)%Z.
Proof.
  intros (a0 & a1 & A0 & A1 & Hi). destruct (ro_dims _ R) as (_ & _ & D3 & _).
  destruct (blocks_perm nth _ _ _ _ ltac:(lia) (ro_D0blk _ R) A0) as (m0 & M0 & P0 & T0 & E0 & L0).
  destruct (blocks_perm nth _ _ _ _ ltac:(lia) (ro_D1blk _ R) A1) as (m1 & M1 & P1 & T1 & E1 & L1).
  apply inter_permutation in Hi.
  assert (Hp : Permutation l (map (fun '(t, i) => (t, (false, i))) (concat (thread_items (h_D0blk h) a0)) ++
                              map (fun '(t, i) => (t, (true, i))) (concat (thread_items (h_D1blk h) a1)))).
  { rewrite Hi. apply concat_combine_perm. unfold thread_items. rewrite !map_length, !number_length. unfold zlen in *. lia. }
  split.
  - rewrite Forall_forall. intros ev Hev. apply (Permutation_in _ Hp) in Hev. apply in_app_iff in Hev as [Hev|Hev];
    apply in_map_iff in Hev as ([t0 i] & <- & Hin); cbn [fst]; eauto.
  - exists m0, m1. split; auto. split; auto. split; auto. rewrite Hp, map_app, !map_map.
    apply Permutation_app.
    + rewrite (map_ext _ (fun x : Z * Z => pair false (snd x))) by (intros [? ?]; auto). rewrite <- (map_map snd (pair false)). now apply Permutation_map.
    + rewrite (map_ext _ (fun x : Z * Z => pair true (snd x))) by (intros [? ?]; auto). rewrite <- (map_map snd (pair true)). now apply Permutation_map.
Qed.

Section Dense.
Variable xv : Z -> K.
Variable s0 : mvst K.
Hypothesis Hpx : forall p, 0 <= p < h_kms h -> ld (s_px s0) p = Some (xv p).

Definition diagc (k p : Z) : K := rsum 0 (h_kms h) (fun q => diag_block h k p q * xv q).
Definition offc (k p : Z) : K := rsum 0 (h_kms h) (fun q => (inadm_block h k p q + inadm_block h k q p) * xv q).

Lemma D_at k n0 n1 p : 0 <= msize h n0 -> 0 <= msize h n1 -> ld (h_Dptr h) k = Some p -> ld (h_Dncol h) k = Some (msize h n1) ->
  filled_at (h_Ddata h) p (msize h n0 * msize h n1) ->
  forall r c, 0 <= r < msize h n0 -> 0 <= c < msize h n1 -> ld (h_Ddata h) (p + r * msize h n1 + c) = Some (Dval h k r c).
Proof.
  intros Z0 Z1 P1 P2 [P3 P4] r c Hr Hc. unfold Dval. rewrite P1, P2. cbn [val]. destruct (P4 (r * msize h n1 + c)%Z) as [v Hv]; [nia|].
  replace (p + r * msize h n1 + c)%Z with (p + (r * msize h n1 + c))%Z by lia. rewrite Hv. auto.
Qed.

Lemma dense_diag_spec tid k ty : ty_ok h ty -> 0 <= tid < nth -> 0 <= k < h_nleaf h ->
  exists ty', dense_diag h tid k (set_ty s0 ty) = Some (set_ty s0 ty') /\ ty_ok h ty' /\
    forall p, 0 <= p < h_kms h -> tysum h ty' p = tysum h ty p + diagc k p.
Proof.
  intros (Zt & Tt) Ht Hk. destruct (leaf_at h R k Hk) as (El & Rl). destruct (ro_D0 _ R k Hk) as (ptr & P1 & P2 & P3 & P4).
  set (n := leaf h k) in *. destruct (cluster_range h R n Rl) as (C1 & C2 & C3).
  unfold dense_diag. rewrite El. cbn [bind]. rewrite (ld_mfirst h R) by auto. rewrite P1, P2, P3. cbn [bind set_ty s_ty].
  destruct (Tt tid Ht) as (y & Ey & Zy & Vy). rewrite Ey. cbn [bind].
  destruct (gemv_n_spec (msize h n) (msize h n) (h_Ddata h) ptr (msize h n) (fun c => ld (s_px s0) (mfirst h n + c)) true y (mfirst h n)
    (Dval h k) (fun c => xv (mfirst h n + c)%Z) (fun r => val c0 (ld y (mfirst h n + r)%Z))) as (y' & E' & Z' & G' & O'); try lia.
  { intros r c. apply D_at with (n0 := n); auto; lia. }
  { intros c Hc. apply Hpx. lia. }
  { intros _ r Hr. destruct (Vy (mfirst h n + r)%Z ltac:(lia)) as [v Hv]. now rewrite Hv. }
  cbn [set_ty s_px]. rewrite E'. cbn [bind].
  destruct (setz_Some ty tid y') as [ty' Es]; [lia|]. rewrite Es. cbn [bind]. exists ty'. split; auto.
  assert (Gy : forall p, 0 <= p < h_kms h -> ld y' p = Some (val c0 (ld y p) + (if inside h n p then rsum 0 (msize h n) (fun c => Dval h k (p - mfirst h n) c * xv (mfirst h n + c)%Z) else c0))).
  { intros p Hp. destruct (inside h n p) eqn:Ei.
    - apply (inside_iff h) in Ei. specialize (G' (p - mfirst h n)%Z ltac:(lia)). replace (mfirst h n + (p - mfirst h n))%Z with p in G' by lia. exact G'.
    - rewrite O'. { destruct (Vy p Hp) as [v Hv]. rewrite Hv. cbn [val]. f_equal. ring. }
      intros Hx. apply (inside_iff h) in Hx. congruence. }
  split.
  - split; [rewrite (setz_zlen _ _ _ _ Es); auto|]. intros t' Ht'. rewrite (getz_setz _ _ _ _ _ Es). destruct (Z.eqb_spec tid t'); [|auto].
    exists y'. split; auto. split; [lia|]. intros p Hp. rewrite Gy by auto. eauto.
  - intros p Hp. unfold tysum. rewrite (rsum_upd 0 nth (fun tid => tyval ty tid p) _ tid (diagc k p)); auto.
    + unfold tyval. rewrite (getz_setz _ _ _ _ _ Es), Z.eqb_refl, Ey, Gy by auto. cbn [val]. f_equal.
      unfold diagc, diag_block. fold n. destruct (inside h n p).
      * rewrite <- (rsum_ext 0 (h_kms h) (fun q => if inside h n q then Dval h k (p - mfirst h n) (q - mfirst h n) * xv q else c0)).
        2:{ intros q Hq. cbn [andb]. destruct (inside h n q); ring. }
        rewrite (rsum_inside h R) by auto. apply rsum_ext. intros c Hc. do 2 f_equal. lia.
      * symmetry. apply rsum_zero. intros q Hq. cbn [andb]. ring.
    + intros i Hi Hne. unfold tyval. rewrite (getz_setz _ _ _ _ _ Es). destruct (Z.eqb_spec tid i); [congruence|auto].
Qed.

Lemma offc_bi k n0 n1 p : getz (h_inadm h) k = Some (n0, n1) ->
  rsum 0 (msize h n0) (bi_term (msize h n1) (fun p r => if p =? mfirst h n0 + r then c1 else c0) (fun p c => if p =? mfirst h n1 + c then c1 else c0)
    (Dval h (h_nleaf h + k)) (fun c => xv (mfirst h n1 + c)%Z) (fun r => xv (mfirst h n0 + r)%Z) p) = offc k p.
Proof.
  intros Hk. destruct (ro_inadm _ R _ _ _ Hk) as (N0 & N1).
  destruct (cluster_range h R n0 N0) as (C01 & C02 & C03). destruct (cluster_range h R n1 N1) as (C11 & C12 & C13).
  unfold offc. rewrite (rsum_ext 0 (h_kms h) _ (fun q => inadm_block h k p q * xv q + inadm_block h k q p * xv q)) by (intros; ring).
  rewrite rsum_add. unfold bi_term. 
  rewrite rsum_add. f_equal.
  - unfold inadm_block. rewrite Hk. destruct (inside h n0 p) eqn:E0.
    + rewrite (rsum_ext 0 (h_kms h) _ (fun q => if inside h n1 q then Dval h (h_nleaf h + k) (p - mfirst h n0) (q - mfirst h n1) * xv q else c0)).
      2:{ intros q Hq. cbn [andb]. destruct (inside h n1 q); ring. }
      rewrite (rsum_inside h R) by auto. apply (inside_iff h) in E0.
      rewrite (rsum_only 0 (msize h n0) _ (p - mfirst h n0)%Z); [|lia|].
      * replace (mfirst h n0 + (p - mfirst h n0))%Z with p by lia. rewrite Z.eqb_refl.
        rewrite <- rsum_mul_l. apply rsum_ext. intros c Hc. replace (mfirst h n1 + c - mfirst h n1)%Z with c by lia. ring.
      * intros r Hr Hne. destruct (Z.eqb_spec p (mfirst h n0 + r)); [lia|ring].
    + rewrite (rsum_zero 0 (h_kms h)); [|intros; cbn [andb]; ring]. apply rsum_zero. intros r Hr.
      destruct (Z.eqb_spec p (mfirst h n0 + r)); [|ring]. assert (inside h n0 p = true) by (apply (inside_iff h); lia). congruence.
  - unfold inadm_block. rewrite Hk. rewrite rsum_swap. destruct (inside h n1 p) eqn:E1.
    + rewrite (rsum_ext 0 (h_kms h) _ (fun q => if inside h n0 q then Dval h (h_nleaf h + k) (q - mfirst h n0) (p - mfirst h n1) * xv q else c0)).
      2:{ intros q Hq. rewrite andb_true_r. destruct (inside h n0 q); ring. }
      rewrite (rsum_inside h R) by auto. apply (inside_iff h) in E1.
      rewrite (rsum_only 0 (msize h n1) _ (p - mfirst h n1)%Z); [|lia|].
      * replace (mfirst h n1 + (p - mfirst h n1))%Z with p by lia. rewrite Z.eqb_refl.
        apply rsum_ext. intros c Hc. replace (mfirst h n0 + c - mfirst h n0)%Z with c by lia. ring.
      * intros r Hr Hne. destruct (Z.eqb_spec p (mfirst h n1 + r)); [lia|]. apply rsum_zero. intros; ring.
    + rewrite (rsum_zero 0 (h_kms h)); [|intros q Hq; rewrite andb_false_r; ring]. apply rsum_zero. intros c Hc. apply rsum_zero. intros r Hr.
      destruct (Z.eqb_spec p (mfirst h n1 + c)); [|ring]. assert (inside h n1 p = true) by (apply (inside_iff h); lia). congruence.
Qed.

Lemma dense_off_spec tid k ty : ty_ok h ty -> 0 <= tid < nth -> 0 <= k < zlen (h_inadm h) ->
  exists ty', dense_off h tid k (set_ty s0 ty) = Some (set_ty s0 ty') /\ ty_ok h ty' /\
    forall p, tysum h ty' p = tysum h ty p + offc k p.
Proof.
  intros Hty Ht Hk. destruct (getz_in (h_inadm h) k Hk) as [[n0 n1] En].
  destruct (ro_inadm _ R _ _ _ En) as (N0 & N1). destruct (ro_D _ R _ _ _ En) as (ptr & P1 & P2 & P3 & P4).
  destruct (cluster_range h R n0 N0) as (C01 & C02 & C03). destruct (cluster_range h R n1 N1) as (C11 & C12 & C13).
  unfold dense_off. rewrite En. cbn [bind]. rewrite !(Z.mul_comm 2). rewrite !(ld_mfirst h R) by auto. rewrite P1, P2, P3. cbn [bind set_ty s_px].
  pose (I := fun s : mvst K => exists ty, s = set_ty s0 ty /\ ty_ok h ty).
  pose (T := fun p (s : mvst K) => tysum h (s_ty s) p).
  assert (Add : forall off v s c, 0 <= off + c < h_kms h -> I s ->
    exists s', add_ty tid off c v s = Some s' /\ I s' /\ forall p, T p s' = T p s + (if p =? off + c then c1 else c0) * v).
  { intros off v s c Hc (tyc & -> & Oc). destruct (ty_add h tyc tid (off + c)%Z v Oc Ht Hc) as (m & d & ty' & Em & Ed & Es & Ok & Ts).
    unfold add_ty. cbn [set_ty s_ty]. rewrite Em. cbn [bind]. rewrite Ed. cbn [bind]. rewrite Es. cbn [bind].
    eexists. split; [reflexivity|]. split; [exists ty'; auto|]. intros p. apply Ts. }
  destruct (bi_gemv_spec I T (msize h n0) (msize h n1) (h_Ddata h) ptr (msize h n1) (fun k => ld (s_px s0) (mfirst h n1 + k)) (fun k => ld (s_px s0) (mfirst h n0 + k))
    (add_ty tid (mfirst h n0)) (add_ty tid (mfirst h n1)) (fun p r => if p =? mfirst h n0 + r then c1 else c0) (fun p c => if p =? mfirst h n1 + c then c1 else c0)
    (Dval h (h_nleaf h + k)) (fun c => xv (mfirst h n1 + c)%Z) (fun r => xv (mfirst h n0 + r)%Z)) with (s := set_ty s0 ty) as (s' & E & (ty' & -> & Ok) & Ts).
  all: try lia.
  - intros r c. apply D_at with (n0 := n0); auto; lia.
  - intros j Hj. apply Hpx. lia.
  - intros j Hj. apply Hpx. lia.
  - intros i v s Hi Hs. apply Add; auto. lia.
  - intros i v s Hi Hs. apply Add; auto. lia.
  - exists ty. auto.
  - exists ty'. split; auto. split; auto. intros p. specialize (Ts p). unfold T in Ts. cbn [set_ty s_ty] in Ts. rewrite Ts. f_equal. now apply offc_bi.
Qed.

Lemma diagc_empty k p : 0 <= k < h_nleaf h -> (Dnrow h k * Dncol h k = 0)%Z -> diagc k p = c0.
Proof.
  intros Hk H. exfalso. destruct (ro_D0 _ R k Hk) as (ptr & P1 & P2 & P3 & P4). unfold Dnrow, Dncol in H. rewrite P2, P3 in H. cbn [val] in H.
  destruct (leaf_at h R k Hk) as (El & Rl). destruct (cluster_range h R _ Rl) as (C1 & C2 & C3). nia.
Qed.
Lemma offc_empty k p : 0 <= k < zlen (h_inadm h) -> (Dnrow h (h_nleaf h + k) * Dncol h (h_nleaf h + k) = 0)%Z -> offc k p = c0.
Proof.
  intros Hk H. exfalso. destruct (getz_in (h_inadm h) k Hk) as [[n0 n1] En]. destruct (ro_D _ R _ _ _ En) as (ptr & P1 & P2 & P3 & P4).
  unfold Dnrow, Dncol in H. rewrite P2, P3 in H. cbn [val] in H. destruct (ro_inadm _ R _ _ _ En) as (N0 & N1).
  destruct (cluster_range h R n0 N0) as (C01 & C02 & C03). destruct (cluster_range h R n1 N1) as (C11 & C12 & C13). nia.
Qed.

Lemma dense_mult_spec evs ty : den_schedule h evs -> ty_ok h ty ->
  exists ty', dense_mult h evs (set_ty s0 ty) = Some (set_ty s0 ty') /\ ty_ok h ty' /\
    forall p, 0 <= p < h_kms h -> tysum h ty' p = tysum h ty p + rsum 0 (h_nleaf h) (fun k => diagc k p) + rsum 0 (zlen (h_inadm h)) (fun k => offc k p).
Proof.
  intros Hsc Hty. destruct (den_schedule_perm evs Hsc) as (Ht & m0 & m1 & M0 & M1 & Hp & E0 & E1). rewrite Forall_forall in Ht.
  pose (cc := fun p (x : bool * Z) => if fst x then offc (snd x) p else diagc (snd x) p).
  assert (Hin : forall ev, In ev evs -> if fst (snd ev) then 0 <= snd (snd ev) < m1 else 0 <= snd (snd ev) < m0).
  { intros ev Hev. apply (in_map snd) in Hev. apply (Permutation_in _ Hp) in Hev. apply in_app_iff in Hev as [Hev|Hev];
    apply in_map_iff in Hev as (k & <- & Hk); apply In_zrange in Hk; cbn; lia. }
  unfold dense_mult.
  destruct (run_each snd (fun (ev : Z * (bool * Z)) s => let '(tid, (isoff, i)) := ev in if (isoff : bool) then dense_off h tid i s else dense_diag h tid i s)
    (fun done s' => exists ty', s' = set_ty s0 ty' /\ ty_ok h ty' /\ forall p, 0 <= p < h_kms h -> tysum h ty' p = tysum h ty p + lsum (cc p) done) evs [] (set_ty s0 ty))
    as (s' & E & ty' & -> & Ok & T').
  - eapply Permutation_NoDup; [symmetry; exact Hp|]. apply NoDup_tagged; apply NoDup_zrange.
  - intros e He [].
  - exists ty. split; auto. split; auto. intros p Hpp. rewrite lsum_nil. ring.
  - intros done [tid [o k]] s1 Hev Hd (ty1 & -> & O1 & T1). cbn [snd]. specialize (Ht _ Hev). specialize (Hin _ Hev). cbn [fst snd] in Ht, Hin. destruct o.
    + destruct (dense_off_spec tid k ty1 O1 Ht ltac:(lia)) as (ty2 & E2 & O2 & T2). exists (set_ty s0 ty2). split; auto. exists ty2. split; auto. split; auto.
      intros p Hpp. rewrite T2, T1, lsum_cons by auto. unfold cc at 2. cbn [fst snd]. ring.
    + destruct (dense_diag_spec tid k ty1 O1 Ht ltac:(lia)) as (ty2 & E2 & O2 & T2). exists (set_ty s0 ty2). split; auto. exists ty2. split; auto. split; auto.
      intros p Hpp. rewrite T2, T1, lsum_cons by auto. unfold cc at 2. cbn [fst snd]. ring.
  - exists ty'. split; auto. split; auto. intros p Hpp. rewrite T' by auto. rewrite app_nil_r.
    rewrite (lsum_perm _ _ (map (pair false) (zrange 0 m0) ++ map (pair true) (zrange 0 m1))).
    + rewrite lsum_app, !lsum_map. unfold cc. cbn [fst snd].
      rewrite (rsum_split 0 m0 (h_nleaf h)), (rsum_split 0 m1 (zlen (h_inadm h))) by lia.
      rewrite (rsum_zero m0), (rsum_zero m1).
      * unfold rsum. ring.
      * intros k Hk. apply offc_empty; [lia|auto].
      * intros k Hk. apply diagc_empty; [lia|auto].
    + rewrite <- Hp. symmetry. apply Permutation_rev.
Qed.
End Dense.

(** ** Resetting and reducing the output *)
Lemma reset_y_spec s : zlen (s_ty s) = nth -> Forall (fun y => zlen y = h_kms h) (s_ty s) -> h_kms h <= zlen (s_py s) -> zlen (s_yT s) = h_kms h ->
  exists ty py yT, reset_y h s = Some (set_yT (set_py (set_ty s ty) py) yT) /\ ty_ok h ty /\ py_ok h py /\ zlen yT = h_kms h /\
    forall p, 0 <= p < h_kms h -> tysum h ty p = c0 /\ pyval py p = c0.
Proof.
  intros Zt Ft Zp ZT. unfold reset_y.
  assert (Hk : 0 <= h_kms h) by (pose proof (zlen_nonneg (s_yT s)); lia).
  pose (P := fun (j : Z) (ty : list (mem K)) => zlen ty = nth /\ Forall (fun y => zlen y = h_kms h) ty /\
    forall tid y p, tid < j -> getz ty tid = Some y -> 0 <= p < h_kms h -> ld y p = Some c0).
  match goal with |- context [zfor 0 nth ?b ?z] => destruct (zfor_inv P 0 nth b z) as [ty [E (P1 & P2 & P3)]] end.
  - pose proof (zlen_nonneg (s_ty s)). lia.
  - split; auto. split; auto. intros tid y p Ht G. apply getz_range in G. lia.
  - intros tid ty Ht (P1 & P2 & P3). destruct (getz_in ty tid ltac:(lia)) as [y Ey]. rewrite Ey. cbn [bind].
    pose proof (Forall_getz _ _ _ _ P2 Ey) as Zy. cbn in Zy.
    destruct (mzero_spec c0 y (h_kms h) ltac:(lia)) as (y' & Ey' & Zy' & Gy'). rewrite Ey'. cbn [bind].
    destruct (setz_Some ty tid y') as [ty' Es]; [lia|]. exists ty'. split; auto. split; [rewrite (setz_zlen _ _ _ _ Es); auto|].
    split. { eapply (Forall_setz _ _ _ _ _ P2); [|exact Es]. lia. }
    intros t' y1 p Ht' G Hp. rewrite (getz_setz _ _ _ _ _ Es) in G. destruct (Z.eqb_spec tid t').
    + injection G as <-. auto.
    + apply (P3 t' y1); auto. lia.
  - rewrite E. cbn [bind]. destruct (mzero_spec c0 (s_py s) (h_kms h) ltac:(lia)) as (py & Ep & Zpy & Gpy). rewrite Ep. cbn [bind].
    destruct (mzero_spec c0 (s_yT s) (h_kms h) ltac:(lia)) as (yT & EyT & ZyT & GyT). rewrite EyT. cbn [bind].
    exists ty, py, yT. split; auto. split; [|split; [|split]].
    + split; auto. intros tid Ht. destruct (getz_in ty tid ltac:(lia)) as [y Ey]. exists y. split; auto.
      split; [exact (Forall_getz _ _ _ _ P2 Ey)|]. intros p Hp. exists c0. apply (P3 tid y); auto. lia.
    + split; [lia|]. intros p Hp. exists c0. auto.
    + lia.
    + intros p Hp. split.
      * unfold tysum. apply rsum_zero. intros tid Ht. unfold tyval. destruct (getz ty tid) as [y|] eqn:Ey; auto.
        rewrite (P3 tid y p); auto. lia.
      * unfold pyval. now rewrite Gpy.
Qed.

Definition covers (tid p : Z) : bool :=
  match calc_block_spos_len (h_kms h) nth tid with Some (s, l) => (s <=? p) && (p <? s + l) | None => false end.

Lemma reduce_y_spec s tid py : ty_ok h (s_ty s) -> py_ok h py -> 0 <= tid < nth ->
  exists py', reduce_y h tid (set_py s py) = Some (set_py s py') /\ py_ok h py' /\
    forall p, 0 <= p < h_kms h -> pyval py' p = pyval py p + (if covers tid p then tysum h (s_ty s) p else c0).
Proof.
  intros (Zt & Tt) Hpy Ht. assert (Hk : 0 <= h_kms h) by (destruct (Tt tid Ht) as (y & _ & <- & _); apply zlen_nonneg).
  destruct (cb_tiles (h_kms h) nth Hk ltac:(lia)) as (C1 & _). destruct (C1 tid Ht) as (sp & len & Ec & B1 & B2 & B3).
  unfold reduce_y, covers. rewrite Ec. cbn [bind set_py s_ty s_py].
  pose (P := fun (j : Z) (py' : mem K) => py_ok h py' /\
    forall p, 0 <= p < h_kms h -> pyval py' p = pyval py p + (if (sp <=? p) && (p <? sp + len) then rsum 0 j (fun t => tyval (s_ty s) t p) else c0)).
  match goal with |- context [zfor 0 nth ?b ?z] => destruct (zfor_inv P 0 nth b z) as [py' [E (P1 & P2)]] end.
  - lia.
  - split; auto. intros p Hp. destruct (_ && _); [rewrite rsum_empty by lia|]; ring.
  - intros j pj Hj (P1 & P2). destruct (Tt j Hj) as (src & Es & Zs & Vs). rewrite Es. cbn [bind].
    pose (Q := fun (i : Z) (py' : mem K) => py_ok h py' /\
      forall p, 0 <= p < h_kms h -> pyval py' p = pyval pj p + (if (sp <=? p) && (p <? i) then tyval (s_ty s) j p else c0)).
    match goal with |- context [zfor sp (sp + len) ?b ?z] => destruct (zfor_inv Q sp (sp + len) b z) as [pk [Ek (Q1 & Q2)]] end.
    + lia.
    + split; auto. intros p Hp. destruct (Z.leb_spec sp p); destruct (Z.ltb_spec p sp); cbn [andb]; try ring; lia.
    + intros i pi Hi ((Q1 & Q1') & Q2). destruct (Vs i ltac:(lia)) as [v Hv]. rewrite Hv. cbn [bind]. destruct (Q1' i ltac:(lia)) as [w Hw].
      destruct (madd_spec pi i v w Hw) as (pi' & E' & Z' & G'). exists pi'. split; auto. split.
      * split; [lia|]. intros p Hp. rewrite G'. destruct (i =? p); eauto.
      * intros p Hp. unfold pyval at 1. rewrite G'. destruct (Z.eqb_spec i p).
        -- subst p. cbn [val]. specialize (Q2 i Hp). unfold pyval at 1 in Q2. rewrite Hw in Q2. cbn [val] in Q2. rewrite Q2.
           destruct (Z.leb_spec sp i); [|lia]. destruct (Z.ltb_spec i i); [lia|]. destruct (Z.ltb_spec i (i + 1)); [|lia]. cbn [andb].
           unfold tyval. rewrite Es, Hv. cbn [val]. ring.
        -- fold (pyval pi p). rewrite Q2 by auto. f_equal. destruct (Z.leb_spec sp p); destruct (Z.ltb_spec p i); destruct (Z.ltb_spec p (i + 1)); auto; lia.
    + exists pk. split; auto. split; auto. intros p Hp. rewrite Q2, P2 by auto. destruct (_ && _); [rewrite rsum_snoc by lia|]; ring.
  - rewrite E. cbn [bind]. exists py'. auto.
Qed.

Lemma reduce_spec s team : ty_ok h (s_ty s) -> py_ok h (s_py s) -> Permutation team (zrange 0 nth) ->
  exists py', run (map (reduce_y h) team) s = Some (set_py s py') /\ py_ok h py' /\
    forall p, 0 <= p < h_kms h -> pyval py' p = pyval (s_py s) p + tysum h (s_ty s) p.
Proof.
  intros Hty Hpy Hp. assert (Hk : 0 <= h_kms h) by (destruct (ct_root _ _ _ _ _ _ (ro_tree _ R)) as (H1 & _); destruct (cluster_range h R 0 ltac:(lia)) as (C1 & C2 & C3); lia).
  destruct (ro_dims _ R) as (_ & _ & D3 & _).
  destruct (cb_tiles (h_kms h) nth Hk ltac:(lia)) as (C1 & C2 & C3).
  destruct (run_each (fun x : Z => x) (reduce_y h) (fun done s' => exists py', s' = set_py s py' /\ py_ok h py' /\ (forall t, In t done -> 0 <= t < nth) /\
     forall p, 0 <= p < h_kms h -> pyval py' p = pyval (s_py s) p + (if existsb (fun t => covers t p) done then tysum h (s_ty s) p else c0)) team [] s)
    as (s' & E & py' & -> & O' & _ & V').
  - rewrite map_id. eapply Permutation_NoDup; [symmetry; exact Hp|apply NoDup_zrange].
  - intros e He [].
  - exists (s_py s). split; [now destruct s|]. split; auto. split; [intros ? []|]. intros p Hpp. cbn [existsb]. ring.
  - intros done tid s1 Hin Hnd (py & -> & Oy & Ld & Vy).
    assert (Ht : 0 <= tid < nth) by (apply In_zrange; eapply Permutation_in; eauto).
    destruct (reduce_y_spec s tid py Hty Oy Ht) as (py' & E & O' & V'). exists (set_py s py'). split; auto. exists py'. split; auto. split; auto. split; [intros t0 [<-|Hx]; auto|].
    intros p Hpp. rewrite V', Vy by auto. cbn [existsb]. destruct (covers tid p) eqn:Ec; cbn [orb]; [|ring].
    destruct (existsb _ done) eqn:Ex; [|ring]. exfalso. apply existsb_exists in Ex as (t' & Ht' & Ec').
    unfold covers in Ec, Ec'. destruct (calc_block_spos_len (h_kms h) nth tid) as [[s1 l1]|] eqn:E1; [|discriminate].
    destruct (calc_block_spos_len (h_kms h) nth t') as [[s2 l2]|] eqn:E2; [|discriminate].
    rewrite andb_true_iff, Z.leb_le, Z.ltb_lt in Ec, Ec'.
    assert (Hne : tid <> t') by (intros ->; contradiction).
    pose proof (Ld t' Ht') as Ht2.
    assert (tid < t' \/ t' < tid) as [Hlt|Hlt] by lia.
    + specialize (C3 tid t' s1 l1 s2 l2 ltac:(lia) ltac:(lia) E1 E2). lia.
    + specialize (C3 t' tid s2 l2 s1 l1 ltac:(lia) ltac:(lia) E2 E1). lia.
  - exists py'. split; auto. split; auto. intros p Hpp. rewrite V' by auto. f_equal.
    replace (existsb _ _) with true; auto. symmetry. apply existsb_exists. destruct (C2 p Hpp) as (i & s1 & l1 & Hi & E1 & Hr).
    exists i. split.
    + rewrite map_id, app_nil_r. apply -> in_rev. apply (Permutation_in _ (Permutation_sym Hp)). apply In_zrange. lia.
    + unfold covers. rewrite E1, andb_true_iff, Z.leb_le, Z.ltb_lt. lia.
Qed.

(** ** The whole product *)
Lemma Hmat_sum (xv : Z -> K) p : 
  rsum 0 (h_kms h) (fun q => Hmat h p q * xv q) =
  rsum 0 (h_nleaf h) (fun k => diagc xv k p) + rsum 0 (zlen (h_inadm h)) (fun k => offc xv k p) + rsum 0 (zlen (h_adm h)) (fun k => pairc h xv k p).
Proof.
  unfold diagc, offc, pairc. rewrite !(rsum_swap 0 _ 0 (h_kms h)).
  rewrite <- !rsum_add. apply rsum_ext. intros q Hq. rewrite !rsum_mul_r. unfold Hmat. ring.
Qed.

Lemma mats_of l : zlen l = h_nnode h -> Forall (@dm_ok K) l -> mats_ok (h_nnode h) (Some l).
Proof. split; auto. Qed.
Lemma mats_mof l : zlen l = h_nnode h -> Forall (@mok K) l -> mats_mok (h_nnode h) (Some l).
Proof. split; auto. Qed.

Theorem matvec_spec sc s x y (xf : Z -> K) : schedule_ok h sc -> state_ok h s ->
  (forall j, 0 <= j < h_kms h -> ld x j = Some (xf j)) -> h_kms h <= zlen y ->
  exists s' y', matvec h sc s x y = Some (s', y') /\ state_ok h s' /\ zlen y' = zlen y /\
    (forall i, 0 <= i < h_kms h -> ld y' i =
       Some (rsum 0 (h_kms h) (fun j => Hmat h (nthz (h_bwd h) i) (nthz (h_bwd h) j) * xf j))) /\
    (forall i, h_kms h <= i -> getz y' i = getz y i).
Proof.
  intros Sc [S1 S2 [S3 S3'] [S4 S4'] S5 S6 S7] Hx Hy. unfold matvec.
  destruct (ro_pmt _ R) as (Pf & Pb & Pp).
  assert (Hk : 0 <= h_kms h) by (pose proof (zlen_nonneg (s_yT s)); lia).
  destruct (gather_vector_spec (h_kms h) (h_fwd h) x (s_px s) 0 0 xf (h_kms h)) as (px & Epx & Zpx & Gpx & _); auto; try lia.
  { intros i Hi. apply In_getz in Hi as (k & Hk'). pose proof (getz_range _ _ _ Hk') as Rk. destruct (Pp k ltac:(lia)) as (A & _).
    apply nthz_eq in Hk'. lia. }
  rewrite Epx. cbn [bind].
  pose (xv := fun p => xf (nthz (h_fwd h) p)).
  assert (Hpx : forall p, 0 <= p < h_kms h -> ld px p = Some (xv p)) by (intros p Hp; specialize (Gpx p Hp); now rewrite Z.add_0_l in Gpx).
  destruct (reset_y_spec (set_px s px)) as (ty & py & yT & E1 & O1 & O2 & O3 & O4); auto. rewrite E1. cbn [bind].
  match goal with |- context [fwd_transform h _ ?s] => set (sa := s) end.
  destruct (fwd_transform_spec h R xv (sc_fwd sc) sa) as (y0 & E2 & Z0 & F0 & G0); auto.
  { apply (so_fwd _ _ Sc). }
  rewrite E2. cbn [bind]. unfold intmd_mult.
  destruct (init_y1_spec h R (sc_team sc) (set_y0 sa y0)) as (y1 & E3 & Z1 & F1 & W1 & A1 & V1); auto.
  { apply (so_team _ _ Sc). }
  rewrite E3. cbn [bind]. set (sb := set_y1 (set_y0 sa y0) y1).
  destruct (mid_events_spec h R y0 px xv G0 Hpx sb (sc_mid sc) sb) as (sd & E4 & M4 & T4).
  { apply (so_mid _ _ Sc). }
  { repeat (split; auto). exists y1. repeat (split; auto). }
  rewrite E4. cbn [bind]. destruct M4 as (M1 & M2 & M3 & M4 & M5 & M6 & y1d & M7 & M8 & M9 & M10 & M11).
  destruct (sum_events_spec h R (sc_sum sc) sd y1d) as (y1e & E5 & Ze & Fe & Ge); auto.
  { apply (so_sum _ _ Sc). }
  rewrite E5. cbn [bind].
  assert (Ese : set_y1 sd y1e = bwd_st sd y1e (s_m0 s) py).
  { unfold bwd_st, set_y1. f_equal; auto. }
  rewrite Ese.
  destruct (bwd_transform_spec h R (sc_bwd sc) sd y1e (s_m0 s) py) as (y1f & m0f & pyf & E6 & (B1 & B2 & B3 & (B4 & B4') & B5) & V6).
  { apply (so_bwd _ _ Sc). }
  { split; auto. split; auto. split; [intros i Hi; apply Ge; auto|]. split; [split; auto|auto]. }
  rewrite E6. cbn [bind]. set (sf := bwd_st sd y1f m0f pyf).
  assert (Esf : sf = set_ty sf (s_ty sd)) by reflexivity.
  rewrite Esf.
  destruct (dense_mult_spec xv sf) with (evs := sc_den sc) (ty := s_ty sd) as (tyg & E7 & O7 & V7); auto.
  { unfold sf. cbn [bwd_st s_px]. rewrite M2. auto. }
  { apply (so_den _ _ Sc). }
  rewrite E7. cbn [bind].
  destruct (reduce_spec (set_ty sf tyg) (sc_red sc)) as (pyg & E8 & O8 & V8); auto.
  { apply (so_red _ _ Sc). }
  rewrite E8. cbn [bind]. cbn [set_py s_py].
  assert (Hpy : forall p, 0 <= p < h_kms h -> ld pyg p = Some (rsum 0 (h_kms h) (fun q => Hmat h p q * xv q))).
  { intros p Hp. destruct O8 as [_ O8]. destruct (O8 p Hp) as [v Hv]. rewrite Hv. f_equal. specialize (V8 p Hp). unfold pyval at 1 in V8. rewrite Hv in V8. cbn [val] in V8.
    rewrite V8. cbn [set_ty s_ty s_py sf bwd_st]. rewrite V6, V7 by auto. rewrite Hmat_sum.
    destruct (O4 p Hp) as [Tz Pz]. rewrite Pz.
    specialize (T4 p). unfold tot in T4. rewrite M7 in T4. cbn [sb set_y1 s_y1 s_ty set_y0 sa set_yT set_py set_ty] in T4. rewrite Tz in T4.
    rewrite (rsum_zero 0 (h_nnode h) (fun i => rsum 0 (rank h i) (fun c => basis h i p c * rsum 0 nth (fun tid => y1val y1 i (tid * rank h i + c))))) in T4.
    2:{ intros i Hi. apply rsum_zero. intros c Hc. rewrite rsum_zero; [ring|]. intros tid Ht. auto. }
    rewrite (rsum_ext 0 (h_nnode h) (fun i => rsum 0 (rank h i) (fun c => basis h i p c * y1val y1e i c))
      (fun i => rsum 0 (rank h i) (fun c => basis h i p c * rsum 0 nth (fun tid => y1val y1d i (tid * rank h i + c))))).
    2:{ intros i Hi. apply rsum_ext. intros c Hc. f_equal. destruct (Ge i Hi) as [_ Gv]. now apply Gv. }
    transitivity (tysum h (s_ty sd) p + rsum 0 (h_nnode h) (fun i => rsum 0 (rank h i) (fun c => basis h i p c * rsum 0 nth (fun tid => y1val y1d i (tid * rank h i + c)))) +
      (rsum 0 (h_nleaf h) (fun k => diagc xv k p) + rsum 0 (zlen (h_inadm h)) (fun k => offc xv k p))); [ring|].
    rewrite T4. ring. }
  destruct (gather_vector_spec (h_kms h) (h_bwd h) pyg y 0 0 (fun p => rsum 0 (h_kms h) (fun q => Hmat h p q * xv q)) (h_kms h)) as (y' & Ey' & Zy' & Gy' & Oy'); auto; try lia.
  { intros i Hi. apply In_getz in Hi as (k & Hk'). pose proof (getz_range _ _ _ Hk') as Rk. destruct (Pp k ltac:(lia)) as (_ & A & _).
    apply nthz_eq in Hk'. lia. }
  rewrite Ey'. cbn [bind]. eexists _, y'. split; [reflexivity|]. split; [|split; [auto|split]].
  - destruct O7 as [O7 O7'].
    assert (Ft : Forall (fun y => zlen y = h_kms h) tyg).
    { rewrite Forall_forall. intros m Hm. apply In_getz in Hm as (k & Hk'). pose proof (@getz_range (mem K) _ _ _ Hk') as Rk.
      change (0 <= k < zlen tyg) in Rk. rewrite O7 in Rk.
      destruct (O7' k Rk) as (m' & Em' & Zm' & _). assert (Em : Some m' = Some m) by (rewrite <- Em'; exact Hk'). injection Em as <-. exact Zm'. }
    constructor; cbn.
    + rewrite M1. apply mats_of; auto.
    + apply mats_mof; auto.
    + split; auto.
    + auto.
    + rewrite M2. lia.
    + apply O8.
    + rewrite M5. cbn. auto.
  - intros i Hi. specialize (Gy' i Hi). rewrite Z.add_0_l in Gy'. rewrite Gy'. f_equal.
    destruct (Pp i Hi) as (_ & Hb & _). set (p := nthz (h_bwd h) i) in *.
    unfold rsum. rewrite (lsum_perm _ (zrange 0 (h_kms h)) (map (nthz (h_bwd h)) (zrange 0 (h_kms h)))).
    + rewrite lsum_map. apply lsum_ext. intros j Hj. apply In_zrange in Hj. unfold xv. destruct (Pp j ltac:(lia)) as (_ & _ & _ & ->). reflexivity.
    + apply NoDup_Permutation_bis.
      * apply NoDup_zrange.
      * rewrite map_length. auto.
      * intros q Hq. apply In_zrange in Hq. apply in_map_iff. destruct (Pp q ltac:(lia)) as (A & _ & B & _).
        exists (nthz (h_fwd h) q). split; auto. apply In_zrange. lia.
  - intros i Hi. apply Oy'. lia.
Qed.
End Top.
