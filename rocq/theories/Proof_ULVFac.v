(** The factorisation of one node: packed QR, LU and Cholesky factors are stored
    where the solve expects them and satisfy the block equations [fac_ok]. *)
From Coq Require Import ZArith List Lia Bool Permutation.
From Verif Require Import Base Mem Num CRing Conc Model_Utils Spec_Utils Proof_Utils Model_Dense Spec_Dense Proof_Dense Model_Partition Spec_Tree Model_Pairs Model_Matvec Spec_Matvec Proof_MvTree Proof_MvFwd Proof_MvCor Model_Matmul Proof_Gemm Model_Build Spec_Build Proof_Build Spec_Lapack Blk Model_ULV Spec_ULV Proof_ULVMath Proof_ULVTree Proof_ULVMem Proof_ULVAsm.
Import ListNotations.
Open Scope Z_scope.

Section Fac.
Context {K : cring}.
Add Ring Kring2 : (cth K).
Local Open Scope ring_K.
Variable la : lapack K.
Hypothesis LA : lapack_ok la.
Notation matrix := (Z -> Z -> K).

(** ** Regions, cell by cell *)
Lemma updr_out (a a' : mem K) o l m n f r0 c0 i j : updr a a' o l m n f -> o = (r0 * l + c0)%Z -> 0 <= c0 -> (c0 + n <= l)%Z -> 0 <= j < l ->
  ~ (r0 <= i < r0 + m /\ c0 <= j < c0 + n)%Z -> ld a' (i * l + j) = ld a (i * l + j).
Proof.
  intros (_ & _ & U) -> H1 H2 Hj Hn. unfold ld. rewrite U; auto. intros i' j' Hi' Hj' E.
  assert (EE : (i * l + j = (r0 + i') * l + (c0 + j'))%Z) by (rewrite E; ring). apply (region_inj l l) in EE; lia.
Qed.
Lemma updr_in (a a' : mem K) o l m n f r0 c0 i j : updr a a' o l m n f -> o = (r0 * l + c0)%Z -> (r0 <= i < r0 + m)%Z -> (c0 <= j < c0 + n)%Z ->
  ld a' (i * l + j) = Some (f (i - r0) (j - c0))%Z.
Proof.
  intros (_ & H & _) -> Hi Hj. rewrite <- (H (i - r0) (j - c0))%Z by lia. f_equal. ring.
Qed.
Lemma holds0 (a : mem K) l m n f i j : holds a 0 l m n f -> 0 <= i < m -> 0 <= j < n -> ld a (i * l + j) = Some (f i j).
Proof. intros H Hi Hj. rewrite <- (H i j Hi Hj). f_equal. Qed.
Lemma holds0_intro (a : mem K) l m n f : (forall i j, 0 <= i < m -> 0 <= j < n -> ld a (i * l + j) = Some (f i j)) -> holds a 0 l m n f.
Proof. intros H i j Hi Hj. rewrite <- H by auto. f_equal. Qed.

(** Zeroing the strict upper triangle row by row. *)
Lemma zero_upper (d : mem K) o l m c f : 0 <= o -> 0 <= m -> 0 <= c -> (m - 1 <= c <= m)%Z -> m <= l -> fits m m o l (zlen d) -> holds d o l m m f ->
  exists d', zfor 0 c (fun k d => mset0 d (o + (k * l + (k + 1))) (m - 1 - k)) d = Some d' /\ updr d d' o l m m (fun i j => if (j <=? i)%Z then f i j else c0).
Proof.
  intros Ho Hm Hc0 Hc Hl (_ & _ & _ & _ & Fz) Hd.
  destruct (zfor_inv (fun k (e : mem K) => zlen e = zlen d /\ (forall x, getz e x = getz d x \/ (exists i j, 0 <= i < m /\ 0 <= j < m /\ x = (o + (i * l + j))%Z)) /\
     forall i j, 0 <= i < m -> 0 <= j < m -> ld e (o + (i * l + j)) = Some (if (i <? j)%Z && (i <? k)%Z then c0 else f i j)) 0 c
     (fun k d => mset0 d (o + (k * l + (k + 1)))%Z (m - 1 - k)%Z) d) as (d' & E & Z1 & X1 & H1); auto.
  - split; auto. split; auto. intros i j Hi Hj. destruct (Z.ltb_spec i 0); [lia|]. rewrite andb_false_r. now apply Hd.
  - intros k e Hk (Z1 & X1 & H1).
    destruct (mset0_upd e (o + (k * l + (k + 1)))%Z (m - 1 - k)%Z) as (e' & E' & Z2 & G); [lia|nia| |].
    { rewrite Z1. specialize (Fz ltac:(lia) ltac:(lia)). assert (k * l <= (m - 1) * l)%Z by nia. lia. }
    exists e'. split; auto. split; [lia|]. split.
    + intros x. rewrite G. destruct (Z.leb_spec (o + (k * l + (k + 1))) x), (Z.ltb_spec x (o + (k * l + (k + 1)) + (m - 1 - k))); cbn [andb]; auto.
      right. exists k, (x - o - k * l)%Z. lia.
    + intros i j Hi Hj. unfold ld. rewrite G.
      destruct (Z.leb_spec (o + (k * l + (k + 1))) (o + (i * l + j))) as [L1|L1], (Z.ltb_spec (o + (i * l + j)) (o + (k * l + (k + 1)) + (m - 1 - k))) as [L2|L2]; cbn [andb].
      1:{ assert (i = k) by nia. subst i. destruct (Z.ltb_spec k j), (Z.ltb_spec k (k + 1)); try lia. reflexivity. }
      all: fold (ld e (o + (i * l + j))%Z); rewrite H1 by auto; destruct (Z.ltb_spec i j), (Z.ltb_spec i k), (Z.ltb_spec i (k + 1)); cbn [andb]; auto; try lia.
      all: assert (i = k) by lia; subst i; lia.
  - exists d'. split; auto. split; auto. split.
    + intros i j Hi Hj. rewrite H1 by auto. destruct (Z.leb_spec j i), (Z.ltb_spec i j), (Z.ltb_spec i c); try lia; reflexivity.
    + intros x Hx. destruct (X1 x) as [|(i & j & Hi & Hj & E')]; auto. destruct (Hx i j Hi Hj E').
Qed.

Lemma diag_prod_ok n (d : mem K) o l f : 0 <= n -> holds d o l n n f -> exists p, diag_prod n d o l = Some p.
Proof.
  intros Hn H. unfold diag_prod. destruct (zfor_inv (fun _ (_ : K) => True) 0 n (fun k p => v <- ld d (o + (k * l + k))%Z; Some (p * v)) c1) as (p & E & _); auto.
  - intros k p Hk _. rewrite H by lia. cbn [bind]. eauto.
  - eauto.
Qed.

(** ** Pivots *)
Definition swp (a b i : Z) : Z := if (i =? a)%Z then b else if (i =? b)%Z then a else i.
Fixpoint prm (n : nat) (piv : Z -> Z) (i : Z) : Z := match n with O => i | S n' => prm n' piv (swp (Z.of_nat n') (piv (Z.of_nat n') - 1) i) end.
Lemma swp_inv a b i : swp a b (swp a b i) = i.
Proof. unfold swp. destruct (Z.eqb_spec i a) as [H1|H1]; [|destruct (Z.eqb_spec i b) as [H2|H2]]; repeat match goal with |- context [(?x =? ?y)%Z] => destruct (Z.eqb_spec x y) end; lia. Qed.
Lemma swp_range a b n i : 0 <= a < n -> 0 <= b < n -> 0 <= i < n -> 0 <= swp a b i < n.
Proof. unfold swp. intros. destruct (i =? a)%Z, (i =? b)%Z; lia. Qed.
Lemma interchange_prm n piv (A : matrix) i j : interchange n piv A i j = A (prm n piv i) j.
Proof. revert i. induction n as [|n IH]; intros i; cbn [interchange prm]; auto. unfold swap_rows. rewrite IH. reflexivity. Qed.
Section Prm.
Variables (m : Z) (piv : Z -> Z).
Hypothesis Hp : forall k, 0 <= k < m -> (k + 1 <= piv k <= m)%Z.
Lemma prm_range n i : Z.of_nat n <= m -> 0 <= i < m -> 0 <= prm n piv i < m.
Proof. revert i. induction n as [|n IH]; intros i Hn Hi; cbn [prm]; auto. apply IH; [lia|]. pose proof (Hp (Z.of_nat n) ltac:(lia)). apply swp_range; lia. Qed.
Lemma prm_onto n i : Z.of_nat n <= m -> 0 <= i < m -> exists i', 0 <= i' < m /\ prm n piv i' = i.
Proof.
  revert i. induction n as [|n IH]; intros i Hn Hi; cbn [prm]; [eauto|]. destruct (IH i ltac:(lia) Hi) as (i' & Hi' & E).
  exists (swp (Z.of_nat n) (piv (Z.of_nat n) - 1) i'). rewrite swp_inv. split; auto. pose proof (Hp (Z.of_nat n) ltac:(lia)). apply swp_range; lia.
Qed.
Lemma pivots_spec (p : mem Z) : 0 <= m -> zlen p = (2 * m)%Z -> exists p', pivots m piv p = Some p' /\ forall k, 0 <= k < m -> ld p' k = Some (prm (Z.to_nat m) piv k).
Proof.
  intros Hm Zp. unfold pivots.
  destruct (zfor_inv (fun k0 (q : mem Z) => zlen q = (2 * m)%Z /\ forall k, 0 <= k < k0 -> ld q (m + k) = Some (piv k)) 0 m (fun k p => st p (m + k)%Z (piv k)) p) as (p1 & E1 & Z1 & H1); auto.
  - split; auto. intros; lia.
  - intros k q Hk (Zq & Hq). destruct (st_Some q (m + k) (piv k)) as [q' Eq]; [lia|]. exists q'. split; auto. split; [rewrite (st_zlen _ _ _ _ Eq); auto|].
    intros j Hj. rewrite (ld_st _ _ _ _ _ Eq). destruct (Z.eqb_spec (m + k) (m + j)); [f_equal; f_equal; lia|apply Hq; lia].
  - rewrite E1. cbn [bind].
    destruct (zfor_inv (fun k0 (q : mem Z) => zlen q = (2 * m)%Z /\ (forall k, 0 <= k < m -> ld q (m + k) = Some (piv k)) /\ forall k, 0 <= k < k0 -> ld q k = Some k) 0 m (fun k p => st p k k) p1) as (p2 & E2 & Z2 & H2 & I2); auto.
    + split; auto. split; auto. intros; lia.
    + intros k q Hk (Zq & Hq & Iq). destruct (st_Some q k k) as [q' Eq]; [lia|]. exists q'. split; auto. split; [rewrite (st_zlen _ _ _ _ Eq); auto|].
      split; intros j Hj; rewrite (ld_st _ _ _ _ _ Eq); destruct (Z.eqb_spec k (m + j)), (Z.eqb_spec k j); try lia; subst; auto; try (apply Hq; lia). apply Iq; lia.
    + rewrite E2. cbn [bind].
      match goal with |- exists p', zfor 0 m ?bd p2 = Some p' /\ _ => set (body := bd) end.
      destruct (zfor_inv (fun k0 (q : mem Z) => zlen q = (2 * m)%Z /\ (forall k, 0 <= k < m -> ld q (m + k) = Some (piv k)) /\ forall k, 0 <= k < m -> ld q k = Some (prm (Z.to_nat k0) piv k)) 0 m body p2) as (p3 & E3 & Z3 & H3 & I3); auto.
      * intros k q Hk (Zq & Hq & Iq). unfold body. rewrite Hq by lia. cbn [bind]. pose proof (Hp k Hk) as Pk. rewrite !Iq by lia. cbn [bind].
        destruct (st_Some q (piv k - 1) (prm (Z.to_nat k) piv k)) as [q1 Eq1]; [lia|]. rewrite Eq1. cbn [bind]. pose proof (st_zlen _ _ _ _ Eq1) as Zq1.
        destruct (st_Some q1 k (prm (Z.to_nat k) piv (piv k - 1))) as [q2 Eq2]; [lia|]. pose proof (st_zlen _ _ _ _ Eq2) as Zq2. exists q2. split; auto. split; [lia|]. split.
        -- intros j Hj. rewrite (ld_st _ _ _ _ _ Eq2), (ld_st _ _ _ _ _ Eq1). destruct (Z.eqb_spec k (m + j)), (Z.eqb_spec (piv k - 1) (m + j)); try lia. now apply Hq.
        -- intros j Hj. rewrite (ld_st _ _ _ _ _ Eq2), (ld_st _ _ _ _ _ Eq1). replace (Z.to_nat (k + 1)) with (S (Z.to_nat k)) by lia. cbn [prm]. rewrite Z2Nat.id by lia.
           unfold swp. rewrite (Z.eqb_sym j k), (Z.eqb_sym j (piv k - 1)). destruct (Z.eqb_spec k j); auto. destruct (Z.eqb_spec (piv k - 1) j); auto.
      * exists p3. split; auto.
Qed.
End Prm.

(** ** QR *)
Lemma dm_init_eq m n : 0 <= m -> 0 <= n -> @dm_init K m n = mkDM m n n (m * n) (alloc (m * n)).
Proof. intros H1 H2. unfold dm_init. now rewrite !Z.max_r by lia. Qed.
Lemma ulv_qr_spec tU tD n r Uh Dh : 1 <= r <= n -> mholds tU n r Uh -> mholds tD n n Dh ->
  exists Qm Um d P tau Rm, let Q := qmat n r P tau in
    ulv_qr la tU tD = Some (Qm, Um, d) /\ dm_nrow Qm = (n + 1)%Z /\ dm_ncol Qm = r /\ holds (dm_data Qm) 0 r n r P /\ holds (dm_data Qm) (n * r) r 1 r (fun _ j => tau j) /\
    orthogonal n Q /\ mholds Um r r Rm /\
    (forall i c, 0 <= i < n -> 0 <= c < r -> rsum 0 n (fun a => Q a i * Uh a c) = if (i <? r)%Z then Rm i c else c0) /\
    zlen d = zlen (dm_data tD) /\ holds d 0 n n n (fun i j => rsum 0 n (fun a => rsum 0 n (fun b => Q a i * Dh a b * Q b j))).
Proof.
  intros Hr (U1 & U2 & U3 & U4) (D1 & D2 & D3 & D4). unfold ulv_qr. rewrite U1, U2, U3, !dm_init_eq by lia. cbn [dm_data dm_ld].
  assert (Zq : zlen (@alloc K ((n + 1) * r)) = ((n + 1) * r)%Z) by (apply zlen_alloc; nia).
  destruct (copy_upd n r (dm_data tU) 0 r (alloc ((n + 1) * r)) 0 r Uh) as (q0 & E0 & Z0 & H0 & _); try lia; auto.
  { split; [lia|]. split; [lia|]. split; [lia|]. split; [lia|]. rewrite Zq. nia. }
  rewrite E0. cbn [bind]. destruct (rd_ok q0 0 r n r Uh H0) as (a & Ea & Ga). rewrite Ea. cbn [bind].
  pose proof (la_qr la LA n r a ltac:(lia)) as HQ. destruct (l_geqrf la n r a) as [P tau] eqn:EL. destruct HQ as [Q1 Q2].
  destruct (wr_upd n r P q0 0 r) as (q1 & E1 & Z1 & H1 & _).
  { split; [lia|]. split; [lia|]. split; [lia|]. split; [lia|]. rewrite Z0, Zq. nia. }
  rewrite E1. cbn [bind].
  destruct (wr_upd 1 r (fun _ j => tau j) q1 (n * r)%Z r) as (q2 & E2 & Z2 & H2 & F2).
  { split; [lia|]. split; [lia|]. split; [nia|]. split; [lia|]. rewrite Z1, Z0, Zq. nia. }
  rewrite E2. cbn [bind].
  assert (HP : holds q2 0 r n r P).
  { eapply holds_getz; [exact H1|]. intros i j Hi Hj. apply F2. intros i' j' Hi' Hj' E. assert (i' = 0) by lia. subst i'. nia. }
  match goal with |- context [zfor 0 r ?bd ?s0] => set (body := bd) end.
  assert (Zu : zlen (@alloc K (r * r)) = (r * r)%Z) by (apply zlen_alloc; nia).
  destruct (zfor_inv (fun k0 (e : mem K) => zlen e = (r * r)%Z /\ holds e 0 r k0 r (fun i c => if (i <=? c)%Z then P i c else c0)) 0 r body (alloc (r * r))) as (rr & Er & Zr & Hrr).
  - lia.
  - split; [exact Zu|]. intros i j Hi; lia.
  - intros k e Hk (Ze & He). unfold body.
    assert (S1 : exists e1, (if (0 <? k)%Z then mset0 e (k * r) k else Some e) = Some e1 /\ zlen e1 = (r * r)%Z /\
       forall x, getz e1 x = if (k * r <=? x)%Z && (x <? k * r + k)%Z then Some (Some c0) else getz e x).
    { destruct (Z.ltb_spec 0 k).
      - destruct (mset0_upd e (k * r) k) as (e1 & A1 & A2 & A3); try nia. exists e1. split; auto. split; [lia|auto].
      - exists e. split; auto. split; auto. intros x. destruct (Z.leb_spec (k * r) x), (Z.ltb_spec x (k * r + k)); cbn [andb]; auto; lia. }
    destruct S1 as (e1 & A1 & A2 & A3). rewrite A1. cbn [bind].
    destruct (mcpy_spec e1 (k * r + k) q2 (k * r + k) (r - k)) as (e2 & B1 & B2 & B3); try nia.
    exists e2. split; auto. split; [lia|]. apply holds0_intro. intros i j Hi Hj. unfold ld. rewrite B3.
    destruct (Z.eq_dec i k) as [->|Hne].
    + destruct (Z.leb_spec (k * r + k) (k * r + j)) as [L1|L1], (Z.ltb_spec (k * r + j) (k * r + k + (r - k))) as [L2|L2]; try lia; cbn [andb].
      * destruct (Z.leb_spec k j); [|lia]. replace (k * r + k + (k * r + j - (k * r + k)))%Z with (k * r + j)%Z by lia. fold (ld q2 (k * r + j)). apply (holds0 q2 r n r P); auto; lia.
      * rewrite A3. destruct (Z.leb_spec (k * r) (k * r + j)), (Z.ltb_spec (k * r + j) (k * r + k)); try lia; cbn [andb]. destruct (Z.leb_spec k j); [lia|reflexivity].
    + assert (Lt : (i * r + j < k * r)%Z) by nia. destruct (Z.leb_spec (k * r + k) (i * r + j)); [lia|]. cbn [andb]. rewrite A3. destruct (Z.leb_spec (k * r) (i * r + j)); [lia|]. cbn [andb].
      fold (ld e (i * r + j)). apply (holds0 e r k r (fun i c => if (i <=? c)%Z then P i c else c0)); auto; lia.
  - rewrite Er. cbn [bind].
    destruct (ormqr_left_upd true n n r q2 0 r (n * r) (dm_data tD) 0 n P tau Dh) as (d1 & Ed1 & Zd1 & Hd1 & _); auto; [lia| |].
    { apply (fits_sub (dm_data tD) n n n Dh 0 0); auto; lia. }
    rewrite Ed1. cbn [bind].
    destruct (ormqr_right_upd false n n r q2 0 r (n * r) d1 0 n P tau _ ltac:(lia) ltac:(apply (fits_sub d1 n n n _ 0 0 n n 0%Z Hd1); lia) HP H2 Hd1) as (d2 & Ed2 & Zd2 & Hd2 & _).
    rewrite Ed2. cbn [bind]. eexists _, _, _, P, tau, _. split; [reflexivity|]. cbn [dm_set_data dm_nrow dm_ncol dm_data].
    split; [reflexivity|]. split; [reflexivity|]. split; [exact HP|]. split; [exact H2|]. split; [exact Q1|]. split; [|split; [|split; [lia|]]].
    + unfold mholds. cbn. split; [reflexivity|]. split; [reflexivity|]. split; [reflexivity|]. exact Hrr.
    + intros i c Hi Hc. rewrite (rsum_ext 0 n _ (fun l => qmat n r P tau l i * a l c)) by (intros; now rewrite Ga by lia). rewrite Q2 by lia.
      destruct (Z.ltb_spec i r); auto. destruct (Z.leb_spec i c); [lia|reflexivity].
    + eapply holds_ext; [exact Hd2|]. intros i j Hi Hj. cbv beta. cbn [top].
      rewrite (rsum_ext 0 n _ (fun l => rsum 0 n (fun a0 => qmat n r P tau a0 i * Dh a0 l * qmat n r P tau l j))) by (intros; now rewrite rsum_mul_r).
      apply rsum_swap.
Qed.

(** ** The factors of a node as the solve reads them from ULV_L (r = ULV_Ls) *)
Definition T1_ (chol : bool) (r : Z) (Lf : matrix) : matrix := tri true (negb chol) (fun i j => Lf (r + i)%Z (r + j)%Z).
Definition T2_ (chol : bool) (r : Z) (Lf : matrix) : matrix := if chol then (fun i j => T1_ chol r Lf j i) else tri false false (fun i j => Lf (r + i)%Z (r + j)%Z).
Definition C12_ (r : Z) (Lf : matrix) : matrix := fun i j => Lf i (r + j)%Z.
Definition C21_ (chol : bool) (r : Z) (Lf : matrix) : matrix := if chol then (fun i j => Lf j (r + i)%Z) else (fun i j => Lf (r + i)%Z j).

Record blk_ok (chol : bool) (n r : Z) (Dq Lf : matrix) (pm : Z -> Z) (Df : matrix) : Prop := {
  bo_pm : forall i, 0 <= i < n - r -> 0 <= pm i < n - r;
  bo_onto : forall i, 0 <= i < n - r -> exists i', 0 <= i' < n - r /\ pm i' = i;
  bo_id : chol = true -> forall i, pm i = i;
  bo_diag : forall i, 0 <= i < n - r -> Lf (r + i)%Z (r + i)%Z <> c0;
  bo_22 : forall i j, 0 <= i < n - r -> 0 <= j < n - r -> rsum 0 (n - r) (fun l => T1_ chol r Lf i l * T2_ chol r Lf l j) = Dq (r + pm i)%Z (r + j)%Z;
  bo_21 : forall i j, 0 <= i < n - r -> 0 <= j < r -> rsum 0 (n - r) (fun l => T1_ chol r Lf i l * C21_ chol r Lf l j) = Dq (r + pm i)%Z j;
  bo_12 : forall i j, 0 <= i < r -> 0 <= j < n - r -> rsum 0 (n - r) (fun l => C12_ r Lf i l * T2_ chol r Lf l j) = Dq i (r + j)%Z;
  bo_11 : forall i j, 0 <= i < r -> 0 <= j < r -> Df i j = Dq i j - rsum 0 (n - r) (fun l => C12_ r Lf i l * C21_ chol r Lf l j) }.

Lemma blk_ok_ext chol n r Dq Dq' Lf pm Df : 0 <= r <= n -> (forall i j, 0 <= i < n -> 0 <= j < n -> Dq i j = Dq' i j) -> blk_ok chol n r Dq Lf pm Df -> blk_ok chol n r Dq' Lf pm Df.
Proof.
  intros Hr E [H1 H2 H3 H4 H5 H6 H7 H8]. split; auto; intros i j Hi Hj.
  - rewrite H5 by auto. specialize (H1 i Hi). apply E; lia.
  - rewrite H6 by auto. specialize (H1 i Hi). apply E; lia.
  - rewrite H7 by auto. apply E; lia.
  - rewrite H8 by auto. rewrite E by lia. reflexivity.
Qed.

(** Zero size: nothing to eliminate. *)
Lemma blk_ok_empty chol r (Dq Lf : matrix) : 0 <= r -> blk_ok chol r r Dq Lf (fun i => i) Dq.
Proof. intros Hr. split; intros; try lia. rewrite (rsum_empty 0 (r - r)) by lia. ring. Qed.

Lemma eye_rows_spec r n (L : mem K) : 0 <= r <= n -> zlen L = (n * n)%Z ->
  exists L', eye_rows r n L = Some L' /\ zlen L' = (n * n)%Z /\ holds L' 0 n r n delta.
Proof.
  intros Hr ZL. unfold eye_rows.
  destruct (zfor_inv (fun k0 (e : mem K) => zlen e = (n * n)%Z /\ holds e 0 n k0 n delta) 0 r (fun k L => L <- mset0 L (k * n) n; st L (k * n + k)%Z c1) L) as (L' & E & Z1 & H1); eauto; [lia| |].
  - split; auto. intros i j Hi; lia.
  - intros k e Hk (Ze & He). destruct (mset0_upd e (k * n) n) as (e1 & E1 & Z1 & G1); try nia. rewrite E1. cbn [bind].
    destruct (st_Some e1 (k * n + k) c1) as [e2 E2]; [nia|]. exists e2. split; auto. split; [rewrite (st_zlen _ _ _ _ E2); lia|].
    apply holds0_intro. intros i j Hi Hj. rewrite (ld_st _ _ _ _ _ E2). unfold delta. destruct (Z.eqb_spec (k * n + k) (i * n + j)) as [Eq|Ne].
    + apply (region_inj n n) in Eq; [|lia..]. destruct Eq as [-> ->]. now rewrite Z.eqb_refl.
    + unfold ld. rewrite G1. destruct (Z.eq_dec i k) as [->|Hne].
      * destruct (Z.leb_spec (k * n) (k * n + j)), (Z.ltb_spec (k * n + j) (k * n + n)); try lia. cbn [andb]. destruct (Z.eqb_spec k j); [subst; lia|reflexivity].
      * assert (Lt : (i * n + j < k * n)%Z) by nia. destruct (Z.leb_spec (k * n) (i * n + j)); [lia|]. cbn [andb]. fold (ld e (i * n + j)).
        apply (holds0 e n k n delta); auto; lia.
Qed.

(** The four blocks of ULV_L. *)
Definition quad (r : Z) (A12 A21 A22 : matrix) (i j : Z) : K :=
  if (i <? r)%Z then (if (j <? r)%Z then delta i j else A12 i (j - r)%Z) else (if (j <? r)%Z then A21 (i - r)%Z j else A22 (i - r)%Z (j - r)%Z).
Lemma quad_12 r A12 A21 A22 i j : 0 <= i < r -> 0 <= j -> quad r A12 A21 A22 i (r + j) = A12 i j.
Proof. intros. unfold quad. destruct (Z.ltb_spec i r), (Z.ltb_spec (r + j) r); try lia. f_equal; lia. Qed.
Lemma quad_21 r A12 A21 A22 i j : 0 <= i -> 0 <= j < r -> quad r A12 A21 A22 (r + i) j = A21 i j.
Proof. intros. unfold quad. destruct (Z.ltb_spec (r + i) r), (Z.ltb_spec j r); try lia. f_equal; lia. Qed.
Lemma quad_22 r A12 A21 A22 i j : 0 <= i -> 0 <= j -> quad r A12 A21 A22 (r + i) (r + j) = A22 i j.
Proof. intros. unfold quad. destruct (Z.ltb_spec (r + i) r), (Z.ltb_spec (r + j) r); try lia. f_equal; lia. Qed.
Lemma quad_holds n r (l0 l1 l2 l3 : mem K) A12 A21 A22 : 0 <= r <= n -> holds l0 0 n r n delta ->
  updr l0 l1 r n r (n - r) A12 -> updr l1 l2 (r * n) n (n - r) r A21 -> updr l2 l3 (r * (n + 1)) n (n - r) (n - r) A22 -> holds l3 0 n n n (quad r A12 A21 A22).
Proof.
  intros Hr H0 U1 U2 U3. apply holds0_intro. intros i j Hi Hj. unfold quad. destruct (Z.ltb_spec i r).
  - rewrite (updr_out _ _ _ _ _ _ _ r r i j U3) by lia. rewrite (updr_out _ _ _ _ _ _ _ r 0 i j U2) by lia. destruct (Z.ltb_spec j r).
    + rewrite (updr_out _ _ _ _ _ _ _ 0 r i j U1) by lia. now apply (holds0 l0 n r n delta).
    + rewrite (updr_in _ _ _ _ _ _ _ 0 r i j U1) by lia. do 2 f_equal; lia.
  - destruct (Z.ltb_spec j r).
    + rewrite (updr_out _ _ _ _ _ _ _ r r i j U3) by lia. rewrite (updr_in _ _ _ _ _ _ _ r 0 i j U2) by lia. do 2 f_equal; lia.
    + now rewrite (updr_in _ _ _ _ _ _ _ r r i j U3) by lia.
Qed.
Lemma tri_ext lo un (A B : matrix) m i j : (forall a b, 0 <= a < m -> 0 <= b < m -> A a b = B a b) -> 0 <= i < m -> 0 <= j < m -> tri lo un A i j = tri lo un B i j.
Proof. intros H Hi Hj. unfold tri. destruct (i =? j)%Z; [destruct un; auto|]. destruct (if lo then _ else _); auto. Qed.

(** ** LU below the root *)
Lemma sub_fits (a : mem K) n g r0 c0 m k o : holds a 0 n n n g -> 0 <= r0 -> 0 <= c0 -> 0 <= m -> 0 <= k -> (r0 + m <= n)%Z -> (c0 + k <= n)%Z -> o = (r0 * n + c0)%Z -> fits m k o n (zlen a).
Proof. intros. apply (fits_sub a n n n g r0 c0); auto; lia. Qed.
Lemma sub_holds (a : mem K) n g r0 c0 m k o : holds a 0 n n n g -> 0 <= r0 -> 0 <= c0 -> (r0 + m <= n)%Z -> (c0 + k <= n)%Z -> o = (r0 * n + c0)%Z -> holds a o n m k (fun i j => g (r0 + i)%Z (c0 + j)%Z).
Proof. intros. eapply holds_sub0; eauto; lia. Qed.
Lemma sub_patch (a a' : mem K) n g f r0 c0 m k o : updr a a' o n m k f -> holds a 0 n n n g -> 0 <= r0 -> 0 <= c0 -> (r0 + m <= n)%Z -> (c0 + k <= n)%Z -> o = (r0 * n + c0)%Z -> holds a' 0 n n n (patch r0 c0 m k f g).
Proof. intros. eapply updr_patch; eauto; lia. Qed.

(** A pivot block on which the factorisation routine reports failure. *)
Definition bad_piv (chol : bool) (m : Z) (A : matrix) : Prop :=
  exists A' : matrix, (forall i j, 0 <= i < m -> 0 <= j < m -> A' i j = A i j) /\ if chol then fst (l_potrf la m A') <> 0%Z else fst (fst (l_getrf la m A')) <> 0%Z.

Ltac pat := repeat first [rewrite patch_in by lia | rewrite patch_out by lia].

Lemma lu_inner_spec n r m0 d lg Dq : 0 <= r <= n -> dm_ok m0 -> holds d 0 n n n Dq ->
  exists p L Dm ok lg' m0' d', lu_inner la n r m0 d lg = Some (p, L, Dm, ok, lg', m0', d') /\ dm_ok m0' /\ zlen d' = zlen d /\
    (ok = false -> bad_piv false (n - r) (fun i j => Dq (r + i)%Z (r + j)%Z)) /\
    (ok = true -> exists Lf pm Df, mholds L n n Lf /\ mholds Dm r r Df /\ iv_len p = (n - r)%Z /\ (forall k, 0 <= k < n - r -> ld (iv_data p) k = Some (pm k)) /\
       blk_ok false n r Dq Lf pm Df).
Proof.
  intros Hr O0 Hd. unfold lu_inner. set (df := (n - r)%Z). rewrite !dm_init_eq by lia. cbn [dm_data].
  assert (ZL : zlen (@alloc K (n * n)) = (n * n)%Z) by (apply zlen_alloc; nia).
  destruct (eye_rows_spec r n (alloc (n * n)) Hr ZL) as (l0 & El & Zl0 & Hl0).
  assert (Zdm : zlen (@alloc K (r * r)) = (r * r)%Z) by (apply zlen_alloc; nia).
  assert (Fdm : forall a : mem K, zlen a = (r * r)%Z -> fits r r 0 r (zlen a)) by (intros a ->; split; [lia|]; split; [lia|]; split; [lia|]; split; [lia|]; nia).
  destruct (Z.ltb_spec 0 df) as [Hdf|Hdf].
  2:{ assert (n = r) by lia. subst n. cbn [bind]. rewrite El. cbn [bind].
      destruct (copy_upd r r d 0 r (alloc (r * r)) 0 r Dq) as (dm & Ed & Zd & Hdm & _); try lia; auto.
      rewrite Ed. cbn [bind]. eexists _, _, _, _, _, _, _. split; [reflexivity|]. split; [exact O0|]. split; [reflexivity|]. split; [discriminate|]. intros _.
      exists delta, (fun i => i), Dq. unfold mholds. cbn. repeat (split; [solve [auto; lia]|]). apply blk_ok_empty. lia. }
  assert (ZP : iv_data (iv_init (df * 2)) = alloc (df * 2)) by (unfold iv_init; destruct (Z.ltb_spec (df * 2) 0); [lia|reflexivity]).
  unfold getrf. destruct (rd_ok _ _ _ _ _ _ (sub_holds d n Dq r r df df (r * (n + 1)) Hd ltac:(lia) ltac:(lia) ltac:(lia) ltac:(lia) ltac:(lia))) as (a & Ea & Ga). rewrite Ea. cbn [bind].
  pose proof (la_lu la LA df a ltac:(lia)) as HLU. destruct (l_getrf la df a) as [[info LU] piv] eqn:EF. destruct HLU as [Hpiv HLU].
  destruct (wr_upd df df LU d (r * (n + 1)) n) as (d1 & E1 & U1); [apply (sub_fits d n Dq r r); auto; lia|]. rewrite E1. cbn [bind].
  pose proof (sub_patch d d1 n Dq LU r r df df _ U1 Hd ltac:(lia) ltac:(lia) ltac:(lia) ltac:(lia) ltac:(lia)) as H1. set (g1 := patch r r df df LU Dq) in *.
  destruct (diag_prod_ok df d1 (r * (n + 1)) n _ ltac:(lia) (sub_holds d1 n g1 r r df df (r * (n + 1)) H1 ltac:(lia) ltac:(lia) ltac:(lia) ltac:(lia) ltac:(lia))) as (pd & Epd). rewrite Epd. cbn [bind].
  cbn [iv_data]. rewrite ZP. destruct (pivots_spec df piv Hpiv (alloc (df * 2)) ltac:(lia)) as (pp & Epp & Hpp); [rewrite zlen_alloc; lia|]. rewrite Epp. cbn [bind].
  set (pm := prm (Z.to_nat df) piv) in *.
  assert (Rpm : forall i, 0 <= i < df -> 0 <= pm i < df) by (intros; apply (prm_range df piv Hpiv); lia).
  destruct (dm_resize_ok m0 df r O0) as (T1 & T2 & T3 & T4 & T5); [nia|]. set (tM := dm_resize m0 df r) in *. rewrite T4.
  destruct (copy_upd df r d1 (r * n) n (dm_data tM) 0 r (fun i j => g1 (r + i)%Z (0 + j)%Z)) as (e & Ee & Ue); try lia; try nia.
  { apply (sub_holds d1 n g1 r 0); auto; lia. } { split; [lia|]. split; [lia|]. split; [lia|]. split; [lia|]. nia. }
  rewrite Ee. cbn [bind]. destruct Ue as (Ze & He & _).
  rewrite (read_cells_spec pp 0 df pm) by (auto; lia). cbn [bind].
  set (pl := map (fun k => pm (k - 0)%Z) (zrange 0 (0 + df))).
  assert (Gpl : forall i, 0 <= i < df -> nthz pl i = pm i).
  { intros i Hi. apply nthz_eq. unfold pl. rewrite getz_map, getz_zrange by lia. cbn [option_map]. do 2 f_equal. lia. }
  destruct (dm_permute_rows_spec (dm_set_data tM e) df r (fun i j => Dq (r + i)%Z j) pl) as (tM2 & Ep & (P1 & P2 & P3 & P4 & P5)).
  { split; [apply dm_set_data_ok; auto|]. cbn [dm_set_data dm_nrow dm_ncol dm_ld dm_data]. rewrite T2, T3, T4. split; [reflexivity|]. split; [reflexivity|]. split; [split; [lia|]; split; [lia|]; split; [lia|]; split; [lia|]; nia|].
    intros i j Hi Hj. rewrite (holds0 e r df r _ i j He Hi Hj). f_equal. unfold g1. pat. f_equal; lia. }
  { unfold pl. rewrite zlen_map, zlen_zrange; lia. }
  { intros i Hi. unfold pl in Hi. apply in_map_iff in Hi. destruct Hi as (k & <- & Hk). apply In_zrange in Hk. apply Rpm. lia. }
  rewrite Ep. cbn [bind].
  destruct (copy_upd df r (dm_data tM2) 0 (dm_ld tM2) d1 (r * n) n (fun i j => Dq (r + pm i)%Z j)) as (d2 & E2 & U2); try lia; auto.
  { destruct P4 as (_ & _ & _ & P4 & _). lia. } { apply holds0_intro. intros i j Hi Hj. rewrite P5 by auto. now rewrite Gpl. } { apply (sub_fits d1 n g1 r 0); auto; lia. }
  rewrite E2. cbn [bind].
  pose proof (sub_patch d1 d2 n g1 _ r 0 df r _ U2 H1 ltac:(lia) ltac:(lia) ltac:(lia) ltac:(lia) ltac:(lia)) as H2. set (g2 := patch r 0 df r (fun i j => Dq (r + pm i)%Z j) g1) in *.
  destruct (trsm_left_upd la true false true df r d2 (r * (n + 1)) n d2 (r * n) n LU (fun i j => Dq (r + pm i)%Z j) LA) as (d3 & X21 & E3 & U3 & S3); try lia.
  { apply (sub_fits d2 n g2 r 0); auto; lia. }
  { eapply holds_ext; [apply (sub_holds d2 n g2 r r df df); auto; lia|]. intros i j Hi Hj. cbv beta. unfold g2, g1. pat. f_equal; lia. }
  { eapply holds_ext; [apply (sub_holds d2 n g2 r 0 df r); auto; lia|]. intros i j Hi Hj. cbv beta. unfold g2. pat. f_equal; [do 2 f_equal|]; lia. }
  rewrite E3. cbn [bind].
  pose proof (sub_patch d2 d3 n g2 _ r 0 df r _ U3 H2 ltac:(lia) ltac:(lia) ltac:(lia) ltac:(lia) ltac:(lia)) as H3. set (g3 := patch r 0 df r X21 g2) in *.
  destruct (trsm_right_upd la false false false r df d3 (r * (n + 1)) n d3 r n LU (fun i j => Dq i (r + j)%Z) LA) as (d4 & X12 & E4 & U4 & S4); try lia.
  { apply (sub_fits d3 n g3 0 r); auto; lia. }
  { eapply holds_ext; [apply (sub_holds d3 n g3 r r df df); auto; lia|]. intros i j Hi Hj. cbv beta. unfold g3, g2, g1. pat. f_equal; lia. }
  { eapply holds_ext; [apply (sub_holds d3 n g3 0 r r df); auto; lia|]. intros i j Hi Hj. cbv beta. unfold g3, g2, g1. pat. f_equal; lia. }
  rewrite E4. cbn [bind].
  pose proof (sub_patch d3 d4 n g3 _ 0 r r df _ U4 H3 ltac:(lia) ltac:(lia) ltac:(lia) ltac:(lia) ltac:(lia)) as H4. set (g4 := patch 0 r r df X12 g3) in *.
  assert (B12 : holds d4 r n r df X12). { eapply holds_ext; [apply (sub_holds d4 n g4 0 r r df); auto; lia|]. intros i j Hi Hj. cbv beta. unfold g4. pat. f_equal; lia. }
  assert (B21 : holds d4 (r * n) n df r X21). { eapply holds_ext; [apply (sub_holds d4 n g4 r 0 df r); auto; lia|]. intros i j Hi Hj. cbv beta. unfold g4, g3. pat. f_equal; lia. }
  assert (B22 : holds d4 (r * (n + 1)) n df df LU). { eapply holds_ext; [apply (sub_holds d4 n g4 r r df df); auto; lia|]. intros i j Hi Hj. cbv beta. unfold g4, g3, g2, g1. pat. f_equal; lia. }
  assert (B11 : holds d4 0 n r r Dq). { eapply holds_ext; [apply (sub_holds d4 n g4 0 0 r r); auto; lia|]. intros i j Hi Hj. cbv beta. unfold g4, g3, g2, g1. pat. f_equal; lia. }
  rewrite El. cbn [bind].
  assert (Fl : forall (l : mem K) r0 c0 m k o, zlen l = (n * n)%Z -> 0 <= r0 -> 0 <= c0 -> 0 <= m -> 0 <= k -> (r0 + m <= n)%Z -> (c0 + k <= n)%Z -> o = (r0 * n + c0)%Z -> fits m k o n (zlen l)).
  { intros l r0 c0 m k o -> H5 H6 H7 H8 H9 H10 ->. split; [lia|]. split; [lia|]. split; [nia|]. split; [lia|]. nia. }
  destruct (copy_upd r df d4 r n l0 r n X12) as (l1 & Ec1 & V1); auto; try lia; [apply (Fl l0 0 r); auto; lia|]. rewrite Ec1. cbn [bind]. pose proof V1 as (Zl1 & _).
  destruct (copy_upd df r d4 (r * n) n l1 (r * n) n X21) as (l2 & Ec2 & V2); auto; try lia; try nia; [apply (Fl l1 r 0); auto; lia|]. rewrite Ec2. cbn [bind]. pose proof V2 as (Zl2 & _).
  destruct (copy_upd df df d4 (r * (n + 1)) n l2 (r * (n + 1)) n LU) as (l3 & Ec3 & V3); auto; try lia; try nia; [apply (Fl l2 r r); auto; lia|]. rewrite Ec3. cbn [bind]. pose proof V3 as (Zl3 & _).
  pose proof (quad_holds n r l0 l1 l2 l3 X12 X21 LU Hr Hl0 V1 V2 V3) as HL.
  destruct (copy_upd r r d4 0 n (alloc (r * r)) 0 r Dq) as (dm0 & Ed0 & Zd0 & Hd0 & _); auto; try lia. rewrite Ed0. cbn [bind].
  destruct (gemm_neg_upd false r r df d4 r n d4 (r * n) n dm0 0 r X12 X21 Dq) as (dm & Ed & Zd & Hdm & _); auto; [apply Fdm; lia|]. rewrite Ed. cbn [bind].
  destruct U1 as (Z1 & _), U2 as (Z2 & _), U3 as (Z3 & _), U4 as (Z4 & _).
  eexists _, _, _, _, _, _, _. split; [reflexivity|]. split; [exact P1|]. split; [lia|]. split; [intros Hok; apply Z.eqb_neq in Hok; exists a; fold df; rewrite EF; auto|]. intros Hok. apply Z.eqb_eq in Hok. destruct (HLU Hok) as [Hdiag HA].
  exists (quad r X12 X21 LU), pm, (fun i j => Dq i j - rsum 0 df (fun p => X12 i p * X21 p j)). cbn [iv_len iv_data].
  split; [unfold mholds; cbn; auto|]. split; [unfold mholds; cbn; auto|]. split; [reflexivity|]. split; [exact Hpp|].
  assert (QT : forall lo un i j, 0 <= i < df -> 0 <= j < df -> tri lo un (fun i j => quad r X12 X21 LU (r + i)%Z (r + j)%Z) i j = tri lo un LU i j).
  { intros. apply (tri_ext lo un _ _ df); auto. intros. apply quad_22; lia. }
  split; fold df.
  - exact Rpm.
  - intros i Hi. apply (prm_onto df piv Hpiv); lia.
  - discriminate.
  - intros i Hi. rewrite quad_22 by lia. now apply Hdiag.
  - intros i j Hi Hj. unfold T1_, T2_. cbn [negb]. rewrite (rsum_ext 0 df _ (fun l => tri true true LU i l * tri false false LU l j)) by (intros; now rewrite !QT by lia).
    rewrite HA by lia. rewrite interchange_prm. fold pm. apply Ga; auto.
  - intros i j Hi Hj. unfold T1_, C21_. cbn [negb]. rewrite <- (S3 ltac:(discriminate) i j) by lia. apply rsum_ext. intros l Hl. rewrite QT by lia. now rewrite quad_21 by lia.
  - intros i j Hi Hj. unfold C12_, T2_. rewrite <- (S4 ltac:(auto) i j) by lia. apply rsum_ext. intros l Hl. rewrite QT by lia. now rewrite quad_12 by lia.
  - intros i j Hi Hj. f_equal. apply rsum_ext. intros l Hl. unfold C12_, C21_. now rewrite quad_12, quad_21 by lia.
Qed.

(** ** LU at the root *)
Lemma lu_root_spec n d lg Dh : 0 <= n -> holds d 0 n n n Dh ->
  exists p L ok lg', lu_root la n d lg = Some (p, L, ok, lg') /\ (ok = false -> bad_piv false n Dh) /\
    (ok = true -> exists Lf pm, mholds L n n Lf /\ iv_len p = n /\ (forall k, 0 <= k < n -> ld (iv_data p) k = Some (pm k)) /\ forall Df, blk_ok false n 0 Dh Lf pm Df).
Proof.
  intros Hn Hd. unfold lu_root. rewrite !dm_init_eq by lia. cbn [dm_data].
  assert (ZL : zlen (@alloc K (n * n)) = (n * n)%Z) by (apply zlen_alloc; nia).
  assert (Fl : forall l : mem K, zlen l = (n * n)%Z -> fits n n 0 n (zlen l)). { intros l ->. split; [lia|]. split; [lia|]. split; [nia|]. split; [lia|]. nia. }
  destruct (copy_upd n n d 0 n (alloc (n * n)) 0 n Dh) as (l0 & E0 & Z0 & H0 & _); auto; try lia. rewrite E0. cbn [bind].
  assert (ZP : iv_data (iv_init (n * 2)) = alloc (n * 2)) by (unfold iv_init; destruct (Z.ltb_spec (n * 2) 0); [lia|reflexivity]).
  unfold getrf. destruct (rd_ok _ _ _ _ _ _ H0) as (a & Ea & Ga). rewrite Ea. cbn [bind].
  pose proof (la_lu la LA n a ltac:(lia)) as HLU. destruct (l_getrf la n a) as [[info LU] piv] eqn:EF. destruct HLU as [Hpiv HLU].
  destruct (wr_upd n n LU l0 0 n) as (l1 & E1 & Z1 & H1 & _); [apply Fl; lia|]. rewrite E1. cbn [bind].
  destruct (diag_prod_ok n l1 0 n LU Hn H1) as (pd & Epd). rewrite Epd. cbn [bind].
  rewrite ZP. destruct (pivots_spec n piv Hpiv (alloc (n * 2)) ltac:(lia)) as (pp & Epp & Hpp); [rewrite zlen_alloc; lia|]. rewrite Epp. cbn [bind].
  eexists _, _, _, _. split; [reflexivity|]. split; [intros Hok; apply Z.eqb_neq in Hok; exists a; rewrite EF; auto|]. intros Hok. apply Z.eqb_eq in Hok. destruct (HLU Hok) as [Hdiag HA].
  exists LU, (prm (Z.to_nat n) piv). cbn [iv_len iv_data].
  split; [unfold mholds; cbn; auto|]. split; [reflexivity|]. split; [exact Hpp|]. intros Df.
  split; rewrite ?Z.sub_0_r; try (intros; lia).
  - intros; apply (prm_range n piv Hpiv); lia.
  - intros i Hi. apply (prm_onto n piv Hpiv); lia.
  - intros i Hi. now apply Hdiag.
  - intros i j Hi Hj. unfold T1_, T2_. cbn [negb].
    transitivity (rsum 0 n (fun l => tri true true LU i l * tri false false LU l j)); [apply rsum_ext; intros l Hl; f_equal; apply (tri_ext _ _ _ _ n); auto; intros; f_equal; lia|].
    rewrite HA by lia. rewrite interchange_prm. rewrite Ga; auto. apply (prm_range n piv Hpiv); lia.
Qed.

(** ** Cholesky *)
Lemma potrf_spec n o l (d : mem K) A : 0 <= n -> n <= l -> 0 <= o -> fits n n o l (zlen d) -> holds d o l n n A -> (forall i j, 0 <= i < n -> 0 <= j < n -> A i j = A j i) ->
  exists info d' G, potrf la n d o l = Some (info, d') /\ updr d d' o l n n G /\ (info <> 0%Z -> bad_piv true n A) /\
   (info = 0%Z -> (forall i, 0 <= i < n -> G i i <> c0) /\ forall i j, 0 <= i < n -> 0 <= j < n -> rsum 0 n (fun k => tri true false G i k * tri true false G j k) = A i j).
Proof.
  intros Hn Hl Ho Hf Hd Sy. unfold potrf. destruct (rd_ok _ _ _ _ _ _ Hd) as (a & Ea & Ga). rewrite Ea. cbn [bind].
  pose proof (la_chol la LA n a Hn) as HC. destruct (l_potrf la n a) as [info L] eqn:EF.
  destruct (wr_upd n n (fun i j => if (j <=? i)%Z then L i j else a i j) d o l Hf) as (d' & E & U). rewrite E. cbn [bind].
  exists info, d', (fun i j => if (j <=? i)%Z then L i j else a i j). split; [reflexivity|]. split; [exact U|]. split; [intros Hok; exists a; rewrite EF; auto|]. intros Hi0. destruct (HC Hi0) as [Hdi HA]. split.
  - intros i Hi. rewrite Z.leb_refl. auto.
  - assert (TT : forall i k, tri true false (fun i j => if (j <=? i)%Z then L i j else a i j) i k = tri true false L i k).
    { intros i k. unfold tri. rewrite Z.leb_refl. destruct (Z.eqb_spec i k); auto. destruct (Z.ltb_spec k i), (Z.leb_spec k i); auto; lia. }
    intros i j Hi Hj. rewrite (rsum_ext 0 n _ (fun k => tri true false L i k * tri true false L j k)) by (intros; now rewrite !TT).
    destruct (Z.le_gt_cases j i).
    + rewrite HA by lia. now apply Ga.
    + rewrite (rsum_ext 0 n _ (fun k => tri true false L j k * tri true false L i k)) by (intros; ring). rewrite HA by lia. rewrite Ga by auto. now apply Sy.
Qed.

Lemma tri_low (G : matrix) i j : tri true false (fun i j => if (j <=? i)%Z then G i j else c0) i j = tri true false G i j.
Proof. unfold tri. rewrite Z.leb_refl. destruct (Z.eqb_spec i j); auto. destruct (Z.ltb_spec j i), (Z.leb_spec j i); auto; lia. Qed.

Lemma chol_root_spec n d lg Dh : 0 <= n -> holds d 0 n n n Dh -> (forall i j, 0 <= i < n -> 0 <= j < n -> Dh i j = Dh j i) ->
  exists L ok lg', chol_root la n d lg = Some (L, ok, lg') /\ (ok = false -> bad_piv true n Dh) /\ (ok = true -> exists Lf, mholds L n n Lf /\ forall Df, blk_ok true n 0 Dh Lf (fun i => i) Df).
Proof.
  intros Hn Hd Sy. unfold chol_root. rewrite !dm_init_eq by lia. cbn [dm_data].
  assert (ZL : zlen (@alloc K (n * n)) = (n * n)%Z) by (apply zlen_alloc; nia).
  assert (Fl : forall l : mem K, zlen l = (n * n)%Z -> fits n n 0 n (zlen l)). { intros l ->. split; [lia|]. split; [lia|]. split; [nia|]. split; [lia|]. nia. }
  destruct (copy_upd n n d 0 n (alloc (n * n)) 0 n Dh) as (l0 & E0 & Z0 & H0 & _); auto; try lia. rewrite E0. cbn [bind].
  destruct (potrf_spec n 0 n l0 Dh) as (info & l1 & G & E1 & (Z1 & H1 & _) & HB & HG); auto; try lia; [apply Fl; lia|]. rewrite E1. cbn [bind].
  destruct (zero_upper l1 0 n n n G) as (l2 & E2 & Z2 & H2 & _); auto; try lia; [apply Fl; lia|].
  rewrite (zfor_ext 0 n _ (fun k d => mset0 d (0 + (k * n + (k + 1))) (n - 1 - k))) by reflexivity. rewrite E2. cbn [bind].
  destruct (diag_prod_ok n l2 0 n _ Hn H2) as (pd & Epd). rewrite Epd. cbn [bind].
  eexists _, _, _. split; [reflexivity|]. split; [intros Hok; apply Z.eqb_neq in Hok; auto|]. intros Hok. apply Z.eqb_eq in Hok. destruct (HG Hok) as [Hdiag HA].
  exists (fun i j => if (j <=? i)%Z then G i j else c0). split; [unfold mholds; cbn; auto|]. intros Df.
  split; rewrite ?Z.sub_0_r; try (intros; lia).
  - eauto.
  - intros i Hi. rewrite Z.leb_refl. apply Hdiag. lia.
  - intros i j Hi Hj. unfold T1_, T2_, T1_. cbn [negb]. rewrite !Z.add_0_l. rewrite <- (HA i j) by lia. apply rsum_ext. intros l Hl.
    rewrite <- (tri_low G i l), <- (tri_low G j l). f_equal; apply (tri_ext _ _ _ _ n); auto; intros; now rewrite !Z.add_0_l.
Qed.

Lemma chol_inner_spec n r d lg Dq : 0 <= r <= n -> holds d 0 n n n Dq -> (forall i j, 0 <= i < n -> 0 <= j < n -> Dq i j = Dq j i) ->
  exists L Dm ok lg' d', chol_inner la n r d lg = Some (L, Dm, ok, lg', d') /\ zlen d' = zlen d /\ (ok = false -> bad_piv true (n - r) (fun i j => Dq (r + i)%Z (r + j)%Z)) /\
    (ok = true -> exists Lf Df, mholds L n n Lf /\ mholds Dm r r Df /\ blk_ok true n r Dq Lf (fun i => i) Df).
Proof.
  intros Hr Hd Sy. unfold chol_inner. set (df := (n - r)%Z). rewrite !dm_init_eq by lia. cbn [dm_data].
  assert (ZL : zlen (@alloc K (n * n)) = (n * n)%Z) by (apply zlen_alloc; nia).
  destruct (eye_rows_spec r n (alloc (n * n)) Hr ZL) as (l0 & El & Zl0 & Hl0).
  assert (Zdm : zlen (@alloc K (r * r)) = (r * r)%Z) by (apply zlen_alloc; nia).
  assert (Fdm : forall a : mem K, zlen a = (r * r)%Z -> fits r r 0 r (zlen a)) by (intros a ->; split; [lia|]; split; [lia|]; split; [lia|]; split; [lia|]; nia).
  destruct (Z.ltb_spec 0 df) as [Hdf|Hdf].
  2:{ assert (n = r) by lia. subst n. cbn [bind]. rewrite El. cbn [bind].
      destruct (copy_upd r r d 0 r (alloc (r * r)) 0 r Dq) as (dm & Ed & Zd & Hdm & _); try lia; auto.
      rewrite Ed. cbn [bind]. eexists _, _, _, _, _. split; [reflexivity|]. split; [reflexivity|]. split; [discriminate|]. intros _.
      exists delta, Dq. split; [unfold mholds; cbn; auto|]. split; [unfold mholds; cbn; auto|]. apply blk_ok_empty. lia. }
  destruct (potrf_spec df (r * (n + 1)) n d (fun i j => Dq (r + i)%Z (r + j)%Z)) as (info & d1 & G & E1 & U1 & HB & HG); try lia; try nia.
  { apply (sub_fits d n Dq r r); auto; lia. } { apply (sub_holds d n Dq r r); auto; lia. } { intros. apply Sy; lia. }
  rewrite E1. cbn [bind].
  pose proof (sub_patch d d1 n Dq G r r df df _ U1 Hd ltac:(lia) ltac:(lia) ltac:(lia) ltac:(lia) ltac:(lia)) as H1. set (g1 := patch r r df df G Dq) in *.
  destruct (zero_upper d1 (r * (n + 1)) n df (df - 1) G) as (d2 & E2 & U2); try lia; try nia.
  { apply (sub_fits d1 n g1 r r); auto; lia. } { apply U1. }
  rewrite E2. cbn [bind]. set (G2 := fun i j => if (j <=? i)%Z then G i j else c0) in *.
  pose proof (sub_patch d1 d2 n g1 G2 r r df df _ U2 H1 ltac:(lia) ltac:(lia) ltac:(lia) ltac:(lia) ltac:(lia)) as H2. set (g2 := patch r r df df G2 g1) in *.
  destruct (diag_prod_ok df d2 (r * (n + 1)) n _ ltac:(lia) (sub_holds d2 n g2 r r df df (r * (n + 1)) H2 ltac:(lia) ltac:(lia) ltac:(lia) ltac:(lia) ltac:(lia))) as (pd & Epd). rewrite Epd. cbn [bind].
  destruct (trsm_left_upd la true false false df r d2 (r * (n + 1)) n d2 (r * n) n G2 (fun i j => Dq (r + i)%Z j) LA) as (d3 & X21 & E3 & U3 & S3); try lia.
  { apply (sub_fits d2 n g2 r 0); auto; lia. }
  { eapply holds_ext; [apply (sub_holds d2 n g2 r r df df); auto; lia|]. intros i j Hi Hj. cbv beta. unfold g2, g1. pat. f_equal; lia. }
  { eapply holds_ext; [apply (sub_holds d2 n g2 r 0 df r); auto; lia|]. intros i j Hi Hj. cbv beta. unfold g2, g1. pat. f_equal; lia. }
  rewrite E3. cbn [bind].
  pose proof (sub_patch d2 d3 n g2 _ r 0 df r _ U3 H2 ltac:(lia) ltac:(lia) ltac:(lia) ltac:(lia) ltac:(lia)) as H3. set (g3 := patch r 0 df r X21 g2) in *.
  assert (B21 : holds d3 (r * n) n df r X21). { eapply holds_ext; [apply (sub_holds d3 n g3 r 0 df r); auto; lia|]. intros i j Hi Hj. cbv beta. unfold g3. pat. f_equal; lia. }
  assert (B22 : holds d3 (r * (n + 1)) n df df G2). { eapply holds_ext; [apply (sub_holds d3 n g3 r r df df); auto; lia|]. intros i j Hi Hj. cbv beta. unfold g3, g2, g1. pat. f_equal; lia. }
  assert (B11 : holds d3 0 n r r Dq). { eapply holds_ext; [apply (sub_holds d3 n g3 0 0 r r); auto; lia|]. intros i j Hi Hj. cbv beta. unfold g3, g2, g1. pat. f_equal; lia. }
  rewrite El. cbn [bind].
  assert (Fl : forall (l : mem K) r0 c0 m k o, zlen l = (n * n)%Z -> 0 <= r0 -> 0 <= c0 -> 0 <= m -> 0 <= k -> (r0 + m <= n)%Z -> (c0 + k <= n)%Z -> o = (r0 * n + c0)%Z -> fits m k o n (zlen l)).
  { intros l r0 c0 m k o -> H5 H6 H7 H8 H9 H10 ->. split; [lia|]. split; [lia|]. split; [nia|]. split; [lia|]. nia. }
  destruct (transpose_to_upd df r d3 (r * n) n l0 r n X21) as (l1 & Ec1 & V1); auto; try lia; [apply (Fl l0 0 r); auto; lia|]. rewrite Ec1. cbn [bind]. pose proof V1 as (Zl1 & _).
  assert (Zr : exists l2, zfor 0 df (fun k l => mset0 l (r * n + k * n) r) l1 = Some l2 /\ updr l1 l2 (r * n) n df r (fun _ _ => c0)).
  { destruct (zfor_inv (fun k0 (e : mem K) => zlen e = zlen l1 /\ (forall i j, 0 <= i < k0 -> 0 <= j < r -> ld e (r * n + (i * n + j)) = Some c0) /\
      forall x, (forall i j, 0 <= i < df -> 0 <= j < r -> x <> r * n + (i * n + j))%Z -> getz e x = getz l1 x) 0 df (fun k l => mset0 l (r * n + k * n)%Z r) l1) as (l2 & Ez & Q1 & Q2 & Q3).
    - lia.
    - split; auto. split; auto. intros; lia.
    - intros k e Hk (Q1 & Q2 & Q3). destruct (mset0_upd e (r * n + k * n) r) as (e' & Ee & Ze & Ge); [lia|nia|nia|]. exists e'. split; auto. split; [lia|]. split.
      + intros i j Hi Hj. unfold ld. rewrite Ge. destruct (Z.eq_dec i k) as [->|Hne].
        * destruct (Z.leb_spec (r * n + k * n) (r * n + (k * n + j))), (Z.ltb_spec (r * n + (k * n + j)) (r * n + k * n + r)); try lia. reflexivity.
        * destruct (Z.leb_spec (r * n + k * n) (r * n + (i * n + j))); [exfalso; nia|]. cbn [andb]. apply Q2; lia.
      + intros x Hx. rewrite Ge. destruct (Z.leb_spec (r * n + k * n) x), (Z.ltb_spec x (r * n + k * n + r)); cbn [andb]; auto.
        exfalso. apply (Hx k (x - r * n - k * n)%Z); lia.
    - exists l2. split; auto. split; auto. }
  destruct Zr as (l2 & Ec2 & V2). rewrite Ec2. cbn [bind]. pose proof V2 as (Zl2 & _).
  destruct (copy_upd df df d3 (r * (n + 1)) n l2 (r * (n + 1)) n G2) as (l3 & Ec3 & V3); auto; try lia; try nia; [apply (Fl l2 r r); auto; lia|]. rewrite Ec3. cbn [bind]. pose proof V3 as (Zl3 & _).
  pose proof (quad_holds n r l0 l1 l2 l3 _ _ _ Hr Hl0 V1 V2 V3) as HL.
  destruct (copy_upd r r d3 0 n (alloc (r * r)) 0 r Dq) as (dm0 & Ed0 & Zd0 & Hd0 & _); auto; try lia. rewrite Ed0. cbn [bind].
  destruct (gemm_neg_upd true r r df d3 (r * n) n d3 (r * n) n dm0 0 r (fun i p => X21 p i) X21 Dq) as (dm & Ed & Zd & Hdm & _); auto; [apply Fdm; lia|]. rewrite Ed. cbn [bind].
  destruct U1 as (Z1 & _), U2 as (Z2 & _), U3 as (Z3 & _).
  eexists _, _, _, _, _. split; [reflexivity|]. split; [lia|]. split; [intros Hok; apply Z.eqb_neq in Hok; exact (HB Hok)|]. intros Hok. apply Z.eqb_eq in Hok. destruct (HG Hok) as [Hdiag HA].
  set (Lf := quad r (fun i j => X21 j i) (fun _ _ => c0) G2) in *.
  exists Lf, (fun i j => Dq i j - rsum 0 df (fun p => X21 p i * X21 p j)).
  split; [unfold mholds; cbn; auto|]. split; [unfold mholds; cbn; auto|].
  assert (QT : forall i j, 0 <= i < df -> 0 <= j < df -> tri true false (fun i j => Lf (r + i)%Z (r + j)%Z) i j = tri true false G2 i j).
  { intros. apply (tri_ext true false _ _ df); auto. intros. apply quad_22; lia. }
  assert (D2 : false = false -> forall i, 0 <= i < df -> G2 i i <> c0) by (intros _ i Hi; unfold G2; rewrite Z.leb_refl; now apply Hdiag).
  split; fold df.
  - auto.
  - eauto.
  - auto.
  - intros i Hi. unfold Lf. rewrite quad_22 by lia. now apply D2.
  - intros i j Hi Hj. unfold T1_, T2_, T1_. cbn [negb]. rewrite <- HA by lia. apply rsum_ext. intros l Hl. rewrite !QT by lia. unfold G2. now rewrite !tri_low.
  - intros i j Hi Hj. unfold T1_, C21_. cbn [negb]. rewrite <- (S3 D2 i j) by lia. apply rsum_ext. intros l Hl. rewrite QT by lia. unfold Lf. now rewrite quad_12 by lia.
  - intros i j Hi Hj. unfold C12_, T2_, T1_. cbn [negb]. rewrite (Sy i (r + j)%Z) by lia. rewrite <- (S3 D2 j i) by lia. apply rsum_ext. intros l Hl. rewrite QT by lia. unfold Lf. rewrite quad_12 by lia. cbn [top]. ring.
  - intros i j Hi Hj. f_equal. apply rsum_ext. intros l Hl. unfold C12_, C21_, Lf. now rewrite !quad_12 by lia.
Qed.
End Fac.
