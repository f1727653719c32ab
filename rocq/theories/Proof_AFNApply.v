(** AFN_precond_apply computes the operator of Proof_AFNMath.v in the user's order. *)
From Coq Require Import ZArith QArith List Lia Bool Permutation.
From Verif Require Import Base Mem Num CRing Model_Utils Model_Matvec Model_Build Model_Matmul Proof_Build Proof_Gemm Spec_Dense Spec_Lapack Blk Model_ULV Proof_ULVMem Proof_ULVVec Proof_ULVMath Model_FSAI Spec_FSAI Proof_FSAIKnn Proof_FSAIApply Model_AFN Spec_AFN Proof_AFNMath.
Import ListNotations.
Open Scope Z_scope.

Section Perm.
Context {K : cring}.
(** Gather and scatter through a permutation. *)
Lemma perm_gather n (perm : mem Z) ps (x px : mem K) xv : 0 <= n -> perm_ok n perm ps -> (forall j, 0 <= j < n -> ld x j = Some (xv j)) -> zlen px = n ->
  exists px', zfor 0 n (fun i d => p <- ld perm i; v <- ld x p; st d i v) px = Some px' /\ zlen px' = n /\ forall i, 0 <= i < n -> ld px' i = Some (xv (ps i)).
Proof.
  intros Hn (Zp & Hp & _) Hx Zx.
  destruct (zfor_inv (fun k (d : mem K) => zlen d = n /\ forall i, 0 <= i < k -> ld d i = Some (xv (ps i))) 0 n (fun i d => p <- ld perm i; v <- ld x p; st d i v) px) as (d & E & Z1 & L1); auto.
  - split; auto. intros; lia.
  - intros k d Hk (Zd & Ld). destruct (Hp k Hk) as (E1 & R1). rewrite E1. cbn [bind]. rewrite Hx by auto. cbn [bind]. destruct (st_Some d k (xv (ps k)) ltac:(lia)) as (d' & Ed). exists d'. split; auto. split; [rewrite (st_zlen _ _ _ _ Ed); auto|].
    intros i Hi. rewrite (ld_st _ _ _ _ _ Ed). destruct (Z.eqb_spec k i) as [->|]; auto. apply Ld. lia.
  - eauto.
Qed.
Lemma perm_scatter n (perm : mem Z) ps (py y : mem K) yv : 0 <= n -> perm_ok n perm ps -> (forall j, 0 <= j < n -> ld py j = Some (yv j)) -> n <= zlen y ->
  exists y', zfor 0 n (fun i y => p <- ld perm i; v <- ld py i; st y p v) y = Some y' /\ zlen y' = zlen y /\ (forall i, 0 <= i < n -> ld y' (ps i) = Some (yv i)) /\ forall c, ~ 0 <= c < n -> ld y' c = ld y c.
Proof.
  intros Hn (Zp & Hp & Inj) Hx Zx.
  destruct (zfor_inv (fun k (d : mem K) => zlen d = zlen y /\ (forall i, 0 <= i < k -> ld d (ps i) = Some (yv i)) /\ forall c, ~ 0 <= c < n -> ld d c = ld y c) 0 n (fun i y => p <- ld perm i; v <- ld py i; st y p v) y) as (d & E & Z1 & L1 & F1); auto.
  - split; auto. split; auto. intros; lia.
  - intros k d Hk (Zd & Ld & Fd). destruct (Hp k Hk) as (E1 & R1). rewrite E1. cbn [bind]. rewrite Hx by auto. cbn [bind]. destruct (st_Some d (ps k) (yv k) ltac:(lia)) as (d' & Ed). exists d'. split; auto. split; [rewrite (st_zlen _ _ _ _ Ed); auto|]. split.
    + intros i Hi. rewrite (ld_st _ _ _ _ _ Ed). destruct (Z.eqb_spec (ps k) (ps i)) as [Eq|Ne].
      * now rewrite (Inj k i ltac:(lia) ltac:(lia) Eq).
      * apply Ld. destruct (Z.eq_dec i k) as [->|]; [congruence|lia].
    + intros c Hc. rewrite (ld_st _ _ _ _ _ Ed). destruct (Z.eqb_spec (ps k) c); [lia|]. auto.
  - eauto 10.
Qed.
Lemma vec_holds (a : mem K) o n f : (forall i, 0 <= i < n -> ld a (o + i)%Z = Some (f i)) -> holds a o 1 n 1 (fun i _ => f i).
Proof. intros H i j Hi Hj. replace (o + (i * 1 + j))%Z with (o + i)%Z by lia. auto. Qed.
Lemma holds_vec (a : mem K) o n f i : holds a o 1 n 1 f -> 0 <= i < n -> ld a (o + i)%Z = Some (f i 0).
Proof. intros H Hi. rewrite <- (H i 0 Hi ltac:(lia)). f_equal. lia. Qed.
End Perm.

Section Apply.
Context {K : cring}.
Add Ring Kring : (cth K).
Local Open Scope ring_K.
Variables (n1 n2 : Z) (A inv G : Z -> Z -> K).
Hypothesis Hn1 : 0 <= n1. Hypothesis Hn2 : 0 <= n2.
Let n := (n1 + n2)%Z.
Variables (invK11 K12 : mem K) (g : fsai K).
Hypothesis HI : holds invK11 0 n1 n1 n1 inv.
Hypothesis HK : holds K12 0 n2 n1 n2 (afn_K12 n1 A).
Hypothesis HG : csr_op n2 (G_rowptr g) (G_colidx g) (G_val g) G.
Hypothesis HGT : csr_op n2 (GT_rowptr g) (GT_colidx g) (GT_val g) (fun i j => G j i).
Variables (perm : mem Z) (ps : Z -> Z).
Hypothesis Hperm : perm_ok n perm ps.

Theorem AFN_apply_spec (x y px py t1 t2 : mem K) xv : (forall j, 0 <= j < n -> ld x j = Some (xv j)) -> n <= zlen y ->
  zlen px = n -> zlen py = n -> zlen t1 = n -> zlen t2 = n ->
  exists y' px' py' t1' t2', AFN_precond_apply (Afn n n1 n2 perm (IsAfn invK11 K12 g)) x y px py t1 t2 = Some (y', (px', py', t1', t2')) /\
    zlen px' = n /\ zlen py' = n /\ zlen t1' = n /\ zlen t2' = n /\ zlen y' = zlen y /\
    (forall i, 0 <= i < n -> ld y' (ps i) = Some (afn_y n1 n2 A inv G (fun j => xv (ps j)) i)) /\ forall c, ~ 0 <= c < n -> ld y' c = ld y c.
Proof.
  intros Hx Zy Zpx Zpy Zt1 Zt2. unfold AFN_precond_apply. cbn [a_n a_n1 a_n2 a_perm a_kind]. set (xp := fun j => xv (ps j)).
  destruct (perm_gather n perm ps x px xv) as (px' & E1 & Z1 & L1); auto; try (unfold n; lia). rewrite E1. cbn [bind]. fold xp in L1.
  assert (Hp1 : holds px' 0 1 n1 1 (fun i _ => xp i)) by (apply vec_holds; intros i Hi; rewrite Z.add_0_l; apply L1; unfold n; lia).
  destruct (gemm_upd false false n1 1 n1 invK11 0 n1 px' 0 1 t1 0 1 inv (fun i _ => xp i) Hn1) as (t1a & E2 & (Z2 & H2 & F2)); auto.
  { repeat split; try lia. }
  rewrite E2. cbn [bind].
  destruct (mcpy_spec t1a n1 px' n1 n2) as (t1b & E3 & Z3 & L3); try lia. rewrite E3. cbn [bind].
  set (tb := fun i => if (i <? n1)%Z then rsum 0 n1 (fun p => inv i p * xp p) else xp i).
  assert (V1 : vec t1b n tb).
  { split; [lia|]. intros i Hi. unfold ld. rewrite L3. unfold tb. destruct (Z.ltb_spec i n1).
    - destruct (Z.leb_spec n1 i); [lia|]. cbn [andb]. pose proof (holds_vec _ _ _ _ i H2 ltac:(lia)) as Hv. rewrite Z.add_0_l in Hv. exact Hv.
    - rewrite (proj2 (Z.leb_le _ _)), (proj2 (Z.ltb_lt _ _)) by (unfold n in *; lia). cbn [andb]. replace (n1 + (i - n1))%Z with i by lia. apply L1. auto. }
  destruct (gemv_vec true n2 n1 K12 0 n2 t1b 0 n1 n tb (fun r k => afn_K12 n1 A k r) V1) as (t1c & E4 & Z4 & V4); auto; try (unfold n; lia). rewrite E4. cbn [bind].
  set (u := afn_u n1 A inv xp).
  assert (Lu : forall j, 0 <= j < n2 -> ld t1c (n1 + j)%Z = Some (u j)).
  { intros j Hj. destruct V4 as (_ & V4). rewrite V4 by (unfold n; lia). unfold put. rewrite (proj2 (Z.leb_le _ _)), (proj2 (Z.ltb_lt _ _)) by lia. cbn [andb]. f_equal. unfold u, afn_u, tb. replace (n1 + j - n1)%Z with j by lia.
    destruct (Z.ltb_spec (n1 + j) n1); [lia|]. f_equal. apply rsum_ext. intros p Hp. rewrite Z.add_0_l. destruct (Z.ltb_spec p n1); [|lia]. auto. }
  destruct (FSAI_apply_spec n2 g G t1c py t2 n1 u n1 n1) as (py' & t2' & E5 & Z5 & Z6 & L5); auto; try (unfold n in *; lia). rewrite E5. cbn [bind].
  assert (Ly2 : forall j, 0 <= j < n2 -> ld py' (n1 + j)%Z = Some (afn_y2 n1 n2 A inv G xp j)).
  { intros j Hj. rewrite L5, (proj2 (Z.leb_le _ _)), (proj2 (Z.ltb_lt _ _)) by lia. cbn [andb]. replace (n1 + j - n1)%Z with j by lia. reflexivity. }
  destruct (mcpy_spec t2' 0 px' 0 n1) as (t2a & E6 & Z7 & L6); try lia. rewrite E6. cbn [bind].
  assert (Ht2 : holds t2a 0 1 n1 1 (fun i _ => xp i)).
  { apply vec_holds. intros i Hi. unfold ld. rewrite L6, (proj2 (Z.leb_le _ _)), (proj2 (Z.ltb_lt _ _)) by lia. cbn [andb]. replace (0 + (0 + i - 0))%Z with i by lia. apply L1. unfold n; lia. }
  destruct (gemm_neg_upd false n1 1 n2 K12 0 n2 py' n1 1 t2a 0 1 (afn_K12 n1 A) (fun r _ => afn_y2 n1 n2 A inv G xp r) (fun i _ => xp i)) as (t2b & E7 & (Z8 & H8 & _)); auto.
  { repeat split; try lia. }
  { apply vec_holds. auto. }
  rewrite E7. cbn [bind].
  destruct (gemm_upd false false n1 1 n1 invK11 0 n1 t2b 0 1 py' 0 1 inv (fun i _ => xp i - rsum 0 n2 (fun r => afn_K12 n1 A i r * afn_y2 n1 n2 A inv G xp r)) Hn1) as (py2 & E8 & (Z9 & H9 & F9)); auto.
  { repeat split; try lia. }
  rewrite E8. cbn [bind].
  assert (Lpy : forall i, 0 <= i < n -> ld py2 i = Some (afn_y n1 n2 A inv G xp i)).
  { intros i Hi. unfold afn_y. destruct (Z.ltb_spec i n1).
    - pose proof (holds_vec _ _ _ _ i H9 ltac:(lia)) as Hv. rewrite Z.add_0_l in Hv. exact Hv.
    - unfold ld. rewrite F9 by (intros; lia). replace i with (n1 + (i - n1))%Z at 1 by lia. apply Ly2. unfold n in *; lia. }
  destruct (perm_scatter n perm ps py2 y (afn_y n1 n2 A inv G xp)) as (y' & E9 & Zy' & Ly' & Fy'); auto; try (unfold n; lia). rewrite E9. cbn [bind].
  exists y', px', py2, t1c, t2b. split; [reflexivity|]. repeat split; auto; lia.
Qed.
End Apply.
