(** The construction of the Nystrom preconditioner. *)
From Coq Require Import ZArith Reals List Lia Lra Bool.
From Verif Require Import Base Mem Num CRing FNum Model_Utils Spec_Dense Model_Dense Model_Matvec Model_Matmul Proof_Gemm Spec_Lapack Proof_Lapack Spec_SPD Blk Model_ULV Proof_ULVMem Proof_ULVAsm Model_FSAI Proof_FSAIReal Model_AFN Proof_AFNMath Proof_AFNBuild Proof_AFNTop Model_Nys Spec_Nys Proof_NysMath.
Import ListNotations.
Open Scope Z_scope.

Ltac rwb E := match type of E with _ = Some ?d => match goal with |- context [bind ?t _] => replace t with (Some d) by (symmetry; exact E) end end; cbn [bind].
(** Loops that write every cell of a square or of a vector once. *)
Lemma upd2 m n (f : Z -> Z -> mem Rring -> option (mem Rring)) (g : Z -> Z -> R) (old : Z -> Z -> option R) d0 : 0 <= m -> 0 <= n -> zlen d0 = m * n ->
  (forall i j, 0 <= i < m -> 0 <= j < n -> ld d0 (i * n + j) = old i j) ->
  (forall i j d, 0 <= i < m -> 0 <= j < n -> zlen d = m * n -> ld d (i * n + j) = old i j -> f i j d = st d (i * n + j) (g i j : Rring)) ->
  exists d', zfor 0 m (fun i d => zfor 0 n (fun j d => f i j d) d) d0 = Some d' /\ zlen d' = m * n /\ holds d' 0 n m n g.
Proof.
  intros Hm Hn Z0 H0 Hf.
  set (P := fun i j (d : mem Rring) => zlen d = m * n /\ forall a b, 0 <= a < m -> 0 <= b < n -> ld d (a * n + b) = if (a <? i) || ((a =? i) && (b <? j)) then Some (g a b) else old a b).
  destruct (zfor_inv (fun i d => P i 0 d) 0 m (fun i d => zfor 0 n (fun j d => f i j d) d) d0) as (d' & E & Z1 & L1); auto.
  - split; auto. intros a b Ha Hb. rewrite H0 by auto. destruct (Z.ltb_spec a 0), (Z.eqb_spec a 0), (Z.ltb_spec b 0); cbn; auto; lia.
  - intros i e Hi He. destruct (zfor_inv (fun j e => P i j e) 0 n (fun j d => f i j d) e) as (e' & E & Z1 & L1); auto.
    + intros j x Hj (Zx & Lx). rewrite Hf; auto.
      2:{ rewrite Lx by auto. rewrite Z.ltb_irrefl, Z.eqb_refl, Z.ltb_irrefl. reflexivity. }
      destruct (st_Some x (i * n + j) (g i j : Rring)) as (x' & Ex); [rewrite Zx; nia|]. exists x'. split; auto. split; [rewrite (st_zlen _ _ _ _ Ex); auto|].
      intros a b Ha Hb. rewrite (ld_st _ _ _ _ _ Ex). destruct (Z.eqb_spec (i * n + j) (a * n + b)) as [Eq|Ne].
      * destruct (region_inj n n i j a b) as (-> & ->); try lia. rewrite Z.ltb_irrefl, Z.eqb_refl, (proj2 (Z.ltb_lt _ _)) by lia. auto.
      * rewrite Lx by auto. assert (~ (a = i /\ b = j)) by (intros (-> & ->); lia). destruct (Z.ltb_spec a i), (Z.eqb_spec a i), (Z.ltb_spec b j), (Z.ltb_spec b (j + 1)); cbn; auto; lia.
    + exists e'. split; auto. split; auto. intros a b Ha Hb. rewrite L1 by auto. destruct (Z.ltb_spec a i), (Z.ltb_spec a (i + 1)), (Z.eqb_spec a i), (Z.eqb_spec a (i + 1)), (Z.ltb_spec b n), (Z.ltb_spec b 0); cbn; auto; lia.
  - exists d'. split; auto. split; auto. intros a b Ha Hb. rewrite Z.add_0_l, L1 by auto. destruct (Z.ltb_spec a m); cbn; auto; lia.
Qed.
Lemma upd1 n (f : Z -> mem Rring -> option (mem Rring)) (g : Z -> R) (old : Z -> option R) d0 : 0 <= n -> n <= zlen d0 ->
  (forall i, 0 <= i < n -> ld d0 i = old i) ->
  (forall i d, 0 <= i < n -> zlen d = zlen d0 -> ld d i = old i -> f i d = st d i (g i : Rring)) ->
  exists d', zfor 0 n f d0 = Some d' /\ zlen d' = zlen d0 /\ forall i, 0 <= i < n -> ld d' i = Some (g i).
Proof.
  intros Hn Z0 H0 Hf.
  destruct (zfor_inv (fun k d => zlen d = zlen d0 /\ forall a, 0 <= a < n -> ld d a = if a <? k then Some (g a) else old a) 0 n f d0) as (d' & E & Z1 & L1); auto.
  - split; auto. intros a Ha. rewrite H0 by auto. destruct (Z.ltb_spec a 0); auto; lia.
  - intros i x Hi (Zx & Lx). rewrite Hf; auto.
    2:{ rewrite Lx by auto. now rewrite Z.ltb_irrefl. }
    destruct (st_Some x i (g i : Rring)) as (x' & Ex); [lia|]. exists x'. split; auto. split; [rewrite (st_zlen _ _ _ _ Ex); auto|].
    intros a Ha. rewrite (ld_st _ _ _ _ _ Ex). destruct (Z.eqb_spec i a) as [->|Ne].
    + rewrite (proj2 (Z.ltb_lt _ _)) by lia. auto.
    + rewrite Lx by auto. destruct (Z.ltb_spec a i), (Z.ltb_spec a (i + 1)); auto; lia.
  - exists d'. split; auto. split; auto. intros a Ha. rewrite L1 by auto. destruct (Z.ltb_spec a n); auto; lia.
Qed.

Lemma syrk_upper_spec n k (M C : mem Rring) m : 0 <= n -> 0 <= k -> holds M 0 n k n m -> zlen C = n * n ->
  exists C', syrk_upper n k M C = Some C' /\ zlen C' = n * n /\ forall i j, 0 <= i <= j -> j < n -> ld C' (i * n + j) = Some (S 0 k (fun l => m l i * m l j)%R).
Proof.
  intros Hn Hk HM HC. unfold syrk_upper. destruct (rd_ok _ _ _ _ _ _ HM) as (a & Ea & Ga). rewrite Ea. cbn [bind].
  set (g := fun i j => @rsum Rring 0 k (fun l => a l i * a l j)%R).
  assert (Hg : forall i j, 0 <= i < n -> 0 <= j < n -> g i j = S 0 k (fun l => m l i * m l j)%R). { intros i j Hi Hj. unfold g. apply S_ext. intros l Hl. now rewrite !Ga. }
  set (P := fun i j (d : mem Rring) => zlen d = n * n /\ forall a b, 0 <= a <= b -> b < n -> (a < i \/ (a = i /\ b < j)) -> ld d (a * n + b) = Some (g a b : Rring)).
  destruct (zfor_inv (fun i d => P i i d) 0 n (fun i d => zfor i n (fun j d => st d (i * n + j) (g i j)) d) C) as (d' & E & Z1 & L1); auto.
  - split; auto. intros; lia.
  - intros i e Hi (Ze & Le). destruct (zfor_inv (fun j e => P i j e) i n (fun j d => st d (i * n + j) (g i j)) e) as (e' & E & Z1 & L1); try lia.
    + split; auto.
    + intros j x Hj (Zx & Lx). destruct (st_Some x (i * n + j) (g i j : Rring)) as (x' & Ex); [rewrite Zx; nia|]. exists x'. split; auto. split; [rewrite (st_zlen _ _ _ _ Ex); auto|].
      intros p q Hp Hq Hc. rewrite (ld_st _ _ _ _ _ Ex). destruct (Z.eqb_spec (i * n + j) (p * n + q)) as [Eq|Ne].
      * destruct (region_inj n n i j p q) as (-> & ->); try lia. auto.
      * apply Lx; auto. destruct Hc as [|(-> & Hc)]; auto. right. split; auto. assert (q <> j) by (intros ->; lia). lia.
    + exists e'. split; auto. split; auto. intros p q Hp Hq Hc. apply L1; auto. lia.
  - exists d'. split; [exact E|]. split; auto. intros i j Hi Hj. rewrite L1 by lia. now rewrite Hg by lia.
Qed.

Section Build.
Variable la : lapack Rring.
Hypothesis LA : lapack_ok la.
Variable syevd : Z -> (Z -> Z -> R) -> (Z -> Z -> R) * (Z -> R).
Variables (gap : R -> R) (eps : R).
Hypothesis Hgap : forall x, (0 < gap x)%R.
Hypothesis Heps : (0 < eps)%R.

Lemma syevd_upper_spec n (A Sv : mem Rring) (a : Z -> Z -> R) : 0 <= n -> syevd_ok n syevd -> symmetric n a -> zlen A = n * n -> zlen Sv = n ->
  (forall i j, 0 <= i <= j -> j < n -> ld A (i * n + j) = Some (a i j)) ->
  exists A' S' V s, syevd_upper syevd n A Sv = Some (A', S') /\ zlen A' = n * n /\ zlen S' = n /\ holds A' 0 n n n V /\ (forall i, 0 <= i < n -> ld S' i = Some (s i)) /\ eig_ok n a V s.
Proof.
  intros Hn HS Sym ZA ZS HA. unfold syevd_upper.
  destruct (upd2 n n (fun i j b => v <- ld A (if i <=? j then i * n + j else j * n + i); st b (i * n + j) v) a (fun i j => ld (alloc (A := Rring) (n * n)) (i * n + j)) (alloc (n * n))) as (B & EB & ZB & HB); auto.
  { apply zlen_alloc. nia. }
  { intros i j d Hi Hj _ _. destruct (Z.leb_spec i j).
    - rewrite HA by lia. reflexivity.
    - rewrite HA by lia. cbn [bind]. rewrite (Sym j i) by auto. reflexivity. }
  rwb EB. destruct (rd_ok _ _ _ _ _ _ HB) as (b & Eb & Gb). rewrite Eb. cbn [bind].
  assert (Symb : symmetric n b). { intros i j Hi Hj. rewrite !Gb by auto. auto. }
  specialize (HS b Symb). destruct (syevd n b) as [V s]. cbn [fst snd] in HS.
  destruct (@wr_upd Rring n n V A 0 n) as (A' & EA & (ZA' & HA' & _)). { repeat split; try lia; nia. } rwb EA.
  destruct (upd1 n (fun i d => st d i (s i : Rring)) s (fun i => ld Sv i) Sv) as (S' & ES & ZS' & HS'); auto. { apply Z.eq_le_incl. symmetry. exact ZS. } rwb ES.
  exists A', S', V, s. split; [reflexivity|]. split; [lia|]. split; [exact (eq_trans ZS' ZS)|]. split; [auto|]. split; [auto|].
  destruct HS as (O & E & As). split; [exact O|]. split; [|exact As]. intros i k Hi Hk. rewrite <- (E i k Hi Hk). apply (@rsum_ext Rring). intros j Hj. cbn. now rewrite Gb.
Qed.

(** The reciprocals of the singular values. *)
Definition nys_w (lmax : R) (l : R) : R := if Rlt_dec (sqrt l) (sqrt lmax * eps * 10) then 0%R else (1 / sqrt l)%R.
Lemma nys_w_ok lmax l : (0 <= l)%R -> (0 < lmax)%R -> (nys_w lmax l = 0 /\ l < (10 * eps) * (10 * eps) * lmax \/ nys_w lmax l * nys_w lmax l * l = 1)%R.
Proof.
  intros Hl Hm. unfold nys_w. pose proof (sqrt_lt_R0 _ Hm) as Sm. destruct (Rlt_dec (sqrt l) (sqrt lmax * eps * 10)) as [Lt|Nl].
  - left. split; auto. pose proof (sqrt_pos l) as Sl. rewrite <- (sqrt_sqrt l) at 1 by auto. rewrite <- (sqrt_sqrt lmax) by lra.
    replace (10 * eps * (10 * eps) * (sqrt lmax * sqrt lmax))%R with ((sqrt lmax * eps * 10) * (sqrt lmax * eps * 10))%R by ring. apply Rmult_le_0_lt_compat; auto.
  - right. assert (0 < sqrt l)%R. { assert (0 < sqrt lmax * eps * 10)%R by (apply Rmult_lt_0_compat; [apply Rmult_lt_0_compat; auto|lra]). lra. }
    rewrite <- (sqrt_sqrt l) at 3 by auto. field. lra.
Qed.
Lemma nys_scale_spec n1 (Sv : mem Rring) s : 1 <= n1 -> zlen Sv = n1 -> (forall i, 0 <= i < n1 -> ld Sv i = Some (s i)) -> (forall i, 0 <= i < n1 -> (0 <= s i)%R) -> (0 < s (n1 - 1)%Z)%R ->
  exists S' iv, nys_scale eps n1 Sv = Some (S', iv) /\ zlen S' = n1 /\ (forall i, 0 <= i < n1 -> ld S' i = Some (sqrt (s i))) /\ forall i, 0 <= i < n1 -> ld iv i = Some (nys_w (s (n1 - 1)) (s i)).
Proof.
  intros Hn ZS HS Hpos Hmax. unfold nys_scale. rewrite HS by lia. cbn [bind]. cbv zeta. set (lmax := s (n1 - 1)) in *.
  match goal with |- context [zfor 0 n1 ?ff ?dd] => destruct (zfor_inv (fun k (p : mem Rring * mem Rring) => let '(d, iv) := p in zlen d = n1 /\ zlen iv = n1 /\
     (forall i, 0 <= i < n1 -> ld d i = Some (if i <? k then sqrt (s i) else s i)) /\ forall i, 0 <= i < k -> ld iv i = Some (nys_w lmax (s i))) 0 n1 ff dd) as ((d' & iv) & E & Z1 & Z2 & L1 & L2) end; try lia.
  - split; auto. split; [apply zlen_alloc; lia|]. split; [|intros; lia]. intros i Hi. rewrite HS by auto. destruct (Z.ltb_spec i 0); auto; lia.
  - intros k (d & iv) Hk (Zd & Zi & Ld & Li). rewrite Ld by auto. rewrite Z.ltb_irrefl. cbn [bind].
    assert (E0 : Rltb (s k) 0 = false). { unfold Rltb. specialize (Hpos k Hk). destruct (Rlt_dec (s k) 0); auto; lra. } rewrite E0.
    destruct (st_Some d k (sqrt (s k) : Rring)) as (d' & Ed); [lia|]. rewrite Ed. cbn [bind].
    assert (Ew : (if Rltb (sqrt (s k)) (sqrt lmax * eps * 10) then Some 0%R else Rdiv_opt 1 (sqrt (s k))) = Some (nys_w lmax (s k))).
    { unfold Rltb, nys_w. destruct (Rlt_dec (sqrt (s k)) (sqrt lmax * eps * 10)) as [|Nl]; auto. unfold Rdiv_opt. destruct (Req_EM_T (sqrt (s k)) 0) as [Z|]; auto. exfalso. rewrite Z in Nl. apply Nl. pose proof (sqrt_lt_R0 _ Hmax). apply Rmult_lt_0_compat; [apply Rmult_lt_0_compat; auto|lra]. }
    rewrite Ew. cbn [bind]. destruct (st_Some iv k (nys_w lmax (s k) : Rring)) as (iv' & Ei); [lia|]. rewrite Ei. cbn [bind].
    exists (d', iv'). split; auto. split; [rewrite (st_zlen _ _ _ _ Ed); auto|]. split; [rewrite (st_zlen _ _ _ _ Ei); auto|]. split.
    + intros i Hi. rewrite (ld_st _ _ _ _ _ Ed). destruct (Z.eqb_spec k i) as [->|]; [rewrite (proj2 (Z.ltb_lt _ _)) by lia; auto|]. rewrite Ld by auto. destruct (Z.ltb_spec i k), (Z.ltb_spec i (k + 1)); auto; lia.
    + intros i Hi. rewrite (ld_st _ _ _ _ _ Ei). destruct (Z.eqb_spec k i) as [->|]; auto. apply Li. lia.
  - exists d', iv. split; [exact E|]. split; auto. split; auto. intros i Hi. rewrite L1 by auto. destruct (Z.ltb_spec i n1); auto; lia.
Qed.

(** nys_M. *)
Definition nys_s (nu : R) (l : R) : R := Rmax (l - nu) 0.
Lemma nys_eta_spec n1 mu nu (Sv : mem Rring) s : 1 <= n1 -> (0 < mu)%R -> zlen Sv = n1 -> (forall i, 0 <= i < n1 -> (0 <= s i)%R) -> (forall i, 0 <= i < n1 -> ld Sv i = Some (sqrt (s i))) ->
  exists M, nys_eta n1 mu nu Sv = Some M /\ zlen M = n1 /\ forall i, 0 <= i < n1 -> ld M i = Some ((nys_s nu (s 0%Z) + mu) / (nys_s nu (s i) + mu))%R.
Proof.
  intros Hn Hmu ZS Hpos HS. unfold nys_eta.
  destruct (upd1 n1 (fun i d => s <- ld d i; let t := (s * s - nu)%R in st d i (if Rltb t 0 then 0%R else t)) (fun i => nys_s nu (s i)) (fun i => Some (sqrt (s i))) Sv) as (S' & E & Z1 & L1); auto; try lia.
  { apply Z.eq_le_incl. symmetry. exact ZS. }
  { intros i d Hi _ Ld. cbv beta in Ld. rwb Ld. cbv zeta. f_equal. rewrite sqrt_sqrt by auto. unfold Rltb, nys_s. destruct (Rlt_dec (s i - nu) 0); [rewrite Rmax_right by lra; auto|rewrite Rmax_left by lra; auto]. }
  match goal with |- context [bind ?t _] => replace t with (Some S') by (symmetry; exact E) end. cbn [bind]. rewrite L1 by lia. cbn [bind]. cbv zeta.
  destruct (upd1 n1 (fun i d => v0 <- ld S' i; v <- Rdiv_opt (nys_s nu (s 0%Z) + mu) (v0 + mu)%R; st d i v) (fun i => (nys_s nu (s 0%Z) + mu) / (nys_s nu (s i) + mu))%R (fun i => ld (alloc (A := Rring) n1) i) (alloc n1)) as (M & E2 & Z2 & L2); try lia; auto.
  { apply Z.eq_le_incl. symmetry. apply zlen_alloc; lia. }
  { intros i d Hi _ _. rewrite L1 by auto. cbn [bind]. unfold Rdiv_opt. assert (0 <= nys_s nu (s i))%R by (apply Rmax_r). destruct (Req_EM_T (nys_s nu (s i) + mu) 0); [lra|]. reflexivity. }
  exists M. split; [exact E2|]. split; [|auto]. rewrite Z2. apply zlen_alloc; lia.
Qed.

(** K1 and nu. *)
Lemma nys_K1_spec n1 n2 (K11 K12 : mem Rring) a b : 1 <= n1 -> 0 <= n2 -> holds K11 0 n1 n1 n1 a -> holds K12 0 n2 n1 n2 b ->
  exists K1 nu, nys_K1 gap n1 n2 K11 K12 = Some (K1, nu) /\ (0 < nu)%R /\ holds K1 0 (n1 + n2) n1 (n1 + n2) (fun i j => if j <? n1 then a i j else b i (j - n1)).
Proof.
  intros H1 H2 HA HB. unfold nys_K1. set (n := n1 + n2). assert (Za : zlen (alloc (A := Rring) (n1 * n)) = n1 * n) by (apply zlen_alloc; unfold n; nia).
  destruct (copy_upd n1 n1 K11 0 n1 (alloc (n1 * n)) 0 n a) as (k1 & E1 & (Z1 & L1 & _)); auto; try lia. { rewrite Za. repeat split; try lia; unfold n; nia. }
  rwb E1. rewrite Za in Z1.
  destruct (copy_upd n1 n2 K12 0 n2 k1 n1 n b) as (k2 & E2 & (Z2 & L2 & F2)); auto; try lia. { rewrite Z1. repeat split; try lia; unfold n; nia. }
  rwb E2.
  assert (HK : holds k2 0 n n1 n (fun i j => if j <? n1 then a i j else b i (j - n1))).
  { intros i j Hi Hj. destruct (Z.ltb_spec j n1).
    - rewrite <- (L1 i j) by lia. unfold ld. rewrite F2; auto. intros p q Hp Hq. destruct (Z.lt_trichotomy p i) as [|[|]]; unfold n in *; nia.
    - rewrite <- (L2 i (j - n1)) by lia. f_equal. lia. }
  destruct (zfor_inv (fun k (s : R) => True) 0 (n * n1) (fun i (s : R) => x <- ld k2 i; Some (s + x * x)%R) 0%R) as (fn & E3 & _); auto; [unfold n; nia| |].
  - intros k s Hk _. assert (0 <= k / n < n1) by (split; [apply Z.div_pos; unfold n in *; nia|apply Z.div_lt_upper_bound; unfold n in *; nia]).
    pose proof (Z.mod_pos_bound k n ltac:(unfold n in *; nia)). pose proof (Z.div_mod k n ltac:(unfold n in *; nia)).
    specialize (HK (k / n) (k mod n) ltac:(lia) ltac:(lia)). replace (0 + (k / n * n + k mod n)) with k in HK by lia. rewrite HK. cbn [bind]. eauto.
  - rwb E3. eexists _, _. split; [reflexivity|]. split; [|exact HK]. apply Rmult_lt_0_compat; auto. apply sqrt_lt_R0. apply IZR_lt. unfold n. lia.
Qed.

(** The inverse Cholesky factor. *)
Lemma nys_invL_spec n1 nu (K11 : mem Rring) a : 0 <= n1 -> zlen K11 = n1 * n1 -> holds K11 0 n1 n1 n1 a -> symmetric n1 a ->
  (forall B, (forall i j, 0 <= i < n1 -> 0 <= j < n1 -> B i j = (a i j + nu * dl i j)%R) -> fst (l_potrf la n1 B) = 0) ->
  exists I iL L, nys_invL la n1 nu K11 = Some I /\ holds I 0 n1 n1 n1 iL /\
    (forall i j, 0 <= i < n1 -> 0 <= j < n1 -> S 0 n1 (fun l => L i l * L j l)%R = (a i j + nu * dl i j)%R) /\
    (forall i j, 0 <= i < n1 -> 0 <= j < n1 -> S 0 n1 (fun l => L i l * iL l j)%R = dl i j) /\
    (forall i j, 0 <= i < n1 -> 0 <= j < n1 -> S 0 n1 (fun l => iL i l * L l j)%R = dl i j).
Proof.
  intros Hn ZK HK Sym Hch. unfold nys_invL.
  destruct (diag_add K11 n1 a nu Hn HK) as (k1 & E1 & Z1 & H1). rwb E1.
  assert (Hsy : forall i j, 0 <= i < n1 -> 0 <= j < n1 -> (if (j <=? i)%Z then (a i j + nu * dl i j)%R else (a j i + nu * dl j i)%R) = (a i j + nu * dl i j)%R).
  { intros i j Hi Hj. destruct (Z.leb_spec j i); auto. rewrite (Sym j i), delta_comm by auto. reflexivity. }
  destruct (potrf_low_spec (K := Rring) la LA n1 k1 (fun i j => a i j + nu * dl i j)%R) as (k2 & L & E2 & Z2 & H2 & Hd & HL); auto; try lia.
  { intros B HB. apply Hch. intros i j Hi Hj. etransitivity; [exact (HB i j Hi Hj)|]. exact (Hsy i j Hi Hj). }
  rwb E2. change (negb (0 =? 0)) with false. cbv iota.
  assert (Za : zlen (alloc (A := Rring) (n1 * n1)) = n1 * n1) by (apply zlen_alloc; nia).
  destruct (mset0_square (K := Rring) (alloc (n1 * n1)) n1) as (m0 & E3 & Z3 & H3); try lia. rwb E3.
  assert (Hid : exists m1, zfor 0 n1 (fun i d => st d (i * n1 + i) (1%R : Rring)) m0 = Some m1 /\ zlen m1 = n1 * n1 /\ holds m1 0 n1 n1 n1 dl).
  { destruct (zfor_inv (fun k (e : mem Rring) => zlen e = n1 * n1 /\ holds e 0 n1 n1 n1 (fun i j => if (i =? j) && (i <? k) then 1%R else 0%R)) 0 n1 (fun i d => st d (i * n1 + i) (1%R : Rring)) m0) as (m1 & E & Zm & Hm); try lia.
    - split; [lia|]. intros i j Hi Hj. rewrite H3 by auto. destruct (Z.eqb_spec i j), (Z.ltb_spec i 0); cbn; auto; lia.
    - intros k e Hk (Ze & He). destruct (st_Some e (k * n1 + k) (1%R : Rring)) as (e' & Ee); [nia|]. exists e'. split; auto. split; [rewrite (st_zlen _ _ _ _ Ee); auto|].
      intros i j Hi Hj. rewrite (ld_st _ _ _ _ _ Ee). destruct (Z.eqb_spec (k * n1 + k) (0 + (i * n1 + j))) as [Eq|Ne].
      + destruct (region_inj n1 n1 k k i j) as (<- & <-); try lia. rewrite Z.eqb_refl, (proj2 (Z.ltb_lt _ _)) by lia. auto.
      + rewrite He by auto. destruct (Z.eqb_spec i j), (Z.ltb_spec i k), (Z.ltb_spec i (k + 1)); cbn; auto; try lia. exfalso. apply Ne. subst j. assert (i = k) by lia. subst i. lia.
    - exists m1. split; auto. split; auto. intros i j Hi Hj. rewrite Hm by auto. unfold delta. rewrite (proj2 (Z.ltb_lt i n1)) by lia. rewrite andb_true_r. destruct (i =? j); reflexivity. }
  destruct Hid as (m1 & E4 & Z4 & H4). rwb E4.
  destruct (trsm_left_upd (K := Rring) la true false false n1 n1 k2 0 n1 m1 0 n1 L dl LA Hn) as (m2 & iL & E5 & (Z5 & H5 & _) & Q5); auto. { rewrite Z4. repeat split; try lia; nia. }
  specialize (Q5 (fun _ => Hd)). cbn [top] in Q5.
  set (LT := tri (K := Rring) true false L) in *.
  assert (HLT : forall i j, 0 <= i < n1 -> 0 <= j < n1 -> i < j -> LT i j = 0%R). { intros i j Hi Hj Hij. unfold LT, tri. destruct (Z.eqb_spec i j), (Z.ltb_spec j i); auto; lia. }
  assert (HLd : forall i, 0 <= i < n1 -> exists s : Rring, cmul s (LT i i) = c1). { intros i Hi. apply Rring_field. unfold LT, tri. rewrite Z.eqb_refl. auto. }
  pose proof (tri_two_sided (K := Rring) n1 LT iL HLT HLd Q5) as Q6.
  exists m2, iL, LT. split; [exact E5|]. split; [exact H5|]. split; [|split; [exact Q5|exact Q6]].
  intros i j Hi Hj. etransitivity; [exact (HL i j Hi Hj)|]. exact (Hsy i j Hi Hj).
Qed.

(** The whole construction: [N] is K1^T (a + nu I)^-1 K1. *)
Theorem nys_build_spec mu n1 n2 (K11 K12 : mem Rring) a b : let n := n1 + n2 in let k1 := fun i j => if j <? n1 then a i j else b i (j - n1) in
  1 <= n1 -> 0 <= n2 -> (0 < mu)%R -> zlen K11 = n1 * n1 -> holds K11 0 n1 n1 n1 a -> holds K12 0 n2 n1 n2 b -> symmetric n1 a -> a 0 0 <> 0%R -> syevd_ok n1 syevd ->
  (forall nu B, (0 < nu)%R -> (forall i j, 0 <= i < n1 -> 0 <= j < n1 -> B i j = (a i j + nu * dl i j)%R) -> fst (l_potrf la n1 B) = 0) ->
  exists Mm Um nu M V lam W, Nys_precond_build la syevd gap eps mu n1 n2 K11 K12 = Some (Mm, Um) /\ (0 < nu)%R /\
    eig_ok n1 (fun p q => S 0 n (fun r => M r p * M r q)%R) V lam /\ (0 < lam (n1 - 1)%Z)%R /\ (forall k, 0 <= k < n1 -> (0 <= lam k)%R) /\
    holds Um 0 n1 n n1 (nysU n1 M V (fun k => nys_w (lam (n1 - 1)) (lam k))) /\
    (forall i, 0 <= i < n1 -> ld Mm i = Some ((nys_s nu (lam 0%Z) + mu) / (nys_s nu (lam i) + mu))%R) /\
    (forall k c, 0 <= k < n1 -> 0 <= c < n -> S 0 n1 (fun l => (a k l + nu * dl k l) * W l c)%R = k1 k c) /\
    (forall r c, 0 <= r < n -> 0 <= c < n -> S 0 n1 (fun p => M r p * M c p)%R = S 0 n1 (fun k => k1 k r * W k c)%R).
Proof.
  intros n k1 H1 H2 Hmu ZK HA HB Sym Ha0 HS Hch. unfold Nys_precond_build. cbv zeta.
  destruct (nys_K1_spec n1 n2 K11 K12 a b H1 H2 HA HB) as (K1 & nu & E1 & Hnu & HK1). rwb E1. fold n in HK1. fold k1 in HK1. fold n.
  destruct (nys_invL_spec n1 nu K11 a ltac:(lia) ZK HA Sym (fun B => Hch nu B Hnu)) as (I & iL & L & E2 & HI & HLL & HLi & HiL). rwb E2.
  assert (Zm : zlen (alloc (A := Rring) (n * n1)) = n * n1) by (apply zlen_alloc; unfold n; nia).
  assert (Fm : fits n n1 0 n1 (zlen (alloc (A := Rring) (n * n1)))). { rewrite Zm. unfold n. repeat split; try lia; nia. }
  destruct (gemm_upd (K := Rring) true true n n1 n1 K1 0 n I 0 n1 (alloc (n * n1)) 0 n1 (fun r k => k1 k r) (fun p j => iL j p) ltac:(lia) Fm) as (Mm & E3 & (_ & HM & _)); auto.
  rwb E3. set (M := fun i j => S 0 n1 (fun p => k1 p i * iL j p)%R). change (holds Mm 0 n1 n n1 M) in HM.
  destruct (syrk_upper_spec n1 n Mm (alloc (n1 * n1)) M) as (C & E4 & ZC & HC); auto; try (unfold n; lia). { apply zlen_alloc. nia. }
  rwb E4. set (G := fun p q => S 0 n (fun r => M r p * M r q)%R) in *.
  destruct (syevd_upper_spec n1 C (alloc n1) G) as (C' & S' & V & lam & E5 & ZC' & ZS' & HV & HS' & HE); auto; try lia.
  { intros i j _ _. unfold G. apply S_ext. intros; ring. } { apply zlen_alloc. lia. }
  rwb E5.
  assert (Lp : forall k, 0 <= k < n1 -> (0 <= lam k)%R) by (intros k Hk; exact (lam_nonneg n n1 M V lam HE k Hk)).
  assert (HMk : forall k r, 0 <= k < n1 -> 0 <= r < n -> S 0 n1 (fun j => L k j * M r j)%R = k1 k r).
  { intros k r Hk Hr. unfold M. rewrite (S_ext 0 n1 _ (fun j => L k j * S 0 n1 (fun p => iL j p * k1 p r))%R) by (intros j Hj; f_equal; apply S_ext; intros; ring).
    rewrite (S_assoc n1 n1 (fun j => L k j) iL (fun p => k1 p r)). rewrite (S_ext 0 n1 _ (fun p => dl k p * k1 p r)%R) by (intros p Hp; rewrite HLi by auto; ring). now rewrite S_dl_l. }
  assert (Lm : (0 < lam (n1 - 1)%Z)%R).
  { destruct (Rle_lt_or_eq_dec _ _ (Lp (n1 - 1) ltac:(lia))) as [|Z0]; auto. exfalso. apply Ha0.
    assert (lam0 : forall k, 0 <= k < n1 -> lam k = 0%R). { intros k Hk. destruct HE as (_ & _ & As). specialize (As k (n1 - 1) ltac:(lia) ltac:(lia)). specialize (Lp k Hk). lra. }
    assert (MM : S 0 n1 (fun p => M 0%Z p * M 0%Z p)%R = 0%R).
    { rewrite <- (nysC_MMT n n1 M V lam HE 0 0). apply S_zero. intros k Hk. pose proof (nysC_gram n n1 M V lam HE k k Hk Hk) as Gk. rewrite lam0, Rmult_0_r in Gk by auto.
      exact (S_pos0 0 n (fun r => nysC n1 M V r k * nysC n1 M V r k)%R ltac:(intros; apply Rle_0_sqr) Gk 0 ltac:(unfold n; lia)). }
    transitivity (k1 0 0). { unfold k1. destruct (Z.ltb_spec 0 n1); auto; lia. }
    rewrite <- (HMk 0 0) by (unfold n; lia). apply S_zero. intros p Hp.
    pose proof (S_pos0 0 n1 (fun p => M 0%Z p * M 0%Z p)%R ltac:(intros; apply Rle_0_sqr) MM p Hp) as Mp. cbv beta in Mp. destruct (Rmult_integral _ _ Mp) as [->| ->]; ring. }
  destruct (nys_scale_spec n1 S' lam) as (S2 & iv & E6 & ZS2 & HS2 & Hiv); auto. rwb E6.
  destruct (upd2 n1 n1 (fun i j d => v <- ld d (i * n1 + j); w <- ld iv j; st d (i * n1 + j) (v * w)%R) (fun i j => V i j * nys_w (lam (n1 - 1)%Z) (lam j))%R (fun i j => Some (V i j)) C') as (C2 & E7 & ZC2 & HC2); auto; try lia.
  { intros i j d Hi Hj _ Ld. cbv beta in Ld. rwb Ld. rewrite Hiv by auto. reflexivity. }
  rwb E7.
  destruct (gemm_upd (K := Rring) false false n n1 n1 Mm 0 n1 C2 0 n1 (alloc (n * n1)) 0 n1 M (fun i j => V i j * nys_w (lam (n1 - 1)%Z) (lam j))%R ltac:(lia) Fm) as (Um & E8 & (_ & HU & _)); auto.
  rwb E8.
  destruct (nys_eta_spec n1 mu nu S2 lam) as (Me & E9 & ZM & HMe); auto. rwb E9.
  set (W := fun l c => S 0 n1 (fun p => iL p l * M c p)%R).
  exists Me, Um, nu, M, V, lam, W. split; [reflexivity|]. split; [auto|]. split; [exact HE|]. split; [auto|]. split; [auto|]. split; [exact HU|]. split; [exact HMe|].
  assert (HW : forall k c, 0 <= k < n1 -> 0 <= c < n -> S 0 n1 (fun l => (a k l + nu * dl k l) * W l c)%R = k1 k c).
  { intros k c Hk Hc. rewrite (S_ext 0 n1 _ (fun l => S 0 n1 (fun p => L k p * L l p) * W l c)%R) by (intros l Hl; rewrite HLL by auto; ring).
    transitivity (S 0 n1 (fun p => L k p * S 0 n1 (fun l => L l p * W l c))%R). { symmetry. exact (S_assoc n1 n1 (fun p => L k p) (fun p l => L l p) (fun l => W l c)). }
    rewrite <- (HMk k c Hk Hc). apply S_ext. intros p Hp. f_equal. unfold W.
    transitivity (S 0 n1 (fun q => S 0 n1 (fun l => L l p * iL q l) * M c q)%R). { exact (S_assoc n1 n1 (fun l => L l p) (fun l q => iL q l) (M c)). }
    rewrite (S_ext 0 n1 _ (fun q => dl p q * M c q)%R). { now rewrite S_dl_l. }
    intros q Hq. f_equal. rewrite delta_comm. rewrite <- (HiL q p Hq Hp). apply S_ext. intros; ring. }
  split; [exact HW|]. intros r c Hr Hc.
  rewrite (S_ext 0 n1 _ (fun p => M c p * S 0 n1 (fun l => iL p l * k1 l r))%R) by (intros p Hp; unfold M at 1; rewrite (S_ext 0 n1 (fun q => k1 q r * iL p q)%R (fun l => iL p l * k1 l r)%R) by (intros; ring); ring).
  rewrite (S_assoc n1 n1 (M c) iL (fun l => k1 l r)). apply S_ext. intros k Hk. unfold W. rewrite (Rmult_comm (k1 k r)). f_equal. apply S_ext. intros; ring.
Qed.
End Build.
