(** One row of the FSAI factor solves its local system. *)
From Coq Require Import ZArith QArith List Lia Bool Permutation.
From Verif Require Import Base Mem Num CRing Conc Model_Utils Model_Dense Spec_Dense Proof_Dense Model_Matvec Proof_Gemv Model_Matmul Proof_Gemm Model_Build Proof_Build Proof_BuildFill
  Spec_Lapack Blk Model_ULV Proof_ULVMem Proof_ULVFac Proof_ULVAsm Model_FSAI Spec_FSAI Proof_FSAIKnn.
Import ListNotations.
Open Scope Z_scope.

Lemma zfor_shift {A} (f g : Z -> A -> option A) n : forall lo s, 0 <= n -> (forall j s, lo <= j < lo + n -> f j s = g (j - lo) s) -> zfor lo (lo + n) f s = zfor 0 n g s.
Proof.
  intros lo s Hn. revert s. pattern n. apply natlike_ind; [| |exact Hn].
  - intros s _. rewrite !zfor_empty by lia. auto.
  - intros k Hk IH s H. unfold Z.succ in *. rewrite Z.add_assoc, (zfor_last lo (lo + k)), (zfor_last 0 k) by lia.
    rewrite IH by (intros; apply H; lia). destruct (zfor 0 k g s); cbn [bind]; auto. rewrite H by lia. f_equal. lia.
Qed.

Section Row.
Context {F : num} {K : cring}.
Add Ring Kring : (cth K).
Local Open Scope ring_K.
Variable kern : list F -> list F -> Z -> Z -> K.
Variable la : lapack K.
Variable rsq : K -> option K.
Hypothesis LA : lapack_ok la.
Hypothesis Hrsq : forall t s, rsq t = Some s -> s * s * t = c1.

(** krnl_eval for scalar kernels, as a matrix. *)
Lemma krnl_holds dim (cs0 : mem F) o0 ld0 n0 cs1 o1 ld1 n1 P Q mat off : 0 <= n0 -> 0 <= n1 ->
  (forall i, 0 <= i < n0 -> point dim cs0 o0 ld0 i = Some (P i)) -> (forall j, 0 <= j < n1 -> point dim cs1 o1 ld1 j = Some (Q j)) ->
  0 <= off -> (off + n0 * n1 <= zlen mat)%Z ->
  exists m', krnl_eval kern dim 1 cs0 o0 ld0 n0 cs1 o1 ld1 n1 mat off n1 = Some m' /\ zlen m' = zlen mat /\ holds m' off n1 n0 n1 (fun i j => kern (P i) (Q j) 0%Z 0%Z) /\
    forall c, ~ (off <= c < off + n0 * n1)%Z -> getz m' c = getz mat c.
Proof.
  intros H0 H1 HP HQ Ho Hz. destruct (krnl_eval_spec kern dim 1 cs0 o0 ld0 n0 cs1 o1 ld1 n1 P Q mat off) as (m' & E & Zm & G); auto; try lia.
  rewrite !Z.mul_1_r in *. exists m'. split; [exact E|]. split; auto. split.
  - intros i j Hi Hj. assert (i * n1 + j < n0 * n1)%Z by nia. destruct (G (off + (i * n1 + j))%Z) as [(_ & V)|(Hn & _)].
    + rewrite V. f_equal. replace (off + (i * n1 + j) - off)%Z with (j + i * n1)%Z by lia. rewrite !Z.mod_1_r, !Z.div_1_r, Z.div_add, Z.mod_add by lia.
      rewrite Z.div_small, Z.mod_small by lia. auto.
    + exfalso. apply Hn. unfold in_reg. nia.
  - intros c Hc. destruct (G c) as [(Hr & _)|(_ & V)]; auto. unfold in_reg in Hr. lia.
Qed.

Lemma gather_spec nrow ncol (src : mem F) so lds (idx : mem Z) io (nn : Z -> Z) (f : Z -> Z -> F) dst ldd : 0 <= nrow -> 0 <= ncol <= ldd -> (nrow * ldd <= zlen dst)%Z ->
  (forall a, 0 <= a < ncol -> ld idx (io + a) = Some (nn a)) ->
  (forall a d, 0 <= a < ncol -> 0 <= d < nrow -> ld src (so + lds * d + nn a)%Z = Some (f (nn a) d)) ->
  exists d', gather_columns nrow ncol src so lds idx io dst ldd = Some d' /\ zlen d' = zlen dst /\
    forall a d, 0 <= a < ncol -> 0 <= d < nrow -> ld d' (d * ldd + a) = Some (f (nn a) d).
Proof.
  intros Hr Hc Hz Hi Hs. unfold gather_columns.
  destruct (region_loop nrow ncol 0 ldd (fun irow icol d => c <- ld idx (io + icol)%Z; v <- ld src (so + lds * irow + c)%Z; st d (ldd * irow + icol)%Z v) (fun d a => f (nn a) d) dst) as (d' & E & Z1 & G & _).
  - repeat split; try lia; nia.
  - intros i j D Hi' Hj ZD _. rewrite Hi by auto. cbn [bind]. rewrite Hs by auto. cbn [bind].
    destruct (st_Some D (ldd * i + j)%Z (f (nn j) i)) as (D' & ED); [nia|]. exists D'. split; auto. split; [eapply st_zlen; eauto|].
    intros x. rewrite (getz_st _ _ _ _ x ED). destruct (Z.eqb_spec (ldd * i + j) x), (Z.eqb_spec x (0 + (i * ldd + j))); auto; lia.
  - exists d'. split; [exact E|]. split; auto. intros a d Ha Hd. specialize (G d a Hd Ha). now rewrite Z.add_0_l in G.
Qed.

Lemma syrk_spec n k (A C : mem K) av cv : 0 <= n -> (n * n <= zlen C)%Z -> holds A 0 k n k av -> holds C 0 n n n cv ->
  exists C', syrk_lower_neg n k A C = Some C' /\ zlen C' = zlen C /\ holds C' 0 n n n (fun i j => if (j <=? i)%Z then cv i j - rsum 0 k (fun l => av i l * av j l) else cv i j).
Proof.
  intros Hn Hz HA HC. unfold syrk_lower_neg. destruct (rd_ok _ _ _ _ _ _ HA) as (a & Ea & Ga). destruct (rd_ok _ _ _ _ _ _ HC) as (c & Ec & Gc).
  rewrite Ea. cbn [bind]. rewrite Ec. cbn [bind].
  destruct (wr_ok n n (fun i j => if (j <=? i)%Z then c i j - rsum 0 k (fun l => a i l * a j l) else c i j) C 0 n) as (C' & E & Z1 & H & _).
  { repeat split; try lia; nia. }
  exists C'. split; auto. split; auto. eapply holds_ext; [exact H|]. intros i j Hi Hj. cbv beta. rewrite Gc by auto. destruct (j <=? i)%Z; auto. f_equal.
  apply rsum_ext. intros l Hl. rewrite !Ga by auto. auto.
Qed.

(** The local system solved by Cholesky: A y = e_last. *)
Lemma chol_solve_spec n (T : mem K) av (v : mem K) vo (rhs : Z -> K) : 0 <= n -> (n * n <= zlen T)%Z -> holds T 0 n n n av ->
  0 <= vo -> (vo + n <= zlen v)%Z -> (forall a, 0 <= a < n -> ld v (vo + a) = Some (rhs a)) ->
  (forall A, (forall i j, 0 <= i < n -> 0 <= j < n -> A i j = if (j <=? i)%Z then av i j else av j i) -> fst (l_potrf la n A) = 0%Z) ->
  exists T' v' y, potrf_low la n T = Some (0%Z, T') /\ potrs la n T' v vo = Some v' /\ zlen v' = zlen v /\
    (forall a, 0 <= a < n -> rsum 0 n (fun b => (if (b <=? a)%Z then av a b else av b a) * y b) = rhs a) /\
    forall c, ld v' c = if (vo <=? c)%Z && (c <? vo + n)%Z then Some (y (c - vo)%Z) else ld v c.
Proof.
  intros Hn Hz HT Hvo Hv Hr Hp. unfold potrf_low. destruct (rd_ok _ _ _ _ _ _ HT) as (a & Ea & Ga). rewrite Ea. cbn [bind].
  set (sym := fun i j => if (j <=? i)%Z then a i j else a j i).
  assert (Hsym : forall i j, 0 <= i < n -> 0 <= j < n -> sym i j = if (j <=? i)%Z then av i j else av j i).
  { intros i j Hi Hj. unfold sym. destruct (j <=? i)%Z; now rewrite Ga. }
  pose proof (la_chol la LA n sym Hn) as HC. specialize (Hp sym Hsym). destruct (l_potrf la n sym) as [info L]. cbn in Hp. subst info. destruct (HC eq_refl) as [Hd HL]. clear HC.
  assert (Hf : fits n n 0 n (zlen T)) by (repeat split; try lia; nia).
  set (LL := fun i j => if (j <=? i)%Z then L i j else a i j).
  destruct (wr_upd n n LL T 0 n Hf) as (T' & ET & U). rewrite ET. cbn [bind]. destruct U as (ZT & HT' & _).
  assert (HB : holds v vo 1 n 1 (fun i _ => rhs i)). { intros i j Hi Hj. replace (vo + (i * 1 + j))%Z with (vo + i)%Z by lia. auto. }
  assert (Hfv : fits n 1 vo 1 (zlen v)) by (repeat split; try lia).
  destruct (trsm_left_upd la true false false n 1 T' 0 n v vo 1 LL (fun i _ => rhs i) LA Hn Hfv HT' HB) as (v1 & X1 & E1 & (Z1 & H1 & F1) & Q1).
  assert (Hfv1 : fits n 1 vo 1 (zlen v1)) by (rewrite Z1; auto).
  destruct (trsm_left_upd la true true false n 1 T' 0 n v1 vo 1 LL X1 LA Hn Hfv1 HT' H1) as (v2 & X2 & E2 & (Z2 & H2 & F2) & Q2).
  exists T', v2, (fun i => X2 i 0%Z). split; [reflexivity|]. unfold potrs. rewrite E1. cbn [bind]. rewrite E2. split; [reflexivity|]. split; [lia|].
  assert (HLd : false = false -> forall i, 0 <= i < n -> LL i i <> c0) by (intros _ i Hi; unfold LL; rewrite Z.leb_refl; auto).
  specialize (Q1 HLd). specialize (Q2 HLd). cbn [top] in Q1, Q2.
  assert (TT : forall i k, tri true false LL i k = tri true false L i k).
  { intros i k. unfold tri, LL. rewrite Z.leb_refl. destruct (Z.eqb_spec i k); auto. destruct (Z.ltb_spec k i), (Z.leb_spec k i); auto; lia. }
  split.
  - intros i Hi. rewrite <- (Q1 i 0%Z Hi ltac:(lia)).
    rewrite (rsum_ext 0 n _ (fun b => rsum 0 n (fun k => tri true false L i k * tri true false L b k * X2 b 0%Z))).
    + rewrite (rsum_swap 0 n 0 n). apply rsum_ext. intros k Hk. rewrite <- (Q2 k 0%Z Hk ltac:(lia)). rewrite <- rsum_mul_l. apply rsum_ext. intros b Hb. unfold top. rewrite !TT. ring.
    + intros b Hb. rewrite rsum_mul_r. f_equal. rewrite <- Hsym by auto. destruct (Z.le_gt_cases b i).
      * rewrite HL by lia. auto.
      * rewrite (rsum_ext 0 n _ (fun k => tri true false L b k * tri true false L i k)) by (intros; ring). rewrite HL by lia. unfold sym.
        destruct (Z.leb_spec b i), (Z.leb_spec i b); auto; lia.
  - intros c. destruct (Z.leb_spec vo c), (Z.ltb_spec c (vo + n)); cbn [andb].
    + specialize (H2 (c - vo)%Z 0%Z ltac:(lia) ltac:(lia)). replace (vo + ((c - vo) * 1 + 0))%Z with c in H2 by lia. auto.
    + unfold ld. rewrite F2, F1; auto; intros; lia.
    + unfold ld. rewrite F2, F1; auto; intros; lia.
    + unfold ld. rewrite F2, F1; auto; intros; lia.
Qed.

Variables (m n dim : Z) (coord : mem F) (co ldc : Z) (X : Z -> Z -> F) (n1 : Z) (P : mem K) (Pf : Z -> Z -> K) (mu : K).
Hypothesis Hdim : 0 <= dim.
Hypothesis HX : coords_at coord co ldc n dim X.
Hypothesis Hn1 : 0 <= n1.
Hypothesis HP : forall r l, 0 <= r < n -> 0 <= l < n1 -> ld P (r * n1 + l) = Some (Pf r l).

(** The matrix K + mu I - P P^T. *)
Definition schur (r c : Z) : K := kern (pt_of dim X r) (pt_of dim X c) 0%Z 0%Z + mu * delta r c - rsum 0 n1 (fun l => Pf r l * Pf c l).
Hypothesis Hsym : forall r c, 0 <= r < n -> 0 <= c < n -> kern (pt_of dim X r) (pt_of dim X c) 0%Z 0%Z = kern (pt_of dim X c) (pt_of dim X r) 0%Z 0%Z.

Lemma schur_sym r c : 0 <= r < n -> 0 <= c < n -> schur r c = schur c r.
Proof.
  intros Hr Hc. unfold schur. rewrite (Hsym r c) by auto. unfold delta. rewrite (Z.eqb_sym r c). f_equal. apply rsum_ext; intros; ring.
Qed.

Variables (nn_idx displs : mem Z) (i cnt : Z) (nn : Z -> Z).
Hypothesis Hi : 0 <= i < n.
Hypothesis Hcnt : 1 <= cnt <= m.
Hypothesis Hd : ld displs (i + 1) = Some cnt.
Hypothesis Hnn : forall a, 0 <= a < cnt -> ld nn_idx (i * m + a) = Some (nn a).
Hypothesis Rnn : forall a, 0 <= a < cnt -> 0 <= nn a < n.
Hypothesis Inj : forall a b, 0 <= a < cnt -> 0 <= b < cnt -> nn a = nn b -> a = b.
Hypothesis Hpot : forall A, (forall a b, 0 <= a < cnt -> 0 <= b < cnt -> A a b = schur (nn a) (nn b)) -> fst (l_potrf la cnt A) = 0%Z.
Hypothesis Hrs : forall y, (forall a, 0 <= a < cnt -> rsum 0 cnt (fun b => schur (nn a) (nn b) * y b) = delta a (cnt - 1)) -> exists s, rsq (y (cnt - 1)%Z) = Some s.

Lemma nn_delta a b : 0 <= a < cnt -> 0 <= b < cnt -> delta (K := K) (nn a) (nn b) = delta a b.
Proof. intros Ha Hb. unfold delta. destruct (Z.eqb_spec (nn a) (nn b)) as [E|N], (Z.eqb_spec a b); auto; [apply Inj in E; auto; lia|congruence]. Qed.

Theorem FSAI_row_spec row col val : zlen row = (n * m)%Z -> zlen col = (n * m)%Z -> zlen val = (n * m)%Z ->
  exists row' col' val' v s, FSAI_row kern la rsq m dim coord co ldc n1 P mu nn_idx displs i (row, col, val) = Some (row', col', val') /\
    zlen row' = zlen row /\ zlen col' = zlen col /\ zlen val' = zlen val /\
    (forall c, ld row' c = if (i * m <=? c)%Z && (c <? i * m + cnt)%Z then Some i else ld row c) /\
    (forall c, ld col' c = if (i * m <=? c)%Z && (c <? i * m + cnt)%Z then Some (nn (c - i * m)%Z) else ld col c) /\
    (forall c, ld val' c = if (i * m <=? c)%Z && (c <? i * m + cnt)%Z then Some (v (c - i * m)%Z) else ld val c) /\
    (forall a, 0 <= a < cnt -> rsum 0 cnt (fun b => schur (nn a) (nn b) * v b) = if (a =? cnt - 1)%Z then s else c0) /\ v (cnt - 1)%Z * s = c1.
Proof.
  intros Zr Zc Zv. unfold FSAI_row. rewrite Hd. cbn [bind]. cbv zeta. set (js := (i * m)%Z).
  assert (Hjs : 0 <= js /\ (js + cnt <= n * m)%Z) by (unfold js; nia).
  (* row and column indices *)
  assert (E1 : exists row' col', zfor js (js + cnt) (fun j (s : mem Z * mem Z) => let '(row, col) := s in row <- st row j i; c <- ld nn_idx (js + (j - js))%Z; col <- st col j c; Some (row, col)) (row, col) = Some (row', col') /\
     zlen row' = zlen row /\ zlen col' = zlen col /\ (forall c, ld row' c = if (js <=? c)%Z && (c <? js + cnt)%Z then Some i else ld row c) /\
     (forall c, ld col' c = if (js <=? c)%Z && (c <? js + cnt)%Z then Some (nn (c - js)%Z) else ld col c)).
  { destruct (zfor_inv (fun k (s : mem Z * mem Z) => zlen (fst s) = zlen row /\ zlen (snd s) = zlen col /\ (forall c, ld (fst s) c = if (js <=? c)%Z && (c <? k)%Z then Some i else ld row c) /\
     (forall c, ld (snd s) c = if (js <=? c)%Z && (c <? k)%Z then Some (nn (c - js)%Z) else ld col c)) js (js + cnt) (fun j (s : mem Z * mem Z) => let '(row, col) := s in row <- st row j i; c <- ld nn_idx (js + (j - js))%Z; col <- st col j c; Some (row, col)) (row, col)) as ((r' & c') & E & Q1 & Q2 & Q3 & Q4).
    - lia.
    - cbn. do 2 (split; [auto|]). split; intros c; destruct (Z.leb_spec js c), (Z.ltb_spec c js); cbn; auto; lia.
    - intros j (r & c) Hj (Q1 & Q2 & Q3 & Q4). cbn in Q1, Q2, Q3, Q4. destruct (st_Some r j i ltac:(lia)) as (r' & Er). rewrite Er. cbn [bind].
      rewrite Hnn by lia. cbn [bind]. destruct (st_Some c j (nn (j - js)%Z) ltac:(lia)) as (c' & Ec). rewrite Ec. cbn [bind]. eexists. split; [reflexivity|]. cbn [fst snd].
      rewrite (st_zlen _ _ _ _ Er), (st_zlen _ _ _ _ Ec). do 2 (split; [auto|]). split; intros x.
      + rewrite (ld_st _ _ _ _ _ Er), Q3. destruct (Z.eqb_spec j x); destruct (Z.leb_spec js x), (Z.ltb_spec x j), (Z.ltb_spec x (j + 1)); cbn [andb]; auto; lia.
      + rewrite (ld_st _ _ _ _ _ Ec), Q4. destruct (Z.eqb_spec j x); destruct (Z.leb_spec js x), (Z.ltb_spec x j), (Z.ltb_spec x (j + 1)); cbn [andb]; auto; try lia. now subst.
    - exists r', c'. cbn in *. auto 10. }
  destruct E1 as (row' & col' & E1 & Zr' & Zc' & Lr & Lc).
  match goal with |- context [bind ?t _] => replace t with (Some (row', col')) by (symmetry; exact E1) end. cbn [bind].
  (* coordinates and kernel block *)
  destruct (gather_spec dim cnt coord co ldc nn_idx js nn X (alloc (m * dim)) cnt) as (xc & E2 & Z2 & L2); auto; try lia.
  { rewrite zlen_alloc by nia. nia. }
  { intros a d Ha Hdd. rewrite Z.mul_comm with (n := ldc). apply HX; auto. }
  rewrite E2. cbn [bind].
  assert (Hpt : forall a, 0 <= a < cnt -> point dim xc 0 cnt a = Some (pt_of dim X (nn a))).
  { intros a Ha. unfold point, pt_of. apply all_some_map. intros d Hdd. apply In_zrange in Hdd. rewrite Z.add_0_l. apply L2; auto. }
  assert (Hmm : (cnt * cnt <= m * m)%Z) by nia.
  destruct (krnl_holds dim xc 0 cnt cnt xc 0 cnt cnt (fun a => pt_of dim X (nn a)) (fun a => pt_of dim X (nn a)) (alloc (m * m)) 0) as (T1 & E3 & Z3 & H3 & _); auto; try lia.
  { rewrite zlen_alloc by nia. nia. }
  rewrite zlen_alloc in Z3 by nia. rewrite E3. cbn [bind].
  destruct (diag_add T1 cnt _ mu ltac:(lia) H3) as (T2 & E4 & Z4 & H4). rewrite E4. cbn [bind].
  (* subtract the low rank part *)
  assert (E5 : exists T3, (if (0 <? n1)%Z then Pnn <- zfor 0 cnt (fun j0 d => r <- ld nn_idx (js + j0)%Z; mcpy d (j0 * n1)%Z P (r * n1)%Z n1) (alloc (m * n1)); syrk_lower_neg cnt n1 Pnn T2 else Some T2) = Some T3 /\
     zlen T3 = zlen T2 /\ exists av, holds T3 0 cnt cnt cnt av /\ forall a b, 0 <= a < cnt -> 0 <= b <= a -> av a b = schur (nn a) (nn b)).
  { destruct (Z.ltb_spec 0 n1).
    - destruct (zfor_inv (fun k (d : mem K) => zlen d = (m * n1)%Z /\ forall a l, 0 <= a < k -> 0 <= l < n1 -> ld d (a * n1 + l) = Some (Pf (nn a) l)) 0 cnt
        (fun j0 d => r <- ld nn_idx (js + j0)%Z; mcpy d (j0 * n1)%Z P (r * n1)%Z n1) (alloc (m * n1))) as (Pnn & E & ZP & LP).
      + lia.
      + split; [apply zlen_alloc; nia|]. intros; lia.
      + intros j d Hj (Zd & Ld). unfold js. rewrite Hnn by auto. cbn [bind]. pose proof (Rnn j Hj) as Rj.
        assert (ZPP : (nn j * n1 + n1 <= zlen P)%Z) by (pose proof (ld_range _ _ _ (HP (nn j) (n1 - 1)%Z Rj ltac:(lia))); lia).
        destruct (mcpy_spec d (j * n1) P (nn j * n1) n1) as (d' & Ed & Zd' & Gd); try nia. exists d'. split; auto. split; [lia|].
        intros a l Ha Hl. unfold ld. rewrite Gd. destruct (Z.eq_dec a j) as [->|Ne].
        * rewrite (proj2 (Z.leb_le _ _)), (proj2 (Z.ltb_lt _ _)) by lia. cbn [andb]. replace (nn j * n1 + (j * n1 + l - j * n1))%Z with (nn j * n1 + l)%Z by lia. apply (HP (nn j) l); auto.
        * destruct (Z.leb_spec (j * n1) (a * n1 + l)), (Z.ltb_spec (a * n1 + l) (j * n1 + n1)); cbn [andb]; try (apply Ld; lia). exfalso. apply Ne. nia.
      + rewrite E. cbn [bind]. assert (HPn : holds Pnn 0 n1 cnt n1 (fun a l => Pf (nn a) l)) by (intros a l Ha Hl; rewrite Z.add_0_l; auto).
        destruct (syrk_spec cnt n1 Pnn T2 _ _ ltac:(lia) ltac:(lia) HPn H4) as (T3 & E5 & Z5 & H5).
        exists T3. split; auto. split; auto. eexists. split; [exact H5|]. intros a b Ha Hb. cbv beta. rewrite (proj2 (Z.leb_le b a)) by lia. unfold schur. rewrite nn_delta by lia. ring.
    - exists T2. split; auto. split; auto. eexists. split; [exact H4|]. intros a b Ha Hb. cbv beta. unfold schur. rewrite nn_delta by lia. rewrite rsum_empty by lia. ring. }
  destruct E5 as (T3 & E5 & Z5 & av & H5 & Hav). rewrite E5. cbn [bind].
  (* right-hand side *)
  destruct (st_loop (fun _ => c0) js cnt val) as (v1 & E6 & Z6 & L6); try lia. rewrite E6. cbn [bind].
  destruct (st_Some v1 (js + (cnt - 1))%Z c1 ltac:(lia)) as (v2 & E7). rewrite E7. cbn [bind].
  assert (Hav2 : forall a b, 0 <= a < cnt -> 0 <= b < cnt -> (if (b <=? a)%Z then av a b else av b a) = schur (nn a) (nn b)).
  { intros a b Ha Hb. destruct (Z.leb_spec b a); [apply Hav; lia|]. rewrite Hav by lia. apply schur_sym; auto. }
  destruct (chol_solve_spec cnt T3 av v2 js (fun a => delta a (cnt - 1))) as (T4 & v3 & y & E8 & E9 & Z9 & Qy & L9); auto; try lia.
  { rewrite (st_zlen _ _ _ _ E7). lia. }
  { intros a Ha. rewrite (ld_st _ _ _ _ _ E7), L6. unfold delta. destruct (Z.eqb_spec (js + (cnt - 1)) (js + a)), (Z.eqb_spec a (cnt - 1)); auto; try lia.
    rewrite (proj2 (Z.leb_le _ _)), (proj2 (Z.ltb_lt _ _)) by lia. auto. }
  { intros A HA. apply Hpot. intros a b Ha Hb. rewrite HA by auto. auto. }
  rewrite E8. cbn [bind]. rewrite Z.eqb_refl. cbn [negb]. rewrite E9. cbn [bind].
  assert (Qy' : forall a, 0 <= a < cnt -> rsum 0 cnt (fun b => schur (nn a) (nn b) * y b) = delta a (cnt - 1)).
  { intros a Ha. rewrite <- Qy by auto. apply rsum_ext. intros b Hb. rewrite Hav2 by auto. auto. }
  destruct (Hrs y Qy') as (s & Es).
  rewrite L9, (proj2 (Z.leb_le _ _)), (proj2 (Z.ltb_lt _ _)) by lia. cbn [andb bind]. replace (js + (cnt - 1) - js)%Z with (cnt - 1)%Z by lia. rewrite Es. cbn [bind].
  (* scaling *)
  destruct (zfor_inv (fun k (d : mem K) => zlen d = zlen v3 /\ forall c, ld d c = if (js <=? c)%Z && (c <? js + k)%Z then Some (y (c - js)%Z * s) else ld v3 c) 0 cnt
    (fun j d => v <- ld d (js + j)%Z; st d (js + j)%Z (v * s)) v3) as (v4 & E10 & Z10 & L10).
  { lia. }
  { split; auto. intros c. destruct (Z.leb_spec js c), (Z.ltb_spec c (js + 0)); cbn; auto; lia. }
  { intros j d Hj (Zd & Ld). rewrite Ld, L9. destruct (Z.leb_spec js (js + j)), (Z.ltb_spec (js + j) (js + j)), (Z.ltb_spec (js + j) (js + cnt)); try lia. cbn [andb bind].
    destruct (st_Some d (js + j) (y (js + j - js)%Z * s)) as (d' & Ed). { rewrite Zd, Z9, (st_zlen _ _ _ _ E7). lia. }
    exists d'. split; auto. split; [rewrite (st_zlen _ _ _ _ Ed); auto|]. intros c. rewrite (ld_st _ _ _ _ _ Ed), Ld.
    destruct (Z.eqb_spec (js + j) c) as [<-|Ne].
    - destruct (Z.leb_spec js (js + j)), (Z.ltb_spec (js + j) (js + (j + 1))); cbn [andb]; auto; lia.
    - destruct (Z.leb_spec js c), (Z.ltb_spec c (js + j)), (Z.ltb_spec c (js + (j + 1))); cbn [andb]; auto; lia. }
  rewrite E10. cbn [bind]. exists row', col', v4, (fun a => y a * s), s. split; [reflexivity|].
  do 2 (split; [auto|]). split; [rewrite Z10, Z9, (st_zlen _ _ _ _ E7); lia|]. do 2 (split; [auto|]). split; [|split].
  - intros c. rewrite L10. destruct (Z.leb_spec js c), (Z.ltb_spec c (js + cnt)); cbn [andb]; auto.
    all: rewrite L9; destruct (Z.leb_spec js c), (Z.ltb_spec c (js + cnt)); try lia; cbn [andb]; rewrite (ld_st _ _ _ _ _ E7), L6;
      destruct (Z.eqb_spec (js + (cnt - 1)) c); try lia; destruct (Z.leb_spec js c), (Z.ltb_spec c (js + cnt)); try lia; auto.
  - intros a Ha. rewrite (rsum_ext 0 cnt _ (fun b => schur (nn a) (nn b) * y b * s)) by (intros; ring). rewrite rsum_mul_r, Qy' by auto. unfold delta. destruct (a =? cnt - 1)%Z; ring.
  - rewrite <- (Hrsq _ _ Es). ring.
Qed.
End Row.
