(** The blocks of the AFN preconditioner. *)
From Coq Require Import ZArith QArith List Lia Bool Permutation.
From Verif Require Import Base Mem Num CRing Model_Utils Proof_Utils Model_Matvec Model_Build Model_Matmul Proof_Build Proof_Gemm Spec_Lapack Blk Model_ULV Proof_ULVMem Proof_ULVAsm Proof_ULVMath Model_FSAI Spec_FSAI Proof_FSAIKnn Proof_FSAIRow Proof_FSAITop Proof_FSAIApply Proof_FSAIBuild Proof_FSAIReal Model_AFN Spec_AFN Proof_AFNMath.
Import ListNotations.
Open Scope Z_scope.

Section Build.
Context {F : num} {K : cring}.
Add Ring Kring : (cth K).
Local Open Scope ring_K.
Variable kern : list F -> list F -> Z -> Z -> K.

Lemma coords_point (c : mem F) o ldc n dim X s j : coords_at c o ldc n dim X -> 0 <= s -> 0 <= j -> s + j < n -> point dim c (o + s)%Z ldc j = Some (pt_of dim X (s + j)%Z).
Proof.
  intros H Hs Hj Hn. unfold point, pt_of. apply all_some_map. intros d Hd. apply In_zrange in Hd. rewrite <- (H (s + j)%Z d) by lia. f_equal. lia.
Qed.

Lemma eval_OMP_spec nt ord dim (a : mem F) o0 ld0 n0 X0 (b : mem F) o1 ld1 n1 X1 kmat : 1 <= nt -> any_order nt ord -> 0 <= n0 -> 0 <= n1 -> n0 * n1 <= zlen kmat ->
  coords_at a o0 ld0 n0 dim X0 -> coords_at b o1 ld1 n1 dim X1 ->
  exists m, eval_kernel_OMP kern nt ord dim a o0 ld0 n0 b o1 ld1 n1 kmat n1 = Some m /\ zlen m = zlen kmat /\
    holds m 0 n1 n0 n1 (fun i j => kern (pt_of dim X0 i) (pt_of dim X1 j) 0%Z 0%Z).
Proof.
  intros Hnt Ho Hn0 Hn1 Hz HA HB. unfold eval_kernel_OMP. destruct (cb_tiles n0 nt Hn0 ltac:(lia)) as (T1 & T2 & T3).
  set (f := fun i j => kern (pt_of dim X0 i) (pt_of dim X1 j) 0%Z 0%Z).
  destruct (in_order_inv (fun done (m : mem K) => zlen m = zlen kmat /\ forall t sp l i j, In t done -> 0 <= t < nt -> calc_block_spos_len n0 nt t = Some (sp, l) -> sp <= i < sp + l -> 0 <= j < n1 -> ld m (0 + (i * n1 + j))%Z = Some (f i j))
    (fun tid m => '(spos, len) <- calc_block_spos_len n0 nt tid; krnl_eval kern dim 1 a (o0 + spos)%Z ld0 len b o1 ld1 n1 m (spos * n1)%Z n1) ord [] kmat) as (m & done & E & (Zm & Lm) & Hd).
  - eapply any_order_nodup; eauto.
  - intros i _ [].
  - split; auto. intros t sp l i j [].
  - intros done t m Ht Hnd (Zm & Lm). apply (any_order_in nt) in Ht; auto. destruct (T1 t Ht) as (sp & l & Eb & B1 & B2 & B3). rewrite Eb. cbn [bind].
    destruct (krnl_holds kern dim a (o0 + sp) ld0 l b o1 ld1 n1 (fun i => pt_of dim X0 (sp + i)%Z) (pt_of dim X1) m (sp * n1)) as (m' & Em & Zm' & Hm & Fm); auto; try nia.
    { intros i Hi. apply (coords_point _ _ _ n0); auto; lia. }
    { intros j Hj. rewrite <- (Z.add_0_r o1). apply (coords_point _ _ _ n1); auto; lia. }
    exists m'. split; [exact Em|]. split; [lia|]. intros t' sp' l' i j Hin Ht' E' Hi Hj. destruct (Z.eq_dec t' t) as [->|Ne].
    + rewrite Eb in E'. injection E' as <- <-. specialize (Hm (i - sp)%Z j ltac:(lia) Hj). cbv beta in Hm. replace (sp + (i - sp))%Z with i in Hm by lia. unfold f. rewrite <- Hm. f_equal. lia.
    + assert (Hdj : ~ (sp * n1 <= 0 + (i * n1 + j) < sp * n1 + l * n1)).
      { destruct (Z.lt_ge_cases t t').
        - destruct (T3 t t' sp l sp' l' ltac:(lia) ltac:(lia) Eb E'). nia.
        - destruct (T3 t' t sp' l' sp l ltac:(lia) ltac:(lia) E' Eb). nia. }
      unfold ld. rewrite Fm by auto. fold (ld m (0 + (i * n1 + j))%Z). destruct Hin as [->|Hin]; [lia|]. apply (Lm t' sp' l'); auto.
  - exists m. split; [exact E|]. split; auto. intros i j Hi Hj. destruct (T2 i Hi) as (t & sp & l & Ht & Eb & Hx). apply (Lm t sp l); auto. apply Hd. left. apply (any_order_in nt); auto.
Qed.

(** ** Cholesky and inverse *)
Variable la : lapack K.
Hypothesis LA : lapack_ok la.
Hypothesis Hfield : forall a : K, a <> c0 -> exists s, s * a = c1.

Lemma potrf_low_spec n (T : mem K) av : 0 <= n -> n * n <= zlen T -> holds T 0 n n n av ->
  (forall A, (forall i j, 0 <= i < n -> 0 <= j < n -> A i j = if (j <=? i)%Z then av i j else av j i) -> fst (l_potrf la n A) = 0%Z) ->
  exists T' L, potrf_low la n T = Some (0%Z, T') /\ zlen T' = zlen T /\ holds T' 0 n n n L /\ (forall i, 0 <= i < n -> L i i <> c0) /\
    forall i j, 0 <= i < n -> 0 <= j < n -> rsum 0 n (fun l => tri true false L i l * tri true false L j l) = if (j <=? i)%Z then av i j else av j i.
Proof.
  intros Hn Hz HT Hp. unfold potrf_low. destruct (rd_ok _ _ _ _ _ _ HT) as (a & Ea & Ga). rewrite Ea. cbn [bind].
  set (sym := fun i j => if (j <=? i)%Z then a i j else a j i).
  assert (Hsym : forall i j, 0 <= i < n -> 0 <= j < n -> sym i j = if (j <=? i)%Z then av i j else av j i).
  { intros i j Hi Hj. unfold sym. destruct (j <=? i)%Z; now rewrite Ga. }
  pose proof (la_chol la LA n sym Hn) as HC. specialize (Hp sym Hsym). destruct (l_potrf la n sym) as [info L]. cbn in Hp. subst info. destruct (HC eq_refl) as [Hd HL]. clear HC.
  assert (Hf : Spec_Dense.fits n n 0 n (zlen T)) by (repeat split; try lia; nia).
  set (LL := fun i j => if (j <=? i)%Z then L i j else a i j).
  destruct (wr_upd n n LL T 0 n Hf) as (T' & ET & U). rewrite ET. cbn [bind]. destruct U as (ZT & HT' & _).
  exists T', LL. split; [reflexivity|]. split; auto. split; auto. split; [intros i Hi; unfold LL; rewrite Z.leb_refl; auto|].
  assert (TT : forall i k, tri true false LL i k = tri true false L i k).
  { intros i k. unfold tri, LL. rewrite Z.leb_refl. destruct (Z.eqb_spec i k); auto. destruct (Z.ltb_spec k i), (Z.leb_spec k i); auto; lia. }
  intros i j Hi Hj. rewrite (rsum_ext 0 n _ (fun l => tri true false L i l * tri true false L j l)) by (intros; now rewrite !TT). rewrite <- Hsym by auto. destruct (Z.le_gt_cases j i).
  - apply HL; lia.
  - rewrite (rsum_ext 0 n _ (fun k => tri true false L j k * tri true false L i k)) by (intros; ring). rewrite HL by lia. unfold sym.
    destruct (Z.leb_spec j i), (Z.leb_spec i j); auto; lia.
Qed.

(** The symmetrisation loop. *)
Lemma symm_spec n (d : mem K) f : 0 <= n -> holds d 0 n n n f ->
  exists d', zfor 0 (n - 1) (fun i d => zfor (i + 1) n (fun j d => v <- ld d (j * n + i)%Z; st d (i * n + j)%Z v) d) d = Some d' /\ zlen d' = zlen d /\
    holds d' 0 n n n (fun i j => if (i <? j)%Z then f j i else f i j).
Proof.
  intros Hn Hd. destruct (Z.eq_dec n 0) as [->|Hn0]. { rewrite zfor_empty by lia. exists d. split; auto. split; auto. intros i j Hi; lia. }
  assert (Rg : forall i j, 0 <= i < n -> 0 <= j < n -> 0 <= i * n + j < zlen d) by (intros i j Hi Hj; specialize (Hd i j Hi Hj); apply ld_range in Hd; lia).
  set (P := fun i j (e : mem K) => zlen e = zlen d /\ forall a b, 0 <= a < n -> 0 <= b < n -> ld e (a * n + b)%Z = Some (if (a <? b)%Z && ((a <? i)%Z || ((a =? i)%Z && (b <? j)%Z)) then f b a else f a b)).
  destruct (zfor_inv (fun i e => P i (i + 1)%Z e) 0 (n - 1) (fun i d => zfor (i + 1) n (fun j d => v <- ld d (j * n + i)%Z; st d (i * n + j)%Z v) d) d) as (d' & E & Z1 & L1); try lia.
  - split; auto. intros a b Ha Hb. rewrite <- (Z.add_0_l (a * n + b)), Hd by auto. f_equal. destruct (Z.ltb_spec a b), (Z.ltb_spec a 0), (Z.eqb_spec a 0), (Z.ltb_spec b (0 + 1)); cbn; auto; lia.
  - intros i e Hi He. destruct (zfor_inv (fun j e => P i j e) (i + 1) n (fun j d => v <- ld d (j * n + i)%Z; st d (i * n + j)%Z v) e) as (e' & E & Z1 & L1); auto; try lia.
    + intros j x Hj (Zx & Lx). rewrite Lx by lia. cbn [bind]. destruct (Z.ltb_spec j i); [lia|]. cbn [andb]. destruct (st_Some x (i * n + j) (f j i)) as (x' & Ex). { rewrite Zx. apply Rg; lia. } exists x'. split; auto. split; [rewrite (st_zlen _ _ _ _ Ex); auto|].
      intros a b Ha Hb. rewrite (ld_st _ _ _ _ _ Ex). destruct (Z.eqb_spec (i * n + j) (a * n + b)) as [Eq|Ne].
      * destruct (region_inj n n a b i j) as (-> & ->); try lia. rewrite Z.ltb_irrefl, Z.eqb_refl, (proj2 (Z.ltb_lt _ _)), (proj2 (Z.ltb_lt _ _)) by lia. auto.
      * rewrite Lx by auto. f_equal. assert (~ (a = i /\ b = j)) by (intros (-> & ->); lia). destruct (Z.ltb_spec a b), (Z.ltb_spec a i), (Z.eqb_spec a i), (Z.ltb_spec b j), (Z.ltb_spec b (j + 1)); cbn; auto; lia.
    + exists e'. split; auto. split; auto. intros a b Ha Hb. rewrite L1 by auto. f_equal. destruct (Z.ltb_spec a b), (Z.ltb_spec a i), (Z.ltb_spec a (i + 1)), (Z.eqb_spec a i), (Z.eqb_spec a (i + 1)), (Z.ltb_spec b n), (Z.ltb_spec b (i + 1 + 1)); cbn; auto; lia.
  - exists d'. split; auto. split; auto. intros a b Ha Hb. rewrite Z.add_0_l, L1 by auto. f_equal. destruct (Z.ltb_spec a b), (Z.ltb_spec a (n - 1)), (Z.eqb_spec a (n - 1)); cbn; auto; lia.
Qed.

(** Row by row copies. *)
Lemma rows_copy n m (src dst : mem K) f i : 0 <= m -> 0 <= i < n -> n * m <= zlen src -> n * m <= zlen dst -> holds src 0 m n m f -> holds dst 0 m i m f ->
  exists d, mcpy dst (i * m) src (i * m) m = Some d /\ zlen d = zlen dst /\ holds d 0 m (i + 1) m f.
Proof.
  intros Hm Hi Zs Zd Hs Hd. destruct (mcpy_spec dst (i * m) src (i * m) m) as (d & E & Z1 & L1); try nia. exists d. split; auto. split; auto.
  intros a b Ha Hb. unfold ld. rewrite L1. destruct (Z.leb_spec (i * m) (0 + (a * m + b))), (Z.ltb_spec (0 + (a * m + b)) (i * m + m)); cbn [andb].
  - assert (a = i) by nia. subst a. replace (i * m + (0 + (i * m + b) - i * m))%Z with (0 + (i * m + b))%Z by lia. apply (Hs i b); auto.
  - exfalso. nia.
  - apply (Hd a b); nia.
  - apply (Hd a b); nia.
Qed.

Section Pre.
Variables (n1 n2 : Z) (A K1 : Z -> Z -> K) (mu : K) (K11 K12 : mem K) (coord : mem F) (dim fsai_npt : Z) (o : fsai_ord) (rsq : K -> option K).
Hypothesis Hn1 : 0 <= n1. Hypothesis Hn2 : 0 <= n2.
Let n := (n1 + n2)%Z.
Hypothesis Asym : forall i j, 0 <= i < n -> 0 <= j < n -> A i j = A j i.
Hypothesis HK11 : holds K11 0 n1 n1 n1 K1.
Hypothesis HK1 : forall i j, 0 <= i < n1 -> 0 <= j < n1 -> A i j = K1 i j + mu * delta i j.
Hypothesis ZK11 : zlen K11 = (n1 * n1)%Z.
Hypothesis HK12 : holds K12 0 n2 n1 n2 (afn_K12 n1 A).
Hypothesis ZK12 : zlen K12 = (n1 * n2)%Z.
Hypothesis Hchol : forall B, (forall i j, 0 <= i < n1 -> 0 <= j < n1 -> B i j = A i j) -> fst (l_potrf la n1 B) = 0%Z.

Lemma AFN_pre_spec : exists invK11 K12_ V21 iL inv V,
  AFN_build_afn kern la rsq n1 n2 mu K11 K12 coord dim fsai_npt o = (g <- FSAI_precond_build kern la rsq fsai_npt n2 dim coord n1 (n1 + n2)%Z n1 V21 mu o; Some (IsAfn invK11 K12_ g)) /\
  holds invK11 0 n1 n1 n1 inv /\ holds K12_ 0 n2 n1 n2 (afn_K12 n1 A) /\ holds V21 0 n1 n2 n1 V /\
  (forall i j, 0 <= i < n1 -> 0 <= j < n1 -> inv i j = rsum 0 n1 (fun k => iL k i * iL k j)) /\
  (forall i j, 0 <= i < n1 -> 0 <= j < n1 -> rsum 0 n1 (fun l => A i l * inv l j) = delta i j) /\
  (forall x, (forall i, 0 <= i < n1 -> rsum 0 n1 (fun j => iL i j * x j) = c0) -> forall i, 0 <= i < n1 -> x i = c0) /\
  (forall r c, 0 <= r < n2 -> 0 <= c < n2 -> rsum 0 n1 (fun l => V r l * V c l) = rsum 0 n1 (fun l => afn_K12 n1 A l r * rsum 0 n1 (fun k => inv l k * afn_K12 n1 A k c))).
Proof.
  unfold AFN_build_afn.
  destruct (diag_add K11 n1 K1 mu Hn1 HK11) as (k1 & E1 & Z1 & H1). rewrite E1. cbn [bind].
  destruct (potrf_low_spec n1 k1 (fun i j => K1 i j + mu * delta i j)) as (k2 & L & E2 & Z2 & H2 & Hd & HL); auto; try lia.
  { intros B HB. apply Hchol. intros i j Hi Hj. rewrite HB by auto. destruct (Z.leb_spec j i); [now rewrite HK1|]. rewrite <- HK1 by auto. apply Asym; unfold n; lia. }
  assert (HLA : forall i j, 0 <= i < n1 -> 0 <= j < n1 -> rsum 0 n1 (fun l => tri true false L i l * tri true false L j l) = A i j).
  { intros i j Hi Hj. rewrite HL by auto. destruct (Z.leb_spec j i); [now rewrite HK1|]. rewrite <- HK1 by auto. apply Asym; unfold n; lia. }
  rewrite E2. cbn [bind]. change (negb (0 =? 0)%Z) with false. cbv iota.
  assert (Za : zlen (alloc (A := K) (n1 * n1)) = (n1 * n1)%Z) by (apply zlen_alloc; nia).
  destruct (mset0_square (K := K) (alloc (n1 * n1)) n1) as (m0 & E3 & Z3 & H3); try lia. rewrite E3. cbn [bind].
  assert (Hid : exists m1, zfor 0 n1 (fun i d => st d (i * n1 + i)%Z c1) m0 = Some m1 /\ zlen m1 = (n1 * n1)%Z /\ holds m1 0 n1 n1 n1 delta).
  { destruct (zfor_inv (fun k (e : mem K) => zlen e = (n1 * n1)%Z /\ holds e 0 n1 n1 n1 (fun i j => if (i =? j)%Z && (i <? k)%Z then c1 else c0)) 0 n1 (fun i d => st d (i * n1 + i)%Z c1) m0) as (m1 & E & Zm & Hm); try lia.
    - split; [lia|]. intros i j Hi Hj. rewrite H3 by auto. destruct (Z.eqb_spec i j), (Z.ltb_spec i 0); cbn; auto; lia.
    - intros k e Hk (Ze & He). destruct (st_Some e (k * n1 + k) c1) as (e' & Ee); [nia|]. exists e'. split; auto. split; [rewrite (st_zlen _ _ _ _ Ee); auto|].
      intros i j Hi Hj. rewrite (ld_st _ _ _ _ _ Ee). destruct (Z.eqb_spec (k * n1 + k) (0 + (i * n1 + j))) as [Eq|Ne].
      + destruct (region_inj n1 n1 k k i j) as (<- & <-); try lia. rewrite Z.eqb_refl, (proj2 (Z.ltb_lt _ _)) by lia. auto.
      + rewrite He by auto. destruct (Z.eqb_spec i j), (Z.ltb_spec i k), (Z.ltb_spec i (k + 1)); cbn; auto; try lia. exfalso. apply Ne. subst j. assert (i = k) by lia. subst i. lia.
    - exists m1. split; auto. split; auto. intros i j Hi Hj. rewrite Hm by auto. unfold delta. rewrite (proj2 (Z.ltb_lt i n1)) by lia. now rewrite andb_true_r. }
  destruct Hid as (m1 & E4 & Z4 & H4). rewrite E4. cbn [bind].
  assert (Hf : Spec_Dense.fits n1 n1 0 n1 (n1 * n1)) by (repeat split; try lia; nia).
  destruct (trsm_left_upd la true false false n1 n1 k2 0 n1 m1 0 n1 L delta LA Hn1) as (m2 & iL & E5 & (Z5 & H5 & _) & Q5); auto. { rewrite Z4; auto. }
  specialize (Q5 (fun _ => Hd)). cbn [top] in Q5. rewrite E5. cbn [bind].
  set (LT := tri true false L) in *.
  assert (HLT : forall i j, 0 <= i < n1 -> 0 <= j < n1 -> i < j -> LT i j = c0). { intros i j Hi Hj Hij. unfold LT, tri. destruct (Z.eqb_spec i j), (Z.ltb_spec j i); auto; lia. }
  assert (HLd : forall i, 0 <= i < n1 -> exists s, s * LT i i = c1). { intros i Hi. apply Hfield. unfold LT, tri. rewrite Z.eqb_refl. auto. }
  pose proof (tri_two_sided n1 LT iL HLT HLd Q5) as Q6.
  assert (Hf2 : Spec_Dense.fits n2 n1 0 n1 (zlen (alloc (A := K) (n2 * n1)))). { rewrite zlen_alloc by nia. repeat split; try lia; nia. }
  destruct (gemm_upd true true n2 n1 n1 K12 0 n2 m2 0 n1 (alloc (n2 * n1)) 0 n1 (fun r k => afn_K12 n1 A k r) (fun p j => iL j p) Hn1 Hf2) as (v & E6 & (_ & H6 & _)); auto. rewrite E6. cbn [bind].
  set (V := fun r l => rsum 0 n1 (fun p => afn_K12 n1 A p r * iL l p)) in H6.
  destruct (zfor_inv (fun i (s : mem K * mem K) => let '(a, b) := s in zlen a = (n1 * n1)%Z /\ zlen b = (n1 * n2)%Z /\ holds a 0 n1 i n1 L /\ holds b 0 n2 i n2 (afn_K12 n1 A)) 0 n1
    (fun i (s : mem K * mem K) => let '(a, b) := s in a <- mcpy a (i * n1)%Z k2 (i * n1)%Z n1; b <- mcpy b (i * n2)%Z K12 (i * n2)%Z n2; Some (a, b)) (alloc (n1 * n1), alloc (n1 * n2))) as ((ai & kk) & E7 & Za' & Zk & Ha & Hk); try lia.
  { rewrite !zlen_alloc by nia. split; auto. split; auto. split; intros i j Hi; lia. }
  { intros i (a & b) Hi (Y1 & Y2 & Y3 & Y4).
    destruct (rows_copy n1 n1 k2 a L i) as (a' & Ea & Za2 & Ha2); auto; try lia. rewrite Ea. cbn [bind].
    destruct (rows_copy n1 n2 K12 b (afn_K12 n1 A) i) as (b' & Eb & Zb2 & Hb2); auto; try lia. rewrite Eb. cbn [bind]. exists (a', b'). split; auto. split; [lia|]. split; [lia|]. auto. }
  rewrite E7. cbn [bind]. unfold potri_low. destruct (rd_ok _ _ _ _ _ _ Ha) as (aa & Ea & Ga). rewrite Ea. cbn [bind].
  set (jL := l_trsm la true true false false n1 n1 aa delta).
  assert (Q7 : forall i j, 0 <= i < n1 -> 0 <= j < n1 -> rsum 0 n1 (fun l => LT i l * jL l j) = delta i j).
  { intros i j Hi Hj. rewrite <- (la_trsm_left la LA true false false n1 n1 aa delta Hn1) with (i := i) (j := j); auto.
    - cbn [top]. apply rsum_ext. intros l Hl. f_equal. unfold LT, tri. destruct (i =? l)%Z; [now rewrite Ga|]. destruct (l <? i)%Z; [now rewrite Ga|]. auto.
    - intros _ k Hkk. rewrite Ga by auto. auto. }
  assert (Hji : forall i j, 0 <= i < n1 -> 0 <= j < n1 -> jL i j = iL i j).
  { intros i j Hi Hj. transitivity (rsum 0 n1 (fun l => delta i l * jL l j)); [now rewrite rsum_delta_l|].
    rewrite (rsum_ext 0 n1 _ (fun l => rsum 0 n1 (fun k => iL i k * LT k l) * jL l j)) by (intros; now rewrite Q6).
    rewrite <- rsum_assoc. rewrite (rsum_ext 0 n1 _ (fun k => iL i k * delta k j)) by (intros; now rewrite Q7).
    rewrite (rsum_only 0 n1 _ j); auto; unfold delta; [rewrite Z.eqb_refl; ring|]. intros k Hk2 Hne. destruct (Z.eqb_spec k j); [lia|ring]. }
  set (inv := fun i j => rsum 0 n1 (fun k => iL k i * iL k j)).
  match goal with |- context [wr n1 n1 ?f0 ai 0 n1] => destruct (wr_upd n1 n1 f0 ai 0 n1) as (a2 & E8 & (Z8 & H8 & _)); [rewrite Za'; auto|] end. rewrite E8. cbn [bind].
  destruct (symm_spec n1 a2 _ Hn1 H8) as (a3 & E9 & Z9 & H9). rewrite E9. cbn [bind].
  exists a3, kk, v, iL, inv, V. split; [reflexivity|].
  assert (Hinv : holds a3 0 n1 n1 n1 inv).
  { eapply holds_ext; [exact H9|]. intros i j Hi Hj. cbv beta. unfold inv. destruct (Z.ltb_spec i j).
    - rewrite (proj2 (Z.leb_le i j)) by lia. apply rsum_ext. intros k Hkk. rewrite !Hji by auto. ring.
    - rewrite (proj2 (Z.leb_le j i)) by lia. apply rsum_ext. intros k Hkk. rewrite !Hji by auto. ring. }
  split; auto. split; auto. split; auto. split; [reflexivity|]. split; [|split].
  - (* A inv = L L^T iL^T iL *)
    intros i j Hi Hj. unfold inv.
    rewrite rsum_assoc.
    rewrite (rsum_ext 0 n1 _ (fun k => LT i k * iL k j)); [now apply Q5|]. intros k Hkk. f_equal.
    rewrite (rsum_ext 0 n1 _ (fun l => iL k l * rsum 0 n1 (fun p => LT l p * LT i p))).
    + rewrite rsum_assoc. rewrite (rsum_ext 0 n1 _ (fun p => delta k p * LT i p)) by (intros; rewrite Q6 by auto; auto). now rewrite rsum_delta_l.
    + intros l Hl. rewrite (rsum_ext 0 n1 (fun p => LT l p * LT i p) (fun p => LT i p * LT l p)) by (intros; ring). rewrite HLA by auto. ring.
  - intros x Hx i Hi. transitivity (rsum 0 n1 (fun l => delta i l * x l)); [now rewrite rsum_delta_l|].
    rewrite (rsum_ext 0 n1 _ (fun l => rsum 0 n1 (fun k => LT i k * iL k l) * x l)) by (intros; rewrite Q5 by auto; auto).
    rewrite <- rsum_assoc. apply rsum_zero. intros k Hkk. rewrite Hx by auto. ring.
  - intros r c Hr Hc. unfold V.
    rewrite (rsum_ext 0 n1 _ (fun l => rsum 0 n1 (fun p => afn_K12 n1 A p r * (iL l p * rsum 0 n1 (fun q => iL l q * afn_K12 n1 A q c))))).
    + rewrite (rsum_swap 0 n1 0 n1). apply rsum_ext. intros p Hp. rewrite rsum_mul_l. f_equal. rewrite rsum_assoc. apply rsum_ext. auto.
    + intros l Hl. rewrite <- rsum_mul_r. apply rsum_ext. intros p Hp. rewrite (rsum_ext 0 n1 (fun q => iL l q * afn_K12 n1 A q c) (fun p => afn_K12 n1 A p c * iL l p)) by (intros; ring). ring.
Qed.
End Pre.
End Build.
