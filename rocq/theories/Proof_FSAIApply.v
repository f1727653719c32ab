From Coq Require Import ZArith QArith List Lia Bool Permutation.
From Verif Require Import Base Mem Num CRing Model_CSR Spec_CSR Spec_Utils Proof_Utils Proof_Qsort Proof_CSR Model_FSAI Spec_FSAI Proof_Build Proof_FSAIKnn Proof_FSAICsr.
Import ListNotations.
Open Scope Z_scope.

Section Apply.
Context {K : cring}.
Add Ring Kring : (cth K).
Local Open Scope ring_K.

(** The CSR arrays multiply by the n-by-n matrix M. *)
Definition csr_op (n : Z) (rp ci : mem Z) (va : mem K) (M : Z -> Z -> K) : Prop :=
  forall (x : mem K) xo xv (y : mem K) yo, (forall j, 0 <= j < n -> ld x (xo + j)%Z = Some (xv j)) -> 0 <= yo -> yo + n <= zlen y ->
  exists y', FSAI_CSR_SpMV n rp ci va x xo y yo = Some y' /\ zlen y' = zlen y /\
    forall c, ld y' c = if (yo <=? c)%Z && (c <? yo + n)%Z then Some (rsum 0 n (fun j => M (c - yo)%Z j * xv j)) else ld y c.

Variables (n m : Z) (cnt : Z -> Z) (nn : Z -> Z -> Z) (v : Z -> Z -> K).
Hypothesis Hn : 1 <= n.
Hypothesis Hc : forall i, 0 <= i < n -> 1 <= cnt i <= m.
Hypothesis Hnn : forall i a, 0 <= i < n -> 0 <= a < cnt i -> 0 <= nn i a < n.
Let off (i : Z) : Z := zsumf cnt 0 i.

Lemma off0 : off 0 = 0%Z. Proof. apply zsumf_empty. lia. Qed.
Lemma offS i : 0 <= i -> off (i + 1) = (off i + cnt i)%Z. Proof. intros. apply zsumf_snoc. lia. Qed.
Lemma off_mon i j : 0 <= i <= j -> j <= n -> off i <= off j.
Proof. intros H1 H2. unfold off. rewrite (zsumf_split cnt 0 i j) by lia. assert (0 <= zsumf cnt i j); [|lia]. apply zsumf_nonneg. intros k Hk. specialize (Hc k ltac:(lia)). lia. Qed.
Lemma off_locate k : forall p, 0 <= p <= n -> 0 <= k < off p -> exists i a, 0 <= i < p /\ 0 <= a < cnt i /\ k = (off i + a)%Z.
Proof.
  intros p Hp. destruct Hp as (Hp & Hpn). revert Hpn. pattern p. apply natlike_ind; [| |exact Hp].
  - intros _ H. rewrite off0 in H. lia.
  - intros q Hq IH Hqn H. unfold Z.succ in *. rewrite offS in H by lia. destruct (Z.lt_ge_cases k (off q)).
    + destruct IH as (i & a & Hi & Ha & E); try lia. exists i, a. split; [lia|]. auto.
    + exists q, (k - off q)%Z. split; [lia|]. split; lia.
Qed.
Lemma off_sum (f : Z -> K) : forall p, 0 <= p -> p <= n -> rsum 0 (off p) f = rsum 0 p (fun i => rsum 0 (cnt i) (fun a => f (off i + a)%Z)).
Proof.
  intros p Hp. pattern p. apply natlike_ind; [| |exact Hp].
  - intros _. rewrite off0, !rsum_empty by lia. auto.
  - intros q Hq IH Hqn. unfold Z.succ in *. rewrite rsum_snoc by lia. rewrite <- IH by lia. rewrite offS by lia.
    pose proof (off_mon 0 q ltac:(lia) ltac:(lia)) as O. rewrite off0 in O. specialize (Hc q ltac:(lia)).
    rewrite (rsum_split 0 (off q)) by lia. f_equal. replace (off q) with (0 + off q)%Z at 1 by lia. replace (off q + cnt q)%Z with (cnt q + off q)%Z by lia.
    rewrite rsum_shift. apply rsum_ext. intros a Ha. f_equal. lia.
Qed.
Lemma off_pos : 1 <= off n.
Proof. replace n with (n - 1 + 1)%Z by lia. rewrite offS by lia. pose proof (off_mon 0 (n - 1) ltac:(lia) ltac:(lia)) as O. rewrite off0 in O. specialize (Hc (n - 1)%Z ltac:(lia)). lia. Qed.

(** The conversion multiplies as the coordinate list does. *)
Lemma csr_is_op (rw cl : Z -> Z -> Z) (row col : list Z) (val : list K) rp ci va (M : Z -> Z -> K) :
  zlen row = off n -> zlen col = off n -> zlen val = off n ->
  (forall i a, 0 <= i < n -> 0 <= a < cnt i -> nthz row (off i + a) = rw i a /\ nthz col (off i + a) = cl i a /\ getk val (off i + a) = v i a) ->
  (forall i a, 0 <= i < n -> 0 <= a < cnt i -> 0 <= cl i a < n) ->
  is_csr n (off n) row col val rp ci va ->
  (forall r j, 0 <= r < n -> 0 <= j < n -> M r j = rsum 0 n (fun i => rsum 0 (cnt i) (fun a => if (rw i a =? r)%Z && (cl i a =? j)%Z then v i a else c0))) ->
  csr_op n rp ci va M.
Proof.
  intros L1 L2 L3 He Hcl Hcsr HM x xo xv y yo Hx Hyo Hz.
  destruct (spmv_spec n n (off n) row col val rp ci va ltac:(lia) L2 L3) with (x := x) (xo := xo) (xv := xv) (y := y) (yo := yo) as (y' & E & Z1 & L); auto.
  { intros k Hk. destruct (off_locate k n ltac:(lia) Hk) as (i & a & Hi & Ha & ->). destruct (He i a Hi Ha) as (_ & -> & _). auto. }
  exists y'. split; auto. split; auto. intros c. rewrite L. destruct (Z.leb_spec yo c), (Z.ltb_spec c (yo + n)); cbn [andb]; auto. f_equal.
  rewrite off_sum by lia. set (r := (c - yo)%Z).
  rewrite (rsum_ext 0 n (fun j => M r j * xv j) (fun j => rsum 0 n (fun i => rsum 0 (cnt i) (fun a => (if (rw i a =? r)%Z && (cl i a =? j)%Z then v i a else c0) * xv j)))).
  2:{ intros j Hj. rewrite HM by (unfold r; lia). rewrite <- rsum_mul_r. apply rsum_ext. intros i Hi. now rewrite <- rsum_mul_r. }
  rewrite (rsum_swap 0 n 0 n (fun j i => rsum 0 (cnt i) (fun a => (if (rw i a =? r)%Z && (cl i a =? j)%Z then v i a else c0) * xv j))). apply rsum_ext. intros i Hi.
  rewrite (rsum_swap 0 n 0 (cnt i) (fun j a => (if (rw i a =? r)%Z && (cl i a =? j)%Z then v i a else c0) * xv j)). apply rsum_ext. intros a Ha.
  destruct (He i a Hi Ha) as (-> & -> & ->). destruct (rw i a =? r)%Z; cbn [andb].
  - rewrite (rsum_only 0 n _ (cl i a)); auto; [rewrite Z.eqb_refl; ring|]. intros j Hj Hne. destruct (Z.eqb_spec (cl i a) j); [congruence|]. ring.
  - symmetry. apply rsum_zero. intros j Hj. ring.
Qed.

Variables (row col : mem Z) (val : mem K) (displs : mem Z).
Hypothesis Zr : zlen row = (n * m)%Z.
Hypothesis Zcl : zlen col = (n * m)%Z.
Hypothesis Zv : zlen val = (n * m)%Z.
Hypothesis Zd : zlen displs = (n + 1)%Z.
Hypothesis Hd0 : ld displs 0 = Some 0%Z.
Hypothesis Hd : forall i, 0 <= i < n -> ld displs (1 + i) = Some (cnt i).
Hypothesis Hrow : forall i a, 0 <= i < n -> 0 <= a < cnt i -> ld row (i * m + a) = Some i.
Hypothesis Hcol : forall i a, 0 <= i < n -> 0 <= a < cnt i -> ld col (i * m + a) = Some (nn i a).
Hypothesis Hval : forall i a, 0 <= i < n -> 0 <= a < cnt i -> ld val (i * m + a) = Some (v i a).

Lemma cpy_part {A} (dst src : mem A) i (g : Z -> Z -> A) (done : list Z) : 0 <= i < n -> zlen dst = off n -> zlen src = (n * m)%Z -> ~ In i done ->
  (forall a, 0 <= a < cnt i -> ld src (i * m + a) = Some (g i a)) ->
  (forall k a, In k done -> 0 <= k < n -> 0 <= a < cnt k -> ld dst (off k + a) = Some (g k a)) ->
  exists dst', mcpy dst (off i) src (i * m) (off i + cnt i - off i) = Some dst' /\ zlen dst' = off n /\
    (forall k a, In k (i :: done) -> 0 <= k < n -> 0 <= a < cnt k -> ld dst' (off k + a) = Some (g k a)).
Proof.
  intros Hi Z1 Z2 Hnd Hs Hdst. pose proof (Hc i Hi) as Ci. replace (off i + cnt i - off i)%Z with (cnt i) by lia.
  pose proof (off_mon 0 i ltac:(lia) ltac:(lia)) as O1. rewrite off0 in O1. pose proof (off_mon (i + 1) n ltac:(lia) ltac:(lia)) as O2. rewrite offS in O2 by lia.
  destruct (mcpy_spec dst (off i) src (i * m) (cnt i)) as (dst' & E & Z3 & G); try lia. 1:nia. 1:nia.
  exists dst'. split; auto. split; [lia|]. intros k a Hk Hkn Ha. unfold ld. rewrite G. destruct Hk as [<-|Hk].
  - rewrite (proj2 (Z.leb_le _ _)), (proj2 (Z.ltb_lt _ _)) by lia. cbn [andb]. replace (i * m + (off i + a - off i))%Z with (i * m + a)%Z by lia. specialize (Hs a Ha). unfold ld in Hs. exact Hs.
  - assert (k <> i) by (intros ->; auto). destruct (Z.leb_spec (off i) (off k + a)), (Z.ltb_spec (off k + a) (off i + cnt i)); cbn [andb].
    1:{ exfalso. destruct (Z.lt_ge_cases k i).
        - pose proof (off_mon (k + 1) i ltac:(lia) ltac:(lia)) as O3. rewrite offS in O3 by lia. lia.
        - pose proof (off_mon (i + 1) k ltac:(lia) ltac:(lia)) as O3. rewrite offS in O3 by lia. lia. }
    all: specialize (Hdst k a Hk Hkn Ha); unfold ld in Hdst; auto.
Qed.

Lemma FSAI_csr_spec ordc ordG ordGT : any_order n ordc -> any_order n ordG -> any_order n ordGT ->
  exists g, FSAI_csr m n row col val displs ordc ordG ordGT = Some g /\
    csr_op n (G_rowptr g) (G_colidx g) (G_val g) (sp_entry cnt nn v) /\
    csr_op n (GT_rowptr g) (GT_colidx g) (GT_val g) (fun i j => sp_entry cnt nn v j i).
Proof.
  intros O1 O2 O3. unfold FSAI_csr.
  destruct (zfor_inv (fun i (d : mem Z) => zlen d = (n + 1)%Z /\ (forall k, 0 <= k < i -> ld d k = Some (off k)) /\ (forall k, i <= k <= n -> ld d k = Some (cnt (k - 1)%Z)))
    1 (n + 1) (fun i d => a <- ld d i; b <- ld d (i - 1)%Z; st d i (a + b)%Z) displs) as (ds & E1 & Z1 & L1 & _).
  - lia.
  - split; auto. split.
    + intros k Hk. replace k with 0%Z by lia. rewrite Hd0, off0. auto.
    + intros k Hk. replace k with (1 + (k - 1))%Z at 1 by lia. apply Hd. lia.
  - intros i d Hi (P1 & P2 & P3). rewrite P3, P2 by lia. cbn [bind]. destruct (st_Some d i (cnt (i - 1) + off (i - 1))%Z ltac:(lia)) as (d' & E). exists d'. split; auto.
    rewrite (st_zlen _ _ _ _ E). split; auto. split.
    + intros k Hk. rewrite (ld_st _ _ _ _ _ E). destruct (Z.eqb_spec i k).
      * subst k. f_equal. replace i with (i - 1 + 1)%Z at 3 by lia. rewrite offS by lia. lia.
      * apply P2. lia.
    + intros k Hk. rewrite (ld_st _ _ _ _ _ E). destruct (Z.eqb_spec i k); [lia|]. apply P3. lia.
  - rewrite E1. cbn [bind]. rewrite (L1 n) by lia. cbn [bind].
    pose proof off_pos as Op.
    match goal with |- context [in_order ordc ?f0 ?s0] => destruct (in_order_inv (fun done (s : mem Z * mem Z * mem K) => let '(r, c, w) := s in
        zlen r = off n /\ zlen c = off n /\ zlen w = off n /\
        (forall k a, In k done -> 0 <= k < n -> 0 <= a < cnt k -> ld r (off k + a) = Some k) /\
        (forall k a, In k done -> 0 <= k < n -> 0 <= a < cnt k -> ld c (off k + a) = Some (nn k a)) /\
        (forall k a, In k done -> 0 <= k < n -> 0 <= a < cnt k -> ld w (off k + a) = Some (v k a))) f0 ordc [] s0) as (((r1 & c1) & v1) & done & E2 & (Y1 & Y2 & Y3 & Y4 & Y5 & Y6) & Hdn) end.
    + eapply any_order_nodup; eauto.
    + intros i _ [].
    + rewrite !zlen_alloc by lia. do 3 (split; [auto|]). split; [|split]; intros k a [].
    + intros done i ((r & c) & w) Hi Hnd (Y1 & Y2 & Y3 & Y4 & Y5 & Y6). apply (any_order_in n) in Hi; auto.
      rewrite !L1 by lia. cbn [bind]. rewrite offS by lia.
      destruct (cpy_part r row i (fun k _ => k) done Hi Y1 Zr Hnd) as (r' & Er & Zr' & Lr'); auto. rewrite Er. cbn [bind].
      destruct (cpy_part c col i nn done Hi Y2 Zcl Hnd) as (c' & Ec & Zc' & Lc'); auto. rewrite Ec. cbn [bind].
      destruct (cpy_part w val i v done Hi Y3 Zv Hnd) as (w' & Ew & Zw' & Lw'); auto. rewrite Ew. cbn [bind].
      eexists. split; [reflexivity|]. cbn beta iota. auto 10.
    + rewrite E2. cbn [bind].
      assert (Hall : forall k, 0 <= k < off n -> exists i a, 0 <= i < n /\ 0 <= a < cnt i /\ In i done /\ k = (off i + a)%Z).
      { intros k Hk. destruct (off_locate k n ltac:(lia) Hk) as (i & a & Hi & Ha & E). exists i, a. repeat split; try lia; auto. apply Hdn. left. eapply any_order_in; eauto. }
      assert (Hdn' : forall i, 0 <= i < n -> In i done) by (intros i Hi; apply Hdn; left; eapply any_order_in; eauto).
      destruct (mem_full r1) as (lr & ->). { intros k Hk. destruct (Hall k ltac:(lia)) as (i & a & Hi & Ha & Hin & ->). eauto. }
      destruct (mem_full c1) as (lc & ->). { intros k Hk. destruct (Hall k ltac:(lia)) as (i & a & Hi & Ha & Hin & ->). eauto. }
      destruct (mem_full v1) as (lv & ->). { intros k Hk. destruct (Hall k ltac:(lia)) as (i & a & Hi & Ha & Hin & ->). eauto. }
      assert (Y3' : zlen lv = off n) by (rewrite <- Y3; symmetry; apply zlen_full). rewrite zlen_full in Y1, Y2.
      assert (Hent : forall i a, 0 <= i < n -> 0 <= a < cnt i -> nthz lr (off i + a) = i /\ nthz lc (off i + a) = nn i a /\ getk lv (off i + a) = v i a).
      { intros i a Hi Ha. specialize (Y4 i a (Hdn' i Hi) Hi Ha). specialize (Y5 i a (Hdn' i Hi) Hi Ha). specialize (Y6 i a (Hdn' i Hi) Hi Ha).
        rewrite ld_full in Y4, Y5. assert (Y6a : getz lv (off i + a) = Some (v i a)) by (rewrite <- Y6; symmetry; apply ld_full). unfold nthz, getk. now rewrite Y4, Y5, Y6a. }
      destruct (coo2csr_spec n (off n) lr lc lv ordG) as (rp & ci & va & E3 & C3); auto.
      { intros k Hk. destruct (Hall k Hk) as (i & a & Hi & Ha & _ & ->). destruct (Hent i a Hi Ha) as (-> & _). auto. }
      destruct (coo2csr_spec n (off n) lc lr lv ordGT) as (rpt & cit & vat & E4 & C4); auto.
      { intros k Hk. destruct (Hall k Hk) as (i & a & Hi & Ha & _ & ->). destruct (Hent i a Hi Ha) as (_ & -> & _). auto. }
      rewrite E3. cbn [bind]. rewrite E4. cbn [bind]. eexists. split; [reflexivity|]. cbn. split.
      * eapply (csr_is_op (fun i _ => i) nn lr lc lv); eauto. intros r j Hr Hj. unfold sp_entry.
        rewrite (rsum_only 0 n _ r); auto.
        -- apply rsum_ext. intros a Ha. rewrite Z.eqb_refl. auto.
        -- intros i Hi Hne. apply rsum_zero. intros a Ha. destruct (Z.eqb_spec i r); [congruence|]. auto.
      * eapply (csr_is_op nn (fun i _ => i) lc lr lv); eauto.
        -- intros i a Hi Ha. destruct (Hent i a Hi Ha) as (? & ? & ?). auto.
        -- intros r j Hr Hj. unfold sp_entry.
           rewrite (rsum_only 0 n _ j); auto.
           ++ apply rsum_ext. intros a Ha. rewrite Z.eqb_refl, andb_true_r. auto.
           ++ intros i Hi Hne. apply rsum_zero. intros a Ha. destruct (Z.eqb_spec i j); [congruence|]. now rewrite andb_false_r.
Qed.
End Apply.

Section ApplyTop.
Context {K : cring}.
Add Ring Kring2 : (cth K).
Local Open Scope ring_K.
Lemma FSAI_apply_spec n (g : fsai K) (M : Z -> Z -> K) (x y t : mem K) xo xv yo t_o : 0 <= n ->
  csr_op n (G_rowptr g) (G_colidx g) (G_val g) M -> csr_op n (GT_rowptr g) (GT_colidx g) (GT_val g) (fun i j => M j i) ->
  (forall j, 0 <= j < n -> ld x (xo + j)%Z = Some (xv j)) -> 0 <= yo -> yo + n <= zlen y -> 0 <= t_o -> t_o + n <= zlen t ->
  exists y' t', FSAI_precond_apply g n x xo y yo t t_o = Some (y', t') /\ zlen y' = zlen y /\ zlen t' = zlen t /\
    (forall c, ld y' c = if (yo <=? c)%Z && (c <? yo + n)%Z then Some (rsum 0 n (fun i => M i (c - yo)%Z * rsum 0 n (fun j => M i j * xv j))) else ld y c).
Proof.
  intros Hn HG HT Hx Hy1 Hy2 Ht1 Ht2. unfold FSAI_precond_apply.
  destruct (HG x xo xv t t_o Hx Ht1 Ht2) as (t' & E1 & Z1 & L1). rewrite E1. cbn [bind].
  destruct (HT t' t_o (fun i => rsum 0 n (fun j => M i j * xv j)) y yo) as (y' & E2 & Z2 & L2); auto.
  { intros j Hj. rewrite L1. rewrite (proj2 (Z.leb_le _ _)), (proj2 (Z.ltb_lt _ _)) by lia. cbn [andb]. now replace (t_o + j - t_o)%Z with j by lia. }
  rewrite E2. cbn [bind]. exists y', t'. auto.
Qed.
End ApplyTop.
