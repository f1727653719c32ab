(** The random sparse matrix and the product with it. *)
From Coq Require Import ZArith List Lia Bool.
From Verif Require Import Base Mem Num CRing Model_Utils Spec_Utils Proof_Utils Model_Dense Spec_Dense Proof_Dense Proof_Gemm Blk Model_FSAI Spec_FSAI Proof_FSAIKnn Proof_Build Model_Rand Spec_Rand Proof_Rand.
Import ListNotations.
Open Scope Z_scope.

Section MM.
Context {K : cring}.
Add Ring Kring : (cth K).
Variable rnd : Z -> Z.
Hypothesis Hr : rand_ok rnd.

Definition is_sign (v : K) : Prop := v = c1 \/ v = copp c1.
Definition signs (p0 : Z) (val0 : mem K) (i : Z) (x : mem K * Z) : Prop := zlen (fst x) = zlen val0 /\ forall t, 0 <= t < i -> exists v, ld (fst x) t = Some v /\ is_sign v.
Definition sign_step := fun (i : Z) (x : mem K * Z) => let '(val, p) := x in val <- st val i (if Z.odd (rnd p) then c1 else copp c1); Some (val, p + 1).
Lemma signs_ok nnz (val : mem K) p : 0 <= nnz <= zlen val -> exists x, zfor 0 nnz sign_step (val, p) = Some x /\ signs p val nnz x.
Proof.
  intros Hn. destruct (zfor_inv (fun i x => signs p val i x) 0 nnz sign_step (val, p)) as (x & E & H); try lia; eauto.
  - split; auto. intros; lia.
  - intros i (v, q) Hi (Zv & Hv). cbn [fst] in *. destruct (st_Some v i (if Z.odd (rnd q) then c1 else copp c1 : K)) as (v' & Ev); [lia|].
    exists (v', q + 1). unfold sign_step. rewrite Ev. split; auto. split; [cbn; rewrite (st_zlen _ _ _ _ Ev); auto|]. intros t Ht. cbn [fst]. rewrite (ld_st _ _ _ _ _ Ev).
    destruct (Z.eqb_spec i t); [|apply Hv; lia]. eexists. split; [reflexivity|]. destruct (Z.odd (rnd q)); [now left|now right].
Qed.

(** Columns 0, ..., i - 1 of the index array are set. *)
Definition cols (k n c : Z) (idx0 : mem Z) (i : Z) (x : mem Z * mem Z * Z) : Prop :=
  let '(idx, flag, _) := x in zlen idx = zlen idx0 /\ k <= zlen flag /\ forall j, 0 <= j < i -> ld idx j = Some (j * c) /\
    exists l, zlen l = c /\ NoDup l /\ (forall r, In r l -> 0 <= r < k) /\ forall t, 0 <= t < c -> ld idx (n + 1 + (j * c + t)) = getz l t.
Definition col_step (fuel : nat) (k n c : Z) := fun i (x : mem Z * mem Z * Z) => let '(idx, flag, p) := x in
    idx <- st idx i (i * c); rand_sample rnd fuel k c idx (n + 1 + i * c) flag p.
Lemma cols_step k n c idx0 fuel i x x' : 0 <= k -> 0 <= c -> 0 <= i < n -> cols k n c idx0 i x -> col_step fuel k n c i x = Some x' -> cols k n c idx0 (i + 1) x'.
Proof.
  destruct x as ((idx & flag) & p). intros Hk Hc Hi (Zi & Zf & Hx) E. unfold col_step in E.
  destruct (st idx i (i * c)) as [id1|] eqn:E1; [|discriminate]. cbn [bind] in E. pose proof (st_zlen _ _ _ _ E1) as Z1.
  assert (Hk0 : k = 0 /\ c = 0 \/ k = 0 /\ 0 < c \/ 0 < k) by lia. destruct Hk0 as [(-> & ->)|[(-> & Hc1)|Hk0]].
  - unfold rand_sample in E. rewrite !zfor_empty in E by lia. cbn [bind] in E. rewrite zfor_empty in E by lia. injection E as <-.
    split; [lia|]. split; auto. intros j Hj. rewrite (ld_st _ _ _ _ _ E1). split; [destruct (Z.eqb_spec i j); [f_equal; lia|apply Hx; lia]|].
    exists []. split; auto. split; [constructor|]. split; [intros r []|]. intros; lia.
  - now destruct (rand_sample_0 _ _ _ _ _ _ _ _ Hc1 E).
  - destruct x' as ((s & f) & q). destruct (rand_sample_partial rnd Hr _ _ _ _ _ _ _ _ _ _ Hk0 Hc Zf E) as (l & Zl & Hd & (Zf' & _) & Zs & Ls).
    split; [congruence|]. split; auto. intros j Hj.
    assert (F : forall a, (n + 1 + i * c <= a < n + 1 + i * c + c -> False) -> ld s a = if i =? a then Some (i * c) else ld idx a).
    { intros a Ha. rewrite Ls, (ld_st _ _ _ _ _ E1). destruct (Z.leb_spec (n + 1 + i * c) a), (Z.ltb_spec a (n + 1 + i * c + c)); cbn; auto; lia. }
    assert (0 <= i * c) by nia. split.
    + rewrite F by nia. destruct (Z.eqb_spec i j); [now subst|]. apply Hx. lia.
    + destruct (Z.eq_dec j i) as [->|Hne].
      * exists l. split; auto. split; [eapply fd_nodup; eauto|]. split; [intros r Hrr; destruct (fd_in _ _ _ _ _ Hd Hrr) as (u & ->); now apply Z.mod_pos_bound|].
        intros t Ht. rewrite Ls. rewrite (proj2 (Z.leb_le _ _)), (proj2 (Z.ltb_lt _ _)) by lia. cbn. f_equal. lia.
      * destruct (Hx j ltac:(lia)) as (_ & l' & L1 & L2 & L3 & L4). exists l'. repeat (split; [assumption|]). intros t Ht. assert (0 <= j * c) by nia. rewrite F by nia.
        rewrite (proj2 (Z.eqb_neq _ _)) by lia. auto.
Qed.
Lemma col_total k n c idx0 i x : 0 < k -> 0 <= c <= k -> 0 <= i < n -> n + 1 + n * c <= zlen idx0 -> fair rnd k -> cols k n c idx0 i x ->
  exists fuel0 x', forall fuel, (fuel0 <= fuel)%nat -> col_step fuel k n c i x = Some x'.
Proof.
  destruct x as ((idx & flag) & p). intros Hk Hc Hi Hz Fr (Zi & Zf & _). assert (0 <= i * c <= n * c) by nia.
  destruct (st_Some idx i (i * c)) as (id1 & E1); [nia|]. destruct (rand_sample_total rnd Hr k c id1 (n + 1 + i * c) flag p Hk Hc Zf) as (fu & s & f & q & H1); auto; [lia| |].
  { rewrite (st_zlen _ _ _ _ E1), Zi. nia. }
  exists fu, (s, f, q). intros fuel Hf. unfold col_step. rewrite E1. cbn [bind]. auto.
Qed.

(** What the generated buffers hold. *)
Definition sparse_bufs (k n c : Z) (V : dmat K) (I : int_vec) : Prop :=
  (forall t, 0 <= t < n * c -> exists v, ld (dm_data V) t = Some v /\ is_sign v) /\
  (forall j, 0 <= j <= n -> ld (iv_data I) j = Some (j * c)) /\
  forall j, 0 <= j < n -> exists l, zlen l = c /\ NoDup l /\ (forall r, In r l -> 0 <= r < k) /\ forall t, 0 <= t < c -> ld (iv_data I) (n + 1 + (j * c + t)) = getz l t.

Lemma gen_shape mx k n (V : dmat K) I l p : 0 <= mx -> 0 <= k -> 0 <= n -> dm_ok V -> iv_holds I l ->
  let c := if mx <=? k then mx else k in exists I1 val p1 f0, 0 <= c <= k /\ n + 1 + n * c + k <= zlen (iv_data I1) /\
    (forall t, 0 <= t < n * c -> exists v, ld val t = Some v /\ is_sign v) /\ cols k n c (iv_data I1) 0 (iv_data I1, f0, p1) /\
    forall fuel, gen_rand_sparse_mat_trans rnd fuel mx k n V I p = ('(idx, flag, p) <- zfor 0 n (col_step fuel k n c) (iv_data I1, f0, p1);
      idx <- st idx n (n * c); Some (dm_set_data (dm_resize V 1 (n * c)) val, mkIV (iv_cap I1) (n + 1 + n * c) idx, p)).
Proof.
  intros Hm Hk Hn HV HI c. assert (Hc : 0 <= c <= k) by (unfold c; destruct (Z.leb_spec mx k); lia).
  destruct (iv_set_capacity_spec I l (n + 1 + n * c + k) HI) as (I1 & E1 & (H1 & _) & Hcap).
  destruct (dm_resize_ok V 1 (n * c) HV ltac:(lia) ltac:(nia)) as (_ & _ & _ & _ & R5).
  destruct (signs_ok (n * c) (dm_data (dm_resize V 1 (n * c))) p ltac:(nia)) as ((val & p1) & Ev & (Zv & Hv)). cbn [fst] in *.
  exists I1, val, p1, (arr (4 * k) (Some 0)). split; auto. split; [lia|]. split; auto. split.
  { split; auto. split; [|intros; lia]. pose proof (zlen_arr (4 * k) (Some 0) ltac:(lia)). lia. }
  intros fuel. unfold gen_rand_sparse_mat_trans. fold c. rewrite E1. cbn [bind]. fold sign_step. rewrite Ev. cbn [bind]. reflexivity.
Qed.
Lemma gen_partial fuel mx k n (V : dmat K) I l p V' I' p' : 0 <= mx -> 0 <= k -> 0 <= n -> dm_ok V -> iv_holds I l ->
  gen_rand_sparse_mat_trans rnd fuel mx k n V I p = Some (V', I', p') -> sparse_bufs k n (Z.min mx k) V' I'.
Proof.
  intros Hm Hk Hn HV HI E. destruct (gen_shape mx k n V I l p Hm Hk Hn HV HI) as (I1 & val & p1 & f0 & Hc & Hz & Hval & H0 & E0). rewrite E0 in E. clear E0.
  replace (Z.min mx k) with (if mx <=? k then mx else k) by (destruct (Z.leb_spec mx k); lia). set (c := if mx <=? k then mx else k) in *.
  destruct (zfor 0 n (col_step fuel k n c) (iv_data I1, f0, p1)) as [((idx & f) & q)|] eqn:Ez; [|discriminate]. cbn [bind] in E.
  destruct (st idx n (n * c)) as [id2|] eqn:E2; [|discriminate]. cbn [bind] in E. injection E as <- <- <-.
  assert (H : cols k n c (iv_data I1) n (idx, f, q)).
  { apply (zfor_inv_partial (fun i x => cols k n c (iv_data I1) i x) _ _ _ _ _ Ez Hn H0). intros i x x' Hi Hx Ex. eapply cols_step; eauto; lia. }
  destruct H as (Zi & Zf & Hx). split; [exact Hval|]. cbn [iv_data]. split.
  - intros j Hj. rewrite (ld_st _ _ _ _ _ E2). destruct (Z.eqb_spec n j); [now subst|]. apply Hx. lia.
  - intros j Hj. destruct (Hx j Hj) as (_ & l' & L1 & L2 & L3 & L4). exists l'. repeat (split; [assumption|]). intros t Ht. rewrite (ld_st _ _ _ _ _ E2).
    assert (0 <= j * c) by nia. rewrite (proj2 (Z.eqb_neq _ _)) by lia. auto.
Qed.
Lemma gen_total mx k n (V : dmat K) I l p : 0 <= mx -> 0 < k -> 0 <= n -> dm_ok V -> iv_holds I l -> fair rnd k ->
  exists fuel0 V' I' p', forall fuel, (fuel0 <= fuel)%nat -> gen_rand_sparse_mat_trans rnd fuel mx k n V I p = Some (V', I', p').
Proof.
  intros Hm Hk Hn HV HI Fr. destruct (gen_shape mx k n V I l p Hm ltac:(lia) Hn HV HI) as (I1 & val & p1 & f0 & Hc & Hz & Hval & H0 & E0).
  set (c := if mx <=? k then mx else k) in *.
  enough (H : forall m : nat, Z.of_nat m <= n -> exists fuel0 x, cols k n c (iv_data I1) (Z.of_nat m) x /\
     forall fuel, (fuel0 <= fuel)%nat -> zfor 0 (Z.of_nat m) (col_step fuel k n c) (iv_data I1, f0, p1) = Some x).
  { destruct (H (Z.to_nat n) ltac:(lia)) as (fu & ((idx & f) & q) & (Zi & _) & Hx). rewrite Z2Nat.id in Hx by lia. destruct (st_Some idx n (n * c)) as (id2 & E2); [nia|].
    exists fu. do 3 eexists. intros fuel Hfu. rewrite E0, Hx by auto. cbn [bind]. rewrite E2. cbn [bind]. reflexivity. }
  induction m as [|m IH]; intros Hm'.
  - exists O, (iv_data I1, f0, p1). split; [exact H0|]. intros fuel _. now rewrite zfor_empty by lia.
  - destruct IH as (fu & x & Hx & IH); [lia|]. destruct (col_total k n c (iv_data I1) (Z.of_nat m) x Hk Hc ltac:(lia) ltac:(lia) Fr Hx) as (fu2 & x' & E2).
    exists (Nat.max fu fu2), x'. rewrite Nat2Z.inj_succ. unfold Z.succ. split; [exact (cols_step k n c (iv_data I1) fu2 (Z.of_nat m) x x' ltac:(lia) ltac:(lia) ltac:(lia) Hx (E2 fu2 (Nat.le_refl _)))|].
    intros fuel Hfu. rewrite zfor_last by lia. rewrite IH by lia. cbn [bind]. apply E2. lia.
Qed.

Local Open Scope ring_K.
(** The matrix in the buffers. *)
Definition buf_matrix (n c : Z) (V : dmat K) (I : int_vec) (r j : Z) : K :=
  rsum 0 c (fun t => match ld (iv_data I) (n + 1 + (j * c + t)), ld (dm_data V) (j * c + t) with Some r', Some v => if Z.eqb r' r then v else c0 | _, _ => c0 end).
Lemma buf_signs k n c V I : (0 <= c)%Z -> sparse_bufs k n c V I -> sparse_signs k n c (buf_matrix n c V I).
Proof.
  intros Hc (Hv & Hp & Hj) j Hj0. destruct (Hj j Hj0) as (l & Zl & Nd & Rl & Ll). exists l. split; auto. split; auto. split; auto.
  assert (B : forall t, (0 <= t < c)%Z -> (0 <= j * c + t < n * c)%Z) by (intros; nia). split.
  - intros r Hi. destruct (In_getz _ _ Hi) as (t & Et). pose proof (getz_range _ _ _ Et). unfold buf_matrix. rewrite (rsum_only 0 c _ t); [|lia|].
    + rewrite Ll, Et by lia. destruct (Hv (j * c + t)%Z) as (v & -> & Sv); [apply B; lia|]. rewrite Z.eqb_refl. exact Sv.
    + intros u Hu Hne. rewrite Ll by lia. destruct (getz_in l u) as (r' & Er); [lia|]. rewrite Er. destruct (Hv (j * c + u)%Z) as (v & -> & _); [apply B; lia|].
      destruct (Z.eqb_spec r' r); auto. subst r'. exfalso. apply Hne. eapply NoDup_getz; eauto.
  - intros r Hi. unfold buf_matrix. apply rsum_zero. intros u Hu. rewrite Ll by lia. destruct (getz_in l u) as (r' & Er); [lia|]. rewrite Er.
    destruct (Hv (j * c + u)%Z) as (v & -> & _); [apply B; lia|]. destruct (Z.eqb_spec r' r); auto. subst r'. exfalso. apply Hi. eapply getz_In; eauto.
Qed.
Lemma mm_entry k n c V I (x : mem K) ldx i X j : (0 <= c)%Z -> sparse_bufs k n c V I -> (forall r, (0 <= r < k)%Z -> ld x (i * ldx + r)%Z = Some (X r)) -> (0 <= j < n)%Z ->
  zfor (j * c) ((j + 1) * c) (fun l res => v <- ld (dm_data V) l; q <- ld (iv_data I) (n + 1 + l)%Z; w <- ld x (i * ldx + q)%Z; Some (cadd res (cmul v w))) c0
  = Some (rsum 0 k (fun r => X r * buf_matrix n c V I r j)).
Proof.
  intros Hc (Hv & Hp & Hj) Hx Hj0. destruct (Hj j Hj0) as (l & Zl & Nd & Rl & Ll).
  assert (B : forall t, (0 <= t < c)%Z -> (0 <= j * c + t < n * c)%Z) by (intros; nia).
  set (g := fun t => match ld (iv_data I) (n + 1 + (j * c + t))%Z, ld (dm_data V) (j * c + t)%Z with Some r', Some v => v * X r' | _, _ => c0 end).
  destruct (zfor_inv (fun e s => s = rsum 0 (e - j * c) g) (j * c) ((j + 1) * c) (fun l res => v <- ld (dm_data V) l; q <- ld (iv_data I) (n + 1 + l)%Z; w <- ld x (i * ldx + q)%Z; Some (cadd res (cmul v w))) c0) as (s & -> & ->); [nia| | |].
  - rewrite Z.sub_diag. reflexivity.
  - intros e s He ->. assert (Ht : (0 <= e - j * c < c)%Z) by nia. 
    pose proof (Ll _ Ht) as Lt. destruct (Hv _ (B _ Ht)) as (v & Ev & _). destruct (getz_in l (e - j * c)%Z) as (r & Er); [lia|]. pose proof Ev as Ev2. pose proof Lt as Lt2. replace (j * c + (e - j * c))%Z with e in Ev2, Lt2 by lia. rewrite Ev2, Lt2, Er. cbn [bind].
    rewrite Hx by (apply Rl; eapply getz_In; eauto). cbn [bind]. eexists. split; [reflexivity|]. replace (e + 1 - j * c)%Z with (e - j * c + 1)%Z by lia. rewrite rsum_snoc by lia. f_equal.
    unfold g. rewrite Ev, Lt, Er. reflexivity.
  - f_equal. replace ((j + 1) * c - j * c)%Z with c by lia. transitivity (rsum 0 k (fun r => rsum 0 c (fun t => X r * match ld (iv_data I) (n + 1 + (j * c + t))%Z, ld (dm_data V) (j * c + t)%Z with Some r', Some v => if Z.eqb r' r then v else c0 | _, _ => c0 end))).
    2:{ apply rsum_ext. intros r _. unfold buf_matrix. now rewrite rsum_mul_l. }
    rewrite rsum_swap. apply rsum_ext. intros t Ht. unfold g. pose proof (Ll _ Ht) as Lt. destruct (Hv _ (B _ Ht)) as (v & Ev & _). destruct (getz_in l t) as (r & Er); [lia|]. rewrite Lt, Er, Ev.
    rewrite (rsum_only 0 k _ r); [|apply Rl; eapply getz_In; eauto|].
    + rewrite Z.eqb_refl. ring.
    + intros r' _ Hne. rewrite (proj2 (Z.eqb_neq r r')) by auto. ring.
Qed.
Theorem mm_spec m k n c V I (x : mem K) ldx X (y : mem K) ldy ord : (0 <= c)%Z -> (0 <= n)%Z -> sparse_bufs k n c V I -> any_order m ord ->
  holds x 0 ldx m k X -> (n <= ldy)%Z -> ((m - 1) * ldy + n <= zlen y)%Z ->
  exists y', calc_sparse_mm_trans ord n V I x ldx y ldy = Some y' /\ zlen y' = zlen y /\
    holds y' 0 ldy m n (fun i j => rsum 0 k (fun r => X i r * buf_matrix n c V I r j)) /\
    forall a, (forall i j, (0 <= i < m)%Z -> (0 <= j < n)%Z -> a <> (i * ldy + j)%Z) -> ld y' a = ld y a.
Proof.
  intros Hc Hn HB Ho Hx Hl Hz. unfold calc_sparse_mm_trans.
  set (g := fun i j => rsum 0 k (fun r => X i r * buf_matrix n c V I r j)).
  destruct (in_order_inv (fun done (y' : mem K) => zlen y' = zlen y /\ (forall i j, In i done -> (0 <= i < m)%Z -> (0 <= j < n)%Z -> ld y' (i * ldy + j)%Z = Some (g i j)) /\
     forall a, (forall i j, In i done -> (0 <= i < m)%Z -> (0 <= j < n)%Z -> a <> (i * ldy + j)%Z) -> ld y' a = ld y a)
     (sparse_mm_row n (dm_data V) (iv_data I) x ldx ldy) ord [] y (any_order_nodup _ _ Ho)) as (y' & done & E & (Z1 & L1 & F1) & Hd); auto.
  - split; auto. split; [intros i j []|]. intros a _. reflexivity.
  - intros done i s Hi Hnd (Zs & Ls & Fs). apply (any_order_in _ _ _ Ho) in Hi.
    assert (E : sparse_mm_row n (dm_data V) (iv_data I) x ldx ldy i s = zfor 0 n (fun j y => st y (i * ldy + j)%Z (g i j)) s).
    { unfold sparse_mm_row. apply zfor_ext. intros j y0 Hj. destruct HB as (Hv & Hp & Hcols). rewrite !Hp by lia. cbn [bind].
      rewrite (mm_entry k n c V I x ldx i (X i) j Hc); auto; [split; auto|]. intros r Hrr. apply (Hx i r Hi Hrr). }
    destruct (st_loop (g i) (i * ldy) n s Hn ltac:(nia) ltac:(nia)) as (s' & Es & Zs' & Ls'). exists s'. split; [congruence|]. split; [lia|]. split.
    + intros a b [<-|Ha] Ham Hb; rewrite Ls'.
      * rewrite (proj2 (Z.leb_le _ _)), (proj2 (Z.ltb_lt _ _)) by lia. cbn. do 2 f_equal. lia.
      * assert (a <> i) by (intros ->; auto). destruct (Z.leb_spec (i * ldy) (a * ldy + b)), (Z.ltb_spec (a * ldy + b) (i * ldy + n)); cbn; auto. exfalso. nia.
    + intros a Ha. rewrite Ls'. destruct (Z.leb_spec (i * ldy) a), (Z.ltb_spec a (i * ldy + n)); cbn.
      1:{ exfalso. apply (Ha i (a - i * ldy)%Z); [now left|lia|lia|lia]. }
      all: apply Fs; intros p q Hp; apply Ha; now right.
  - exists y'. split; auto. split; auto. split.
    + intros i j Hi Hj. apply L1; auto. apply Hd. left. now apply (any_order_in _ _ _ Ho).
    + intros a Ha. apply F1. intros i j _. apply Ha.
Qed.
End MM.
