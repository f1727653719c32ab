(** H2P_matmul: the blocks of a built representation as families, and the product. *)
From Coq Require Import ZArith List Lia Bool Permutation.
From Verif Require Import Base Mem Num CRing Conc Model_Utils Spec_Utils Proof_Utils Model_Dense Spec_Dense Proof_Dense Proof_Dense2 Model_Partition Spec_Tree Model_CSR Model_Matvec Spec_Matvec
  Model_Build Spec_Build Proof_Build Proof_Gemv Proof_MvTree Proof_MvFwd Proof_MvMid Proof_MvBwd Proof_MvTop Proof_MvCor Proof_BuildUse Model_Matmul Proof_Gemm Proof_MmFwd Proof_MmMid Proof_MmBwd Proof_MmTop.
Import ListNotations.
Open Scope Z_scope.

(** ** Retrieval keeps the buffer's size record *)
Lemma view_gview {K : cring} (o : dmat K) (tr : bool) nrow ncol (f : Z -> Z -> K) : block_view o tr nrow ncol f -> 0 < ncol ->
  gview o (if tr then ncol else nrow) (if tr then nrow else ncol) (if tr then (fun r c => f c r) else f).
Proof.
  intros (E1 & E2 & E3 & V) Hc. unfold gview, view. rewrite E3, E1, E2. destruct tr.
  - destruct (Z.ltb_spec 0 (- ncol)); [lia|]. rewrite Z.opp_involutive. split; [auto|]. split; [auto|]. intros r c Hr Hc'. apply V; auto.
  - destruct (Z.ltb_spec 0 ncol); [|lia]. split; [auto|]. split; [auto|]. auto.
Qed.

Definition keeps_zlen {K : cring} (eval : Z -> Z -> mem K -> Z -> option (mem K)) : Prop :=
  forall n0 n1 mat off m', eval n0 n1 mat off = Some m' -> zlen m' = zlen mat.

Lemma zfor_zlen {A} lo hi (f : Z -> mem A -> option (mem A)) m m' : (forall i x x', f i x = Some x' -> zlen x' = zlen x) ->
  zfor lo hi f m = Some m' -> zlen m' = zlen m.
Proof.
  intros Hf H. destruct (Z.le_gt_cases lo hi) as [Hle|Hgt].
  - apply (zfor_inv_partial (fun _ (d : mem A) => zlen d = zlen m) lo hi f m m' H Hle); auto.
    intros i x x' _ Hx E. rewrite (Hf _ _ _ E). auto.
  - rewrite zfor_empty in H by lia. congruence.
Qed.

Lemma mcpy_zlen {A} (dst : mem A) doff src soff n d : mcpy dst doff src soff n = Some d -> zlen d = zlen dst.
Proof.
  unfold mcpy. apply zfor_zlen. intros i x x' E. destruct (getz src (soff + i)); [|discriminate]. cbn [bind] in E. eapply setz_zlen; eauto.
Qed.

Lemma copy_matrix_zlen {A} nrow ncol (src : mem A) soff lds dst doff ldd d : copy_matrix nrow ncol src soff lds dst doff ldd = Some d -> zlen d = zlen dst.
Proof. unfold copy_matrix. apply zfor_zlen. intros i x x' E. eapply mcpy_zlen; eauto. Qed.

Ltac bind_inv H := repeat match type of H with
  | bind ?e _ = Some _ => let x := fresh "x" in destruct e as [x|]; [cbn [bind] in H|discriminate]
  | (if ?b then _ else _) = Some _ => destruct b
  | None = Some _ => discriminate
  end.

Section Evals.
Context {F : num} {K : cring}.
Variable kern : list F -> list F -> Z -> Z -> K.
Lemma krnl_eval_zlen dim kdim cs0 o0 ld0 n0 cs1 o1 ld1 n1 mat off ldm m' :
  krnl_eval kern dim kdim cs0 o0 ld0 n0 cs1 o1 ld1 n1 mat off ldm = Some m' -> zlen m' = zlen mat.
Proof.
  unfold krnl_eval. apply zfor_zlen. intros i x x' E. bind_inv E. revert E. apply zfor_zlen. intros j y y' E. bind_inv E.
  revert E. apply zfor_zlen. intros a z z' E. revert E. apply zfor_zlen. intros b w w' E. eapply st_zlen; eauto.
Qed.
Lemma eval_B_zlen c : keeps_zlen (eval_B kern c).
Proof. intros n0 n1 mat off m' H. unfold eval_B in H. bind_inv H; eapply krnl_eval_zlen; eauto. Qed.
Lemma eval_D_zlen c : keeps_zlen (eval_D kern c).
Proof. intros n0 n1 mat off m' H. unfold eval_D in H. bind_inv H; eapply krnl_eval_zlen; eauto. Qed.

Lemma get_block_ok (eval : Z -> Z -> mem K -> Z -> option (mem K)) m data regen n0 n1 out o : keeps_zlen eval ->
  dm_ok out -> get_block eval m data regen n0 n1 out = Some (Some o) -> 0 <= dm_nrow o -> 0 <= dm_ncol o -> dm_ok o.
Proof.
  intros He Ho H Hr Hc. unfold get_block in H. destruct (csr_get _ _ _ n0 n1) as [v|]; [cbn [bind] in H|discriminate].
  destruct (v =? 0); [discriminate|]. destruct (if v <? 0 then _ else _) as [[[tr idx] m0] m1].
  destruct (ld (bm_nrow m) (idx - 1)) as [nrow|] eqn:En; [cbn [bind] in H|discriminate].
  destruct (ld (bm_ncol m) (idx - 1)) as [ncol|] eqn:Em; [cbn [bind] in H|discriminate].
  assert (Hz : 0 <= nrow /\ 0 <= ncol).
  { destruct (if regen then _ else _) as [d|]; [cbn [bind] in H|discriminate]. injection H as <-.
    unfold dm_resize in Hr, Hc. revert Hr Hc. destruct (dm_size out <? nrow * ncol); destruct tr; cbn; auto. }
  destruct (Proof_Dense.dm_resize_ok out nrow ncol Ho (proj1 Hz) (proj2 Hz)) as (Ho' & _). cbv zeta in Ho'. set (o' := dm_resize out nrow ncol) in *.
  destruct (if regen then _ else _) as [d|] eqn:Ed; [cbn [bind] in H|discriminate].
  assert (Zd : zlen d = zlen (dm_data o')).
  { destruct regen; [eapply He; eauto|]. bind_inv Ed. eapply copy_matrix_zlen; eauto. }
  injection H as <-. unfold dm_ok in *. destruct tr; cbn; rewrite Zd; auto.
Qed.
End Evals.

(** ** Sums over the entries of a CSR structure *)
Section Sums.
Context {K : cring}.
Add Ring Kring : (cth K).
Local Open Scope ring_K.

Lemma lsum_flat_map {A B} (f : B -> K) (g : A -> list B) l : lsum f (flat_map g l) = lsum (fun a => lsum f (g a)) l.
Proof. induction l as [|x l IH]; cbn [flat_map]; [reflexivity|]. now rewrite lsum_app, lsum_cons, IH. Qed.

Lemma sum_rows {E} (T : Z -> E -> K) (key : E -> Z) nn l : (forall e, In e l -> 0 <= key e < nn) ->
  rsum 0 nn (fun i => lsum (T i) (filter (fun e => key e =? i) l)) = lsum (fun e => T (key e) e) l.
Proof.
  induction l as [|e l IH]; intros H.
  - rewrite lsum_nil. apply rsum_zero. intros i Hi. reflexivity.
  - rewrite lsum_cons, <- IH by (intros; apply H; now right).
    rewrite (rsum_ext 0 nn _ (fun i => (if key e =? i then T i e else c0) + lsum (T i) (filter (fun e => key e =? i) l))).
    2:{ intros i Hi. cbn [filter]. destruct (key e =? i); [now rewrite lsum_cons|ring]. }
    rewrite rsum_add. f_equal. assert (Hk : 0 <= key e < nn) by (apply H; now left).
    rewrite (rsum_only 0 nn _ (key e) Hk); [now rewrite Z.eqb_refl|]. intros i Hi Hn. destruct (Z.eqb_spec (key e) i); [congruence|auto].
Qed.
End Sums.

(** ** The concrete families *)
Section Fams.
Context {F : num} {K : cring}.
Add Ring Kring : (cth K).
Local Open Scope ring_K.
Variable h : h2rep F K.
Hypothesis R : rep_ok h.

Notation entry := (Z * Z * Z)%type.
Definition e_own (e : entry) : Z := fst (fst e).
Definition e_part (e : entry) : Z := snd (fst e).
Definition e_idx (e : entry) : Z := (Z.abs (snd e) - 1)%Z.
Definition e_tr (e : entry) : bool := snd e <? 0.

Definition famB : family (K := K) entry := {|
  fm_ents := fun n => filter (fun e => fst (fst e) =? n) (pair_entries 0 (h_adm h) (zlen (h_adm h)));
  fm_part := e_part;
  fm_nr := fun e => if e_tr e then Bncol h (e_idx e) else Bnrow h (e_idx e);
  fm_nc := fun e => if e_tr e then Bnrow h (e_idx e) else Bncol h (e_idx e);
  fm_bv := fun e => if e_tr e then (fun r c => Bval h (e_idx e) c r) else Bval h (e_idx e) |}.
Definition entsD : list entry := leaf_entries (leaf h) (h_nleaf h) ++ pair_entries (h_nleaf h) (h_inadm h) (zlen (h_inadm h)).
Definition famD : family (K := K) entry := {|
  fm_ents := fun n => filter (fun e => fst (fst e) =? n) entsD;
  fm_part := e_part;
  fm_nr := fun e => msize h (e_own e);
  fm_nc := fun e => msize h (e_part e);
  fm_bv := fun e => if e_tr e then (fun r c => Dval h (e_idx e) c r) else Dval h (e_idx e) |}.

Lemma nonneg_nleaf : 0 <= h_nleaf h.
Proof. destruct (leaf_list h R) as (ns & E & _). pose proof (zlen_nonneg ns). lia. Qed.

Lemma entB e : In e (pair_entries 0 (h_adm h) (zlen (h_adm h))) ->
  0 <= e_idx e < zlen (h_adm h) /\ getz (h_adm h) (e_idx e) = Some (if e_tr e then (e_part e, e_own e) else (e_own e, e_part e)).
Proof.
  destruct e as [[i j] v]. intros H. apply pair_entries_In in H as (k & Hk & [[G ->]|[G ->]]); [| |lia]; unfold e_idx, e_tr, e_own, e_part; cbn [fst snd].
  - destruct (Z.ltb_spec (0 + k + 1) 0); [lia|]. replace (Z.abs (0 + k + 1) - 1)%Z with k by lia. auto.
  - destruct (Z.ltb_spec (- (0 + k + 1)) 0); [|lia]. replace (Z.abs (- (0 + k + 1)) - 1)%Z with k by lia. auto.
Qed.
Lemma entD e : In e entsD -> (0 <= e_idx e < h_nleaf h /\ e_tr e = false /\ e_own e = leaf h (e_idx e) /\ e_part e = leaf h (e_idx e)) \/
  (h_nleaf h <= e_idx e < h_nleaf h + zlen (h_inadm h) /\ getz (h_inadm h) (e_idx e - h_nleaf h) = Some (if e_tr e then (e_part e, e_own e) else (e_own e, e_part e))).
Proof.
  pose proof nonneg_nleaf. destruct e as [[i j] v]. intros H0. apply in_app_or in H0 as [H0|H0].
  - left. unfold leaf_entries in H0. apply in_map_iff in H0 as (k & Q & Hk). apply In_zrange in Hk. injection Q as <- <- <-. unfold e_idx, e_tr, e_own, e_part; cbn [fst snd].
    replace (Z.abs (k + 1) - 1)%Z with k by lia. destruct (Z.ltb_spec (k + 1) 0); [lia|]. auto.
  - right. apply pair_entries_In in H0 as (k & Hk & [[G ->]|[G ->]]); [| |lia]; unfold e_idx, e_tr, e_own, e_part; cbn [fst snd].
    + destruct (Z.ltb_spec (h_nleaf h + k + 1) 0); [lia|]. replace (Z.abs (h_nleaf h + k + 1) - 1)%Z with (h_nleaf h + k)%Z by lia. replace (h_nleaf h + k - h_nleaf h)%Z with k by lia. split; [lia|auto].
    + destruct (Z.ltb_spec (- (h_nleaf h + k + 1)) 0); [|lia]. replace (Z.abs (- (h_nleaf h + k + 1)) - 1)%Z with (h_nleaf h + k)%Z by lia. replace (h_nleaf h + k - h_nleaf h)%Z with k by lia. split; [lia|auto].
Qed.

Lemma Bdims k n0 n1 : getz (h_adm h) k = Some (n0, n1) ->
  0 <= n0 < h_nnode h /\ 0 <= n1 < h_nnode h /\ h_minlevel h <= Z.max (level h n0) (level h n1) /\
  Bnrow h k = (if level h n1 <=? level h n0 then rank h n0 else msize h n0) /\ Bncol h k = (if level h n0 <=? level h n1 then rank h n1 else msize h n1) /\
  1 <= Bnrow h k /\ 1 <= Bncol h k.
Proof.
  intros G. destruct (ro_adm _ R _ _ _ G) as (A0 & A1 & _ & A2). destruct (ro_B _ R _ _ _ G) as (p & nr & nc & _ & B2 & B3 & B4 & B5 & _).
  unfold Bnrow, Bncol. rewrite B2, B3. cbn [val]. do 3 (split; [auto|]). split; [auto|]. split; [auto|].
  assert (X : forall n m, 0 <= n < h_nnode h -> 0 <= m < h_nnode h -> h_minlevel h <= Z.max (level h n) (level h m) -> 1 <= (if level h m <=? level h n then rank h n else msize h n)).
  { intros n m Hn Hm Hl. destruct (Z.leb_spec (level h m) (level h n)); [|destruct (cluster_range h R n Hn); lia].
    destruct (ro_U _ R) as (ZU & HU). unfold rank. destruct (getz_in (h_U h) n ltac:(lia)) as [V EV]. rewrite EV.
    destruct (HU n V EV) as (_ & H2). destruct H2 as (H2 & _); [lia|]. exact H2. }
  subst nr nc. split; apply X; auto. lia.
Qed.

Lemma HentB n0 e : 0 <= n0 < h_nnode h -> In e (fm_ents famB n0) ->
  0 <= fm_part famB e < h_nnode h /\ h_minlevel h <= Z.max (level h n0) (level h (fm_part famB e)) /\
  fm_nr famB e = (if level h (fm_part famB e) <=? level h n0 then rank h n0 else msize h n0) /\
  fm_nc famB e = (if level h n0 <=? level h (fm_part famB e) then rank h (fm_part famB e) else msize h (fm_part famB e)) /\
  (forall n, ld (h_nr h) n0 = Some n -> n <> 0).
Proof.
  intros Hn0 Hin. cbn [fm_ents famB] in Hin. apply filter_In in Hin as [Hin Hf]. apply Z.eqb_eq in Hf. change (e_own e = n0) in Hf.
  destruct (entB e Hin) as (Hk & G). cbn [fm_part fm_nr fm_nc famB].
  assert (Hnr : forall n, ld (h_nr h) n0 = Some n -> n <> 0).
  { intros n En. destruct (ro_nr _ R) as [_ Hnr]. destruct (Hnr n0 Hn0) as (n' & En' & Hx). assert (n' = n) by congruence. subst n'. apply Hx.
    exists (e_idx e). destruct (e_tr e); eauto 10. }
  destruct (e_tr e); destruct (Bdims _ _ _ G) as (A0 & A1 & A2 & A3 & A4 & _); rewrite Hf in *; repeat (split; [try assumption; try lia|]); auto.
Qed.

Lemma HentD n0 e : 0 <= n0 < h_nnode h -> In e (fm_ents famD n0) ->
  0 <= fm_part famD e < h_nnode h /\ fm_nr famD e = msize h n0 /\ fm_nc famD e = msize h (fm_part famD e).
Proof.
  intros Hn0 Hin. cbn [fm_ents famD] in Hin. apply filter_In in Hin as [Hin Hf]. apply Z.eqb_eq in Hf. change (e_own e = n0) in Hf.
  cbn [fm_part fm_nr fm_nc famD]. split; [|rewrite Hf; auto].
  destruct (entD e Hin) as [(Hk & _ & _ & Ep)|(Hk & G)].
  - rewrite Ep. apply (leaf_at h R); auto.
  - destruct (e_tr e); destruct (ro_inadm _ R _ _ _ G); auto.
Qed.

Section XV.
Variables (xv : Z -> Z -> K) (l : Z).
Let x q := xv q l.

Lemma pair_terms k n0 n1 p : getz (h_adm h) k = Some (n0, n1) -> 0 <= k ->
  term h famB xv n0 (n0, n1, 0 + k + 1)%Z p l + term h famB xv n1 (n1, n0, - (0 + k + 1))%Z p l = pairc h x k p.
Proof.
  intros G Hk. rewrite <- (pairc_bi h x k n0 n1 p G). unfold term, wval, bi_term. cbn [fm_nr fm_nc fm_bv fm_part famB].
  unfold e_tr, e_idx, e_part. cbn [fst snd]. destruct (Z.ltb_spec (0 + k + 1) 0); [lia|]. destruct (Z.ltb_spec (- (0 + k + 1)) 0); [|lia].
  replace (Z.abs (0 + k + 1) - 1)%Z with k by lia. replace (Z.abs (- (0 + k + 1)) - 1)%Z with k by lia.
  rewrite rsum_add. f_equal. rewrite rsum_swap. apply rsum_ext. intros c Hc. rewrite <- rsum_mul_l. apply rsum_ext. intros r Hr. reflexivity.
Qed.

Lemma inside_sum n p (g : Z -> K) : 0 <= n < h_nnode h ->
  rsum 0 (msize h n) (fun r => (if (p =? mfirst h n + r)%Z then c1 else c0) * g r) = if inside h n p then g (p - mfirst h n)%Z else c0.
Proof.
  intros Hn. destruct (inside h n p) eqn:Ei.
  - apply (inside_iff h) in Ei. rewrite (rsum_only 0 (msize h n) _ (p - mfirst h n)); [|lia|].
    + destruct (Z.eqb_spec p (mfirst h n + (p - mfirst h n))); [ring|lia].
    + intros r Hr Hne. destruct (Z.eqb_spec p (mfirst h n + r)); [lia|ring].
  - apply rsum_zero. intros r Hr. destruct (Z.eqb_spec p (mfirst h n + r)); [|ring]. exfalso.
    assert (inside h n p = true) by (apply (inside_iff h); lia). congruence.
Qed.

Lemma off_terms k n0 n1 p : getz (h_inadm h) k = Some (n0, n1) -> 0 <= k ->
  dterm h famD xv n0 (n0, n1, h_nleaf h + k + 1)%Z p l + dterm h famD xv n1 (n1, n0, - (h_nleaf h + k + 1))%Z p l = offc h x k p.
Proof.
  intros G Hk. pose proof nonneg_nleaf. destruct (ro_inadm _ R _ _ _ G) as (N0 & N1). rewrite <- (offc_bi h R x k n0 n1 p G). unfold dterm, bi_term. cbn [fm_nr fm_nc fm_bv fm_part famD].
  unfold e_tr, e_idx, e_part. cbn [fst snd]. destruct (Z.ltb_spec (h_nleaf h + k + 1) 0); [lia|]. destruct (Z.ltb_spec (- (h_nleaf h + k + 1)) 0); [|lia].
  replace (Z.abs (h_nleaf h + k + 1) - 1)%Z with (h_nleaf h + k)%Z by lia. replace (Z.abs (- (h_nleaf h + k + 1)) - 1)%Z with (h_nleaf h + k)%Z by lia.
  rewrite rsum_add. f_equal.
  - rewrite inside_sum by auto. reflexivity.
  - rewrite rsum_swap. rewrite (rsum_ext 0 (msize h n1) _ (fun c => (if (p =? mfirst h n1 + c)%Z then c1 else c0) * rsum 0 (msize h n0) (fun r => Dval h (h_nleaf h + k) r c * x (mfirst h n0 + r)%Z))).
    + rewrite inside_sum by auto. reflexivity.
    + intros c Hc. now rewrite rsum_mul_l.
Qed.

Lemma diag_term k p : 0 <= k < h_nleaf h -> dterm h famD xv (leaf h k) (leaf h k, leaf h k, k + 1)%Z p l = diagc h x k p.
Proof.
  intros Hk. destruct (leaf_at h R k Hk) as (_ & Rl). unfold dterm, diagc, diag_block. cbn [fm_nr fm_nc fm_bv fm_part famD].
  unfold e_tr, e_idx, e_part. cbn [fst snd]. destruct (Z.ltb_spec (k + 1) 0); [lia|]. replace (Z.abs (k + 1) - 1)%Z with k by lia.
  set (n := leaf h k) in *. destruct (inside h n p).
  - rewrite <- (rsum_ext 0 (h_kms h) (fun q => if inside h n q then Dval h k (p - mfirst h n) (q - mfirst h n) * x q else c0)).
    2:{ intros q Hq. cbn [andb]. destruct (inside h n q); ring. }
    rewrite (rsum_inside h R) by auto. apply rsum_ext. intros c Hc. unfold x. do 2 f_equal. lia.
  - symmetry. apply rsum_zero. intros q Hq. cbn [andb]. ring.
Qed.

Lemma Hsum p : 
  rsum 0 (h_nnode h) (fun i => lsum (fun e => term h famB xv i e p l) (fm_ents famB i)) +
  rsum 0 (h_nnode h) (fun i => lsum (fun e => dterm h famD xv i e p l) (fm_ents famD i)) =
  rsum 0 (h_kms h) (fun q => Hmat h p q * xv q l).
Proof.
  pose proof nonneg_nleaf as Hn. rewrite (Hmat_sum h (fun q => xv q l) p). cbn [fm_ents famB famD].
  rewrite (sum_rows (fun i e => term h famB xv i e p l) e_own).
  2:{ intros e Hin. destruct (entB e Hin) as (_ & G). destruct (e_tr e); destruct (Bdims _ _ _ G) as (? & ? & _); auto. }
  rewrite (sum_rows (fun i e => dterm h famD xv i e p l) e_own).
  2:{ intros e Hin. destruct (entD e Hin) as [(Hk & _ & Eo & _)|(_ & G)]; [rewrite Eo; apply (leaf_at h R); auto|]. destruct (e_tr e); destruct (ro_inadm _ R _ _ _ G); auto. }
  unfold entsD, leaf_entries, pair_entries. rewrite lsum_app, lsum_map, !lsum_flat_map.
  assert (X : forall n off (f : entry -> K) (g : Z -> K) prs, n = zlen prs -> (forall k n0 n1, getz prs k = Some (n0, n1) -> 0 <= k -> f (n0, n1, off + k + 1)%Z + f (n1, n0, - (off + k + 1))%Z = g k) ->
    lsum (fun a => lsum f (both (off + a + 1) (pair_at prs a))) (zrange 0 n) = rsum 0 n g).
  { intros n off f g prs -> Hf. unfold rsum. apply lsum_ext. intros k Hk. apply In_zrange in Hk. destruct (getz_in prs k Hk) as [[n0 n1] G].
    unfold pair_at. rewrite G. unfold both. cbn [val fst snd]. rewrite !lsum_cons, lsum_nil, <- (Hf k n0 n1 G) by lia. ring. }
  rewrite (X _ 0 (fun e => term h famB xv (e_own e) e p l) (fun k => pairc h x k p) (h_adm h) eq_refl) by (intros k n0 n1 G Hk; apply pair_terms; auto).
  rewrite (X _ (h_nleaf h) (fun e => dterm h famD xv (e_own e) e p l) (fun k => offc h x k p) (h_inadm h) eq_refl) by (intros k n0 n1 G Hk; apply off_terms; auto).
  assert (Y : lsum (fun k => dterm h famD xv (e_own (leaf h k, leaf h k, k + 1)%Z) (leaf h k, leaf h k, k + 1)%Z p l) (zrange 0 (h_nleaf h)) = rsum 0 (h_nleaf h) (fun k => diagc h x k p)).
  { unfold rsum. apply lsum_ext. intros k Hk. apply In_zrange in Hk. apply diag_term; auto. }
  rewrite Y. unfold x. ring.
Qed.
End XV.
End Fams.
