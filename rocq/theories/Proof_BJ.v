(** One block of the block Jacobi preconditioner. *)
From Coq Require Import ZArith List Lia Bool Permutation.
From Verif Require Import Base Mem Num CRing Model_Utils Spec_Utils Spec_Dense Model_Dense Model_Partition Model_Matvec Model_Build Spec_Build Spec_Lapack Blk Model_ULV Model_FSAI Model_BJ Spec_FSAI Proof_Utils Proof_Gemm Proof_BuildFill Proof_BuildTop Proof_ULVMath Proof_ULVMem Proof_ULVFac Proof_FSAIKnn.
Import ListNotations.
Open Scope Z_scope.

(** Layout. *)
Lemma layout_spec n (Dn : mem Z) (D : Z -> Z) : 0 <= n -> (forall k, 0 <= k < n -> ld Dn k = Some (D k)) ->
  exists sizes displs ptr, BJ_layout n Dn = Some (sizes, displs, ptr, zsumf (fun k => D k * D k)%Z 0 n) /\
    (forall k, 0 <= k < n -> ld sizes k = Some (D k)) /\ (forall k, 0 <= k <= n -> ld displs k = Some (zsumf D 0 k)) /\
    (forall k, 0 <= k < n -> ld ptr k = Some (zsumf (fun k => D k * D k)%Z 0 k)).
Proof.
  intros Hn HD. unfold BJ_layout. destruct (st_Some (alloc (n + 1)) 0 0) as [d0 E0]; [rewrite zlen_alloc; lia|]. rewrite E0. cbn [bind].
  assert (Z0 : zlen d0 = n + 1) by (rewrite (st_zlen _ _ _ _ E0); apply zlen_alloc; lia).
  destruct (zfor_inv (fun k (x : mem Z * mem Z * mem Z * Z) => let '(sizes, displs, ptr, tot) := x in zlen sizes = n /\ zlen displs = n + 1 /\ zlen ptr = n /\
    tot = zsumf (fun k => D k * D k)%Z 0 k /\ (forall j, 0 <= j < k -> ld sizes j = Some (D j)) /\ (forall j, 0 <= j <= k -> ld displs j = Some (zsumf D 0 j)) /\ (forall j, 0 <= j < k -> ld ptr j = Some (zsumf (fun k => D k * D k)%Z 0 j)))
    0 n (fun i (x : mem Z * mem Z * mem Z * Z) => let '(sizes, displs, ptr, tot) := x in
    d <- ld Dn i; sizes <- st sizes i d; ptr <- st ptr i tot; b <- ld displs i; displs <- st displs (i + 1) (b + d); Some (sizes, displs, ptr, tot + d * d)%Z)
    (alloc n, d0, alloc n, 0%Z)) as ([[[sizes displs] ptr] tot] & E & Q); auto.
  - split; [apply zlen_alloc; lia|]. split; auto. split; [apply zlen_alloc; lia|]. split; [now rewrite zsumf_empty by lia|]. split; [intros; lia|]. split; [|intros; lia].
    intros j Hj. assert (j = 0)%Z by lia. subst j. rewrite (ld_st _ _ _ _ _ E0). rewrite zsumf_empty by lia. reflexivity.
  - intros i [[[sz dp] pt] tt] Hi (A1 & A2 & A3 & A4 & A5 & A6 & A7). rewrite HD by lia. cbn [bind].
    destruct (st_Some sz i (D i)) as [sz' Es]; [lia|]. rewrite Es. cbn [bind]. destruct (st_Some pt i tt) as [pt' Ep]; [lia|]. rewrite Ep. cbn [bind]. rewrite A6 by lia. cbn [bind].
    destruct (st_Some dp (i + 1) (zsumf D 0 i + D i)%Z) as [dp' Ed]; [lia|]. rewrite Ed. cbn [bind]. eexists. split; [reflexivity|].
    pose proof (st_zlen _ _ _ _ Es). pose proof (st_zlen _ _ _ _ Ep). pose proof (st_zlen _ _ _ _ Ed). split; [lia|]. split; [lia|]. split; [lia|]. split; [|split; [|split]].
    + rewrite zsumf_snoc by lia. lia.
    + intros j Hj. rewrite (ld_st _ _ _ _ _ Es). destruct (Z.eqb_spec i j); [congruence|]. apply A5; lia.
    + intros j Hj. rewrite (ld_st _ _ _ _ _ Ed). destruct (Z.eqb_spec (i + 1) j) as [<-|]; [now rewrite zsumf_snoc by lia|]. apply A6; lia.
    + intros j Hj. rewrite (ld_st _ _ _ _ _ Ep). destruct (Z.eqb_spec i j) as [<-|]; [congruence|]. apply A7; lia.
  - destruct Q as (A1 & A2 & A3 & A4 & A5 & A6 & A7). exists sizes, displs, ptr. rewrite E, A4. auto.
Qed.

Section Blk.
Context {F : num} {K : cring}.
Add Ring Kring : (cth K).
Local Open Scope ring_K.
Variable la : lapack K.
Hypothesis LA : lapack_ok la.

(** Adding to the diagonal of a block. *)
Lemma diag_upd (d : mem K) o n f s : (0 <= n)%Z -> holds d o n n n f ->
  exists d', zfor 0 n (fun k d => madd d (o + (k * n + k))%Z s) d = Some d' /\ updr d d' o n n n (fun i j => f i j + s * delta i j).
Proof.
  intros Hn Hf.
  destruct (zfor_inv (fun k (e : mem K) => updr d e o n n n (fun i j => f i j + (if (i =? j)%Z && (i <? k)%Z then s else c0))) 0 n (fun k d => madd d (o + (k * n + k))%Z s) d) as (d' & E & U); auto.
  - split; auto. split; auto. eapply holds_ext; [exact Hf|]. intros i j Hi Hj. destruct (Z.ltb_spec i 0); [lia|]. rewrite andb_false_r. ring.
  - intros k e Hk (Ze & He & Fe). pose proof (He k k Hk Hk) as Ek.
    destruct (madd_getz e _ s _ Ek) as (e' & E' & Ze' & G). exists e'. split; auto. split; [lia|]. split.
    + intros i j Hi Hj. unfold ld. rewrite G. destruct (Z.eqb_spec (o + (i * n + j)) (o + (k * n + k))) as [Eq|Ne].
      * assert (EE : (i * n + j = k * n + k)%Z) by lia. apply (region_inj n n) in EE; [|lia..]. destruct EE as [-> ->].
        rewrite Z.eqb_refl. destruct (Z.ltb_spec k k), (Z.ltb_spec k (k + 1)); try lia. cbn [andb]. f_equal. f_equal. ring.
      * fold (ld e (o + (i * n + j))). rewrite He by auto. f_equal. destruct (Z.eqb_spec i j) as [->|]; cbn [andb]; auto.
        destruct (Z.ltb_spec j k), (Z.ltb_spec j (k + 1)); auto; try lia. exfalso. apply Ne. assert (j = k) by lia. subst. lia.
    + intros x Hx. rewrite G. destruct (Z.eqb_spec x (o + (k * n + k))) as [->|]; [exfalso; apply (Hx k k); auto|auto].
  - exists d'. split; auto. eapply updr_ext; [exact U|]. intros i j Hi Hj. unfold delta.
    destruct (Z.ltb_spec i n); [|lia]. rewrite andb_true_r. destruct (i =? j)%Z; ring.
Qed.

(** Factoring and inverting a block in place. *)
Lemma invert_block n (inv : mem K) o A : (0 <= n)%Z -> (0 <= o)%Z -> (o + n * n <= zlen inv)%Z -> holds inv o n n n A ->
  match ('(info, inv, piv) <- getrf la n inv o n; if negb (info =? 0) then None else getri la n inv o n piv) with
  | Some inv' => exists X, updr inv inv' o n n n X /\ forall i j, (0 <= i < n)%Z -> (0 <= j < n)%Z -> rsum 0 n (fun l => A i l * X l j) = delta i j
  | None => exists B, (forall i j, 0 <= i < n -> 0 <= j < n -> B i j = A i j)%Z /\ fst (fst (l_getrf la n B)) <> 0%Z
  end.
Proof.
  intros Hn Ho Hz HA. assert (Hf : forall m : mem K, zlen m = zlen inv -> fits n n o n (zlen m)) by (intros m ->; repeat split; try lia; nia).
  unfold getrf. destruct (rd_ok inv o n n n A HA) as (B & EB & GB). rewrite EB. cbn [bind]. destruct (l_getrf la n B) as [[info LU] piv] eqn:EL.
  destruct (wr_ok n n LU inv o n (Hf _ eq_refl)) as (m1 & E1 & Z1 & H1 & F1). rewrite E1. cbn [bind].
  destruct (Z.eqb_spec info 0) as [->|Ne]; cbn [negb].
  - unfold getri. destruct (rd_ok m1 o n n n LU H1) as (LU' & E2 & G2). rewrite E2. cbn [bind].
    match goal with |- context [wr n n ?f m1 o n] => destruct (wr_ok n n f m1 o n (Hf _ Z1)) as (m2 & E3 & Z3 & H3 & F3) end. rewrite E3.
    eexists. split; [split; [congruence|]; split; [exact H3|]; intros x Hx; rewrite F3, F1 by auto; reflexivity|].
    intros i j Hi Hj. pose proof (la_lu la LA n B Hn) as Q. rewrite EL in Q. destruct Q as (Hp & Q). destruct (Q eq_refl) as (Hd & HLU).
    set (Y := l_trsm la true true false true n n LU' (interchange (Z.to_nat n) piv delta)) in *. set (W := l_trsm la true false false false n n LU' Y) in *.
    assert (T : forall lw un p q, (0 <= p < n)%Z -> (0 <= q < n)%Z -> tri lw un LU' p q = tri lw un LU p q).
    { intros lw un p q Hp' Hq. unfold tri. rewrite !G2 by auto. reflexivity. }
    pose proof (la_trsm_left la LA true false true n n LU' (interchange (Z.to_nat n) piv delta) Hn ltac:(discriminate)) as HY. fold Y in HY. cbn [top] in HY.
    pose proof (la_trsm_left la LA false false false n n LU' Y Hn ltac:(intros _ k Hk; rewrite G2 by auto; auto)) as HW. fold W in HW. cbn [top] in HW.
    assert (Main : forall i j, (0 <= i < n)%Z -> (0 <= j < n)%Z -> rsum 0 n (fun l => interchange (Z.to_nat n) piv B i l * W l j) = interchange (Z.to_nat n) piv delta i j).
    { intros p q Hpp Hq. rewrite <- (HY p q Hpp Hq). transitivity (rsum 0 n (fun r => tri true true LU p r * rsum 0 n (fun l => tri false false LU r l * W l q))).
      - rewrite (rsum_assoc n n (fun r => tri true true LU p r) (tri false false LU) (fun l => W l q)). apply rsum_ext. intros l Hl. f_equal. symmetry. apply HLU; auto.
      - apply rsum_ext. intros r Hr. rewrite T by auto. f_equal. rewrite <- (HW r q Hr Hq). apply rsum_ext. intros l Hl. now rewrite T by auto. }
    destruct (prm_onto n piv Hp (Z.to_nat n) i ltac:(lia) Hi) as (i' & Hi' & Ei). specialize (Main i' j Hi' Hj). rewrite interchange_prm, Ei in Main.
    rewrite <- Main. apply rsum_ext. intros l Hl. rewrite interchange_prm, Ei, GB by auto. reflexivity.
  - exists B. split; auto. rewrite EL. exact Ne.
Qed.
End Blk.
