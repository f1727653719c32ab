(** pcg.c as a whole. *)
From Coq Require Import ZArith QArith List Lia Bool Reals Qreals Lra.
From Verif Require Import Base Mem CRing FNum Model_Build Model_PCG Spec_ID Spec_PCG Proof_IDMath Proof_PCG Proof_PCGMath.
Import ListNotations.

(** ** Any arithmetic *)
Section Any.
Context {F : fnum}.
Open Scope Z_scope.
Variable n : Z.
Hypothesis Hn : 0 <= n.
Variable Ax : list F -> list F.
Variable invMx : option (list F -> list F).
Hypothesis HA : keeps n Ax.
Hypothesis HM : forall M, invMx = Some M -> keeps n M.
Hypothesis HD : div_total F.

Lemma loop_total max_iter stop : forall fuel g fx fr fp, rep n g fx fr fp -> max_iter - g_iter g <= Z.of_nat fuel -> g_iter g <= Z.max 0 max_iter ->
  (forall v, g_res g = Some v -> max_iter <= zlen v) ->
  exists g', pcg_loop n fuel Ax invMx max_iter stop g = Some g' /\ zlen (g_x g') = n /\ 0 <= g_iter g' <= Z.max 0 max_iter.
Proof.
  induction fuel as [|fuel IH]; intros g fx fr fp HR Hf Hi Hv; cbn [pcg_loop]; assert (Hg := rp_i n g fx fr fp HR).
  - destruct (Z.ltb_spec (g_iter g) max_iter); [lia|]. cbn [andb]. exists g. split; auto. split; [apply HR|lia].
  - destruct ((g_iter g <? max_iter) && flt stop (g_rn g)) eqn:Ec.
    2:{ exists g. split; auto. split; [apply HR|lia]. }
    apply andb_prop in Ec as [Ec _]. apply Z.ltb_lt in Ec.
    destruct (step_spec n Hn Ax invMx HA HM g fx fr fp HR) as [[_ EN]|(beta & _ & [[_ EN]|(alpha & g' & _ & E' & HR' & _ & Hit' & HV')])].
    { intros v Ev. specialize (Hv v Ev). lia. }
    1, 2: match type of EN with fdiv ?a ?b = None => destruct (HD a b); congruence end.
    rewrite E'. cbn [bind]. eapply IH; [exact HR'|lia|lia|]. intros v Ev. destruct (g_res g) as [v0|]; [|congruence].
    destruct HV' as (v' & Ev' & Es). apply st_zlen in Es. specialize (Hv v0 eq_refl). replace v with v' by congruence. lia.
Qed.

Lemma pcg_total tol max_iter b x res fb fx : hold n b fb -> hold n x fx -> (forall v, res = Some v -> max_iter <= zlen v) ->
  exists out, pcg n tol max_iter Ax b invMx x res = Some out /\ zlen (o_x out) = n /\ 0 <= o_iter out <= Z.max 0 max_iter /\ (o_flag out = 0 \/ o_flag out = 1).
Proof.
  intros Hb Hx Hv. destruct (start_spec n Hn Ax invMx HA tol b x res fb fx Hb Hx) as (g & HR & _ & Hi & _ & Er & E0). rewrite E0. clear E0.
  destruct (loop_total max_iter (fmul (fsqrt (fsum n (fun i => fmul (fb i) (fb i)))) tol) (Z.to_nat max_iter) g _ _ _ HR) as (g' & -> & L & B); try lia.
  { rewrite Er. auto. }
  cbn [bind]. destruct (HD (g_rn g') (fsqrt (fsum n (fun i => fmul (fb i) (fb i))))) as [c ->]. cbn [bind]. eexists. split; [reflexivity|]. cbn. split; auto. split; auto.
  destruct (fle _ _); auto.
Qed.
End Any.

(** ** Exact arithmetic *)
Open Scope R_scope.
Section Real.
Variable n : Z.
Hypothesis Hn : (0 <= n)%Z.

Lemma fsum_sumR (f : Z -> R) : @fsum Rnum n f = sumR 0%Z n f.
Proof.
  unfold fsum. cbn [flit fadd Rnum]. rewrite Q2R_0. replace n with (Z.of_nat (Z.to_nat n)) by lia. induction (Z.to_nat n) as [|m IH].
  - rewrite sumR_empty by lia. reflexivity.
  - replace (Z.of_nat (S m)) with (Z.of_nat m + 1)%Z by lia. rewrite sumR_snoc, zrange_snoc by lia. rewrite fold_left_app. cbn [fold_left]. rewrite IH. reflexivity.
Qed.
Lemma fsum_ip f g : @fsum Rnum n (fun i => @fmul Rnum (f i) (g i)) = ip n f g.
Proof. apply fsum_sumR. Qed.
Lemma inner_ip x y : inner n x y = ip n x y. Proof. reflexivity. Qed.

Variable A : Z -> Z -> R.
Variable Ax : list R -> list R.
Hypothesis HA : applies n A Ax.

Lemma list_is_vec (v : list R) : zlen v = n -> exists f, v = to_list n f.
Proof.
  intros L. exists (fun i => match getz v i with Some a => a | None => 0 end). apply getz_ext.
  - unfold to_list. rewrite zlen_map, zlen_zrange; lia.
  - intros i Hi. unfold to_list. rewrite getz_map, getz_zrange by lia. cbn. destruct (getz_in v i Hi) as [a E]. replace (0 + i)%Z with i by lia. now rewrite E.
Qed.
Lemma applies_keeps : @keeps Rnum n Ax.
Proof. intros v L. destruct (list_is_vec v L) as [f ->]. rewrite HA. unfold to_list. rewrite zlen_map, zlen_zrange; lia. Qed.
Lemma app_mv f i : (0 <= i < n)%Z -> @app Rnum n Ax f i = mat_vec n A f i.
Proof.
  intros Hi. assert (E := @app_getz Rnum n Hn Ax f i applies_keeps Hi). change (@vec Rnum n f) with (to_list n f) in E. rewrite HA in E.
  unfold to_list in E. rewrite getz_map, getz_zrange in E by lia. cbn in E. replace (0 + i)%Z with i in E by lia. now injection E.
Qed.
Lemma mv_lin x p a i : mat_vec n A (fun k => x k + a * p k) i = mat_vec n A x i + a * mat_vec n A p i.
Proof. unfold mat_vec. change Rsum with (@rsum Rring). rewrite <- sumR_mul_l, <- sumR_add. apply sumR_ext. intros. lra. Qed.
Lemma mv_ext x y i : (forall k, (0 <= k < n)%Z -> x k = y k) -> mat_vec n A x i = mat_vec n A y i.
Proof. intros H. apply sumR_ext. intros k Hk. now rewrite H. Qed.
Lemma norm_ext x y : (forall k, (0 <= k < n)%Z -> x k = y k) -> norm n x = norm n y.
Proof. intros H. unfold norm. f_equal. now apply ip_ext. Qed.
Lemma norm_nonneg x : 0 <= norm n x. Proof. apply sqrt_pos. Qed.
Lemma norm_pos_nonzero x : 0 < norm n x -> nonzero n x.
Proof. intros H. apply (ip_pos_nonzero n Hn _ x). intros E. unfold norm in H. rewrite inner_ip, E, sqrt_0 in H. lra. Qed.
Lemma nonzero_norm_pos x : nonzero n x -> 0 < norm n x.
Proof.
  intros (i & Hi & E). apply sqrt_lt_R0. rewrite inner_ip. apply Rlt_le_trans with (x i * x i); [nra|].
  apply (sumR_ge_term 0 n (fun k => x k * x k) i Hi). intros. nra.
Qed.

Variable invMx : option (list R -> list R).
Hypothesis HM : forall M, invMx = Some M -> length_kept n M.
Variables (tol : R) (bm xm : mem R) (b x0 : Z -> R) (res : option (mem R)).
Hypothesis Hb : array_of n bm b.
Hypothesis Hx : array_of n xm x0.

Notation run m := (@pcg Rnum n tol m Ax bm invMx xm res).
Definition true_res (fx fr : Z -> R) : Prop := forall i, (0 <= i < n)%Z -> fr i = residual n A b fx i.
Lemma true_res_step fx fr p a : true_res fx fr -> true_res (fun i => @fadd Rnum (fx i) (@fmul Rnum a (p i))) (fun i => @fsub Rnum (fr i) (@fmul Rnum a (@app Rnum n Ax p i))).
Proof. intros H i Hi. cbn. unfold residual. rewrite mv_lin, app_mv by auto. rewrite H by auto. unfold residual. lra. Qed.

Lemma Rltb_true a c : Rltb a c = true <-> a < c. Proof. unfold Rltb. destruct (Rlt_dec a c); split; intros; auto; try discriminate; lra. Qed.
Lemma Rltb_false a c : Rltb a c = false <-> c <= a. Proof. unfold Rltb. destruct (Rlt_dec a c); split; intros; auto; try discriminate; lra. Qed.

(** The run, taken apart: [k] steps from a start state [g0] that does not depend
    on max_iter. *)
Definition stop_at : R := norm n b * tol.
Lemma run_start : exists g0, @rep Rnum n g0 x0 (residual n A b x0) x0 /\ g_x g0 = xm /\ g_iter g0 = 0%Z /\ g_rho g0 = 1 /\ g_res g0 = res /\
  forall m, run m = (g <- @pcg_loop Rnum n (Z.to_nat m) Ax invMx m stop_at g0;
     relres <- @fdiv Rnum (g_rn g) (norm n b);
     Some (@POut Rnum (g_x g) (if Rleb (g_rn g) stop_at then 0 else 1)%Z relres (g_iter g) (g_res g))).
Proof.
  destruct (@start_spec Rnum n Hn Ax invMx applies_keeps tol bm xm res b x0 Hb Hx) as (g0 & HR & E1 & E2 & E3 & E4 & E5).
  assert (N : @fsqrt Rnum (@fsum Rnum n (fun i => @fmul Rnum (b i) (b i))) = norm n b) by (rewrite fsum_ip; reflexivity).
  assert (ER : forall i, (0 <= i < n)%Z -> @fsub Rnum (b i) (@app Rnum n Ax x0 i) = residual n A b x0 i).
  { intros i Hi. unfold residual. rewrite <- app_mv; auto. }
  exists g0. split; [|split; [exact E1|split; [exact E2|split; [rewrite E3; apply Q2R_1|split; [exact E4|]]]]].
  - destruct HR as [H1 H2 H3 H4 H5 H6 H7]. constructor; auto.
    + eapply hold_ext; [|exact H2]. exact ER.
    + rewrite H7. f_equal. rewrite !fsum_ip. apply ip_ext; intros; apply ER; auto.
  - intros m. rewrite E5. rewrite N. reflexivity.
Qed.

Definition fits_res (m : Z) : Prop := forall v, res = Some v -> (m <= zlen v)%Z.

Lemma run_honest m out : fits_res m -> run m = Some out ->
  exists x' : Z -> R, array_of n (o_x out) x' /\
    (o_flag out = 0%Z <-> norm n (residual n A b x') <= norm n b * tol) /\ (o_flag out = 0%Z \/ o_flag out = 1%Z) /\
    norm n b <> 0 /\ o_relres out = norm n (residual n A b x') / norm n b /\
    (0 <= o_iter out <= Z.max 0 m)%Z /\ (o_flag out = 1%Z -> o_iter out = Z.max 0 m) /\
    (norm n (residual n A b x0) <= norm n b * tol -> o_x out = xm /\ o_iter out = 0%Z) /\
    match res with
    | None => o_res out = None
    | Some v => exists v', o_res out = Some v' /\ zlen v' = zlen v /\
       (forall k, (o_iter out <= k)%Z -> getz v' k = getz v k) /\
       forall k, (0 <= k < o_iter out)%Z ->
         exists outk xk, run (k + 1)%Z = Some outk /\ array_of n (o_x outk) xk /\ ld v' k = Some (norm n (residual n A b xk))
    end.
Proof.
  intros Hres. destruct run_start as (g0 & HR & E1 & E2 & E3 & E4 & E5). rewrite E5.
  destruct (@pcg_loop Rnum n (Z.to_nat m) Ax invMx m stop_at g0) as [g|] eqn:El; [|discriminate]. cbn [bind].
  destruct (@fdiv Rnum (g_rn g) (norm n b)) as [q|] eqn:Eq; [|discriminate]. cbn [bind]. intros [= <-]. cbn [o_x o_flag o_relres o_iter o_res].
  destruct (@loop_steps Rnum n Ax invMx m stop_at _ _ _ El) as (k & Ek & Ec & Hj).
  assert (Hkm : (Z.of_nat k <= Z.max 0 m)%Z).
  { destruct k as [|k]; [lia|]. destruct (Hj k ltac:(lia)) as (gj & Ej & Cj). apply andb_prop in Cj as [Cj _]. apply Z.ltb_lt in Cj.
    rewrite (@steps_iter Rnum n Ax invMx k g0 gj) in Cj by (auto; lia). lia. }
  assert (Hlen : forall v, g_res g0 = Some v -> (Z.of_nat k <= zlen v)%Z).
  { rewrite E4. intros v Ev. specialize (Hres v Ev). change (m <= @zlen (option Rnum) v)%Z in Hres. assert (0 <= @zlen (option Rnum) v)%Z by apply zlen_nonneg. lia. }
  assert (Inv := fun k g => @steps_inv Rnum n Hn Ax invMx applies_keeps HM true_res true_res_step g0 x0 (residual n A b x0) x0 HR ltac:(intros i Hi; reflexivity) E2 k g).
  destruct (Inv k g Ek Hlen) as [(fx & fr & fp & HRk & HT) HV].
  assert (Hrn : forall g fx fr fp, @rep Rnum n g fx fr fp -> true_res fx fr -> g_rn g = norm n (residual n A b fx)).
  { intros g' fx' fr' fp' HR' HT'. rewrite (rp_rn n _ _ _ _ HR'). rewrite fsum_ip. unfold norm. cbn. f_equal. apply ip_ext; auto. }
  assert (Hit : g_iter g = Z.of_nat k) by (rewrite (@steps_iter Rnum n Ax invMx k g0 g); auto; lia).
  assert (RN := Hrn _ _ _ _ HRk HT).
  cbn in Eq. destruct (Req_EM_T (norm n b) 0) as [Z0|NZ]; [discriminate|]. injection Eq as <-.
  exists fx. split; [apply HRk|]. rewrite RN. unfold stop_at in *. split; [|split; [|split; [auto|split; [auto|split; [rewrite Hit; lia|split; [|split]]]]]].
  - unfold Rleb. destruct (Rle_dec _ _); split; intros; auto; try discriminate; contradiction.
  - destruct (Rleb _ _); auto.
  - unfold Rleb. destruct (Rle_dec _ _) as [L|NL]; [discriminate|]. intros _. unfold cond in Ec. cbn in Ec. rewrite RN in Ec.
    assert (Rltb (norm n b * tol) (norm n (residual n A b fx)) = true) by (apply Rltb_true; lra). rewrite H, andb_true_r in Ec. apply Z.ltb_ge in Ec. lia.
  - intros L. destruct k as [|k].
    + cbn in Ek. injection Ek as <-. auto.
    + exfalso. destruct (Hj O ltac:(lia)) as (gj & Ej & Cj). injection Ej as <-. apply andb_prop in Cj as [_ Cj]. cbn in Cj. apply Rltb_true in Cj.
      rewrite (Hrn _ _ _ _ HR) in Cj by (intros i Hi; reflexivity). lra.
  - rewrite E4 in HV. destruct res as [v|] eqn:Eres; auto. destruct HV as (v' & Ev & Lv & Gv & Sv). exists v'. split; auto. split; auto. rewrite Hit. split; auto.
    intros i Hi. destruct (Sv (Z.to_nat i) ltac:(lia)) as (gi & Egi & Eld). rewrite Z2Nat.id in Eld by lia.
    destruct (Inv (S (Z.to_nat i)) gi Egi) as [(fxi & fri & fpi & HRi & HTi) _].
    { rewrite E4. intros v1 Ev1. assert (H := Hlen v1). rewrite E4 in H. specialize (H Ev1). lia. }
    assert (Hiti : g_iter gi = Z.of_nat (S (Z.to_nat i))) by (rewrite (@steps_iter Rnum n Ax invMx (S (Z.to_nat i)) g0 gi); auto; lia).
    assert (El' : @pcg_loop Rnum n (Z.to_nat (i + 1)) Ax invMx (i + 1)%Z (norm n b * tol) g0 = Some gi).
    { apply (@steps_loop Rnum n Ax invMx (i + 1)%Z (norm n b * tol) (S (Z.to_nat i))); auto; try lia.
      - unfold cond. rewrite Hiti. destruct (Z.ltb_spec (Z.of_nat (S (Z.to_nat i))) (i + 1)%Z); [lia|reflexivity].
      - intros j gj Hj' Ej. destruct (Hj j ltac:(lia)) as (gj' & Ej' & Cj). replace gj' with gj in * by congruence. unfold cond in *. apply andb_prop in Cj as [_ Cj]. rewrite Cj, andb_true_r.
        apply Z.ltb_lt. rewrite (@steps_iter Rnum n Ax invMx j g0 gj) by (auto; lia). lia. }
    rewrite E5, El'. cbn [bind]. unfold fdiv. cbn [Rnum]. destruct (Req_EM_T (norm n b) 0); [contradiction|]. cbn [bind]. do 2 eexists. split; [reflexivity|]. cbn. split; [apply HRi|].
    etransitivity; [exact Eld|]. f_equal. apply (Hrn _ _ _ _ HRi HTi).
Qed.

Lemma run_zero_rhs m : norm n b = 0 -> run m = None.
Proof.
  intros Z0. destruct run_start as (g0 & HR & E1 & E2 & E3 & E4 & E5). rewrite E5. destruct (pcg_loop _ _ _ _ _ _ _); auto. cbn. rewrite Z0. destruct (Req_EM_T 0 0); [auto|congruence].
Qed.

End Real.
