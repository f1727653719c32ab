(** The loops of pcg.c compute what a mathematical description of one step says,
    in any arithmetic. *)
From Coq Require Import ZArith QArith List Lia Bool.
From Verif Require Import Base Mem FNum Model_Build Model_PCG Proof_Build Proof_Bucket.
Import ListNotations.
Open Scope Z_scope.

Section PCG.
Context {F : fnum}.
Variable n : Z.
Hypothesis Hn : 0 <= n.

Definition vec (f : Z -> F) : list F := map f (zrange 0 n).
Definition hold (m : mem F) (f : Z -> F) : Prop := zlen m = n /\ forall i, 0 <= i < n -> ld m i = Some (f i).
Definition fsum (f : Z -> F) : F := fold_left (fun s i => fadd s (f i)) (zrange 0 n) (flit 0%Q).
(** A callback that writes n values. *)
Definition keeps (op : list F -> list F) : Prop := forall v, zlen v = n -> zlen (op v) = n.
Definition app (op : list F -> list F) (f : Z -> F) : Z -> F := fun i => match getz (op (vec f)) i with Some a => a | None => flit 0%Q end.

Lemma zlen_vec f : zlen (vec f) = n.
Proof. unfold vec. rewrite zlen_map, zlen_zrange; lia. Qed.
Lemma getz_vec f i : 0 <= i < n -> getz (vec f) i = Some (f i).
Proof. intros H. unfold vec. rewrite getz_map, getz_zrange by lia. cbn. do 2 f_equal. Qed.
Lemma vec_ext f g : (forall i, 0 <= i < n -> f i = g i) -> vec f = vec g.
Proof. intros H. apply map_ext_in. intros i Hi. apply In_zrange in Hi. auto. Qed.
Lemma app_getz op f i : keeps op -> 0 <= i < n -> getz (op (vec f)) i = Some (app op f i).
Proof. intros Hk Hi. unfold app. destruct (getz_in (op (vec f)) i) as [v E]; [rewrite Hk; [lia|apply zlen_vec]|]. now rewrite E. Qed.
Lemma app_ext op f g : (forall i, 0 <= i < n -> f i = g i) -> app op f = app op g.
Proof. intros H. unfold app. now rewrite (vec_ext f g H). Qed.
Lemma hold_ext m f g : (forall i, 0 <= i < n -> f i = g i) -> hold m f -> hold m g.
Proof. intros H [H1 H2]. split; auto. intros i Hi. rewrite <- H; auto. Qed.
Lemma hold_alloc : zlen (@alloc F n) = n. Proof. now apply zlen_alloc. Qed.

Lemma hold_read m f : hold m f -> read_cells m 0 n = Some (vec f).
Proof.
  intros [H1 H2]. rewrite (read_cells_spec m 0 n f) by (auto; intros; rewrite Z.add_0_l; auto).
  f_equal. unfold vec. replace (0 + n) with n by lia. apply map_ext. intros. f_equal. lia.
Qed.
Lemma fill_hold (f : Z -> F) body m : zlen m = n -> (forall i x, 0 <= i < n -> body i x = st x i (f i)) -> exists m', zfor 0 n body m = Some m' /\ hold m' f.
Proof.
  intros Hm Hb. destruct (zfill_spec f body 0 n m Hb) as (m' & E & L & G); try lia. exists m'. split; auto. split; [lia|].
  intros i Hi. rewrite G. destruct (Z.leb_spec 0 i), (Z.ltb_spec i n); cbn; try lia; auto.
Qed.
Lemma call_spec op x b f : keeps op -> hold x f -> zlen b = n -> exists b', call n op x b = Some b' /\ hold b' (app op f).
Proof.
  intros Hk Hx Hb. unfold call. rewrite (hold_read x f Hx). cbn [bind]. apply fill_hold; auto. intros i m Hi. now rewrite app_getz.
Qed.
Lemma copy_spec x b f : hold x f -> zlen b = n -> exists b', mcpy b 0 x 0 n = Some b' /\ hold b' f.
Proof.
  intros [H1 H2] Hb. destruct (mcpy_spec b 0 x 0 n) as (b' & E & L & G); try lia. exists b'. split; auto. split; [lia|].
  intros i Hi. apply ld_getz. rewrite G. destruct (Z.leb_spec 0 i), (Z.ltb_spec i (0 + n)); cbn; try lia.
  replace (0 + (i - 0)) with i by lia. apply ld_getz; auto.
Qed.
Lemma sum_spec x y f g : hold x f -> hold y g -> sum_prod n x y = Some (fsum (fun i => fmul (f i) (g i))).
Proof.
  intros [_ Hx] [_ Hy]. unfold sum_prod.
  match goal with |- zfor _ _ ?b _ = _ => destruct (zfor_inv (fun i s => s = fold_left (fun s i => fadd s (fmul (f i) (g i))) (zrange 0 i) (flit 0%Q)) 0 n b (flit 0%Q)) as (s & E & Es) end; auto.
  - intros i s Hi ->. rewrite Hx, Hy by lia. cbn [bind]. eexists. split; [reflexivity|]. rewrite zrange_snoc by lia. now rewrite fold_left_app.
  - rewrite E, Es. reflexivity.
Qed.
(** An in-place loop: cell i from its own old value. *)
Lemma map_hold (h : Z -> F -> F) body m f : hold m f ->
  (forall i x, 0 <= i < n -> ld x i = Some (f i) -> body i x = st x i (h i (f i))) -> exists m', zfor 0 n body m = Some m' /\ hold m' (fun i => h i (f i)).
Proof.
  intros [Hm Hf] Hb.
  destruct (zfor_inv (fun k x => zlen x = n /\ forall i, 0 <= i < n -> ld x i = Some (if i <? k then h i (f i) else f i)) 0 n body m) as (m' & E & L & G); auto.
  - split; auto. intros i Hi. destruct (Z.ltb_spec i 0); [lia|auto].
  - intros k x Hk [Lx Gx]. assert (E := Gx k ltac:(lia)). destruct (Z.ltb_spec k k); [lia|]. rewrite (Hb k x ltac:(lia) E).
    destruct (st_Some x k (h k (f k))) as [x' E']; [lia|]. exists x'. split; auto. split; [rewrite (st_zlen _ _ _ _ E'); auto|].
    intros i Hi. rewrite (ld_st _ _ _ _ i E'). destruct (Z.eqb_spec k i).
    + subst i. destruct (Z.ltb_spec k (k + 1)); [auto|lia].
    + rewrite Gx by auto. destruct (Z.ltb_spec i k), (Z.ltb_spec i (k + 1)); try lia; auto.
  - exists m'. split; auto. split; auto. intros i Hi. rewrite G by auto. destruct (Z.ltb_spec i n); [auto|lia].
Qed.
Lemma update_spec alpha p s x r fp fs fx fr : hold p fp -> hold s fs -> hold x fx -> hold r fr ->
  let fr' := fun i => fsub (fr i) (fmul alpha (fs i)) in
  exists x' r', update_xr n alpha p s x r = Some (x', r', fsum (fun i => fmul (fr' i) (fr' i))) /\
    hold x' (fun i => fadd (fx i) (fmul alpha (fp i))) /\ hold r' fr'.
Proof.
  intros [Lp Hp] [Ls Hs] [Lx Hx] [Lr Hr] fr'. unfold update_xr.
  match goal with |- context [zfor 0 n ?b ?i0] => destruct (zfor_inv (fun k '(x', r', a) => zlen x' = n /\ zlen r' = n /\
     (forall i, 0 <= i < n -> ld x' i = Some (if i <? k then fadd (fx i) (fmul alpha (fp i)) else fx i)) /\
     (forall i, 0 <= i < n -> ld r' i = Some (if i <? k then fr' i else fr i)) /\
     a = fold_left (fun s i => fadd s (fmul (fr' i) (fr' i))) (zrange 0 k) (flit 0%Q)) 0 n b i0) as ([[x' r'] a] & E & L1 & L2 & G1 & G2 & Ga) end; auto.
  - repeat split; auto; intros i Hi; destruct (Z.ltb_spec i 0); try lia; auto.
  - intros k [[x' r'] a] Hk (L1 & L2 & G1 & G2 & Ga).
    rewrite G1, Hp by lia. destruct (Z.ltb_spec k k); [lia|]. cbn [bind].
    destruct (st_Some x' k (fadd (fx k) (fmul alpha (fp k)))) as [x1 E1]; [lia|]. rewrite E1. cbn [bind].
    rewrite G2, Hs by lia. destruct (Z.ltb_spec k k); [lia|]. cbn [bind].
    destruct (st_Some r' k (fsub (fr k) (fmul alpha (fs k)))) as [r1 E2]; [lia|]. rewrite E2. cbn [bind].
    rewrite (ld_st _ _ _ _ k E2), Z.eqb_refl. cbn [bind]. eexists. split; [reflexivity|].
    split; [rewrite (st_zlen _ _ _ _ E1); auto|]. split; [rewrite (st_zlen _ _ _ _ E2); auto|]. split; [|split].
    + intros i Hi. rewrite (ld_st _ _ _ _ i E1). destruct (Z.eqb_spec k i).
      * subst i. destruct (Z.ltb_spec k (k + 1)); [auto|lia].
      * rewrite G1 by auto. destruct (Z.ltb_spec i k), (Z.ltb_spec i (k + 1)); try lia; auto.
    + intros i Hi. rewrite (ld_st _ _ _ _ i E2). destruct (Z.eqb_spec k i).
      * subst i. destruct (Z.ltb_spec k (k + 1)); [auto|lia].
      * rewrite G2 by auto. destruct (Z.ltb_spec i k), (Z.ltb_spec i (k + 1)); try lia; auto.
    + rewrite zrange_snoc by lia. rewrite fold_left_app, <- Ga. reflexivity.
  - exists x', r'. split; [etransitivity; [exact E|]; rewrite Ga; reflexivity|]. split; split; auto; intros i Hi; [rewrite G1|rewrite G2]; auto; destruct (Z.ltb_spec i n); auto; lia.
Qed.

(** ** One turn, mathematically *)
Variable Ax : list F -> list F.
Variable invMx : option (list F -> list F).
Hypothesis HA : keeps Ax.
Hypothesis HM : forall M, invMx = Some M -> keeps M.

Definition prec (f : Z -> F) : Z -> F := match invMx with Some M => app M f | None => f end.
Lemma prec_ext f g i : 0 <= i < n -> (forall i, 0 <= i < n -> f i = g i) -> prec f i = prec g i.
Proof. intros Hi H. unfold prec. destruct invMx; auto. now rewrite (app_ext l f g H). Qed.

(** Memory [g] represents iterate [fx], residual [fr] and, after the first turn,
    direction [fp]. *)
Record rep (g : pcg_st F) (fx fr fp : Z -> F) : Prop := Rep {
  rp_x : hold (g_x g) fx;
  rp_r : hold (g_r g) fr;
  rp_p : zlen (g_p g) = n /\ (g_iter g <> 0 -> hold (g_p g) fp);
  rp_z : zlen (g_z g) = n;
  rp_s : zlen (g_s g) = n;
  rp_i : 0 <= g_iter g;
  rp_rn : g_rn g = fsqrt (fsum (fun i => fmul (fr i) (fr i)))
}.
Definition new_p (k : Z) (beta : F) (fz fp : Z -> F) : Z -> F := if k =? 0 then fz else fun i => fadd (fz i) (fmul beta (fp i)).

Lemma step_spec g fx fr fp : rep g fx fr fp -> (forall v, g_res g = Some v -> g_iter g < zlen v) ->
  let fz := prec fr in
  let rho := fsum (fun i => fmul (fr i) (fz i)) in
  pcg_step n Ax invMx g = None /\ fdiv rho (g_rho g) = None \/
  exists beta, fdiv rho (g_rho g) = Some beta /\
  let fp' := new_p (g_iter g) beta fz fp in
  let tmp := fsum (fun i => fmul (fp' i) (app Ax fp' i)) in
  (pcg_step n Ax invMx g = None /\ fdiv rho tmp = None \/
   exists alpha g', fdiv rho tmp = Some alpha /\ pcg_step n Ax invMx g = Some g' /\
     rep g' (fun i => fadd (fx i) (fmul alpha (fp' i))) (fun i => fsub (fr i) (fmul alpha (app Ax fp' i))) fp' /\
     g_rho g' = rho /\ g_iter g' = g_iter g + 1 /\
     match g_res g with None => g_res g' = None | Some v => exists v', g_res g' = Some v' /\ st v (g_iter g) (g_rn g') = Some v' end).
Proof.
  intros [Hx Hr [Lp Hp] Lz Ls Hi Hrn] Hres fz rho. unfold pcg_step.
  assert (E : exists z, match invMx with Some M => call n M (g_r g) (g_z g) | None => mcpy (g_z g) 0 (g_r g) 0 n end = Some z /\ hold z fz).
  { unfold fz, prec. destruct invMx as [M|] eqn:EM; [apply call_spec|apply copy_spec]; auto. }
  destruct E as (z & -> & Hz). cbn [bind]. rewrite (sum_spec _ _ fr fz) by auto. cbn [bind]. fold rho.
  destruct (fdiv rho (g_rho g)) as [beta|] eqn:Eb; [right|left; auto]. exists beta. split; auto. cbn [bind]. set (fp' := new_p (g_iter g) beta fz fp). set (tmp := fsum (fun i => fmul (fp' i) (app Ax fp' i))).
  assert (E : exists p, (if g_iter g =? 0 then mcpy (g_p g) 0 z 0 n else zfor 0 n (fun i p => zi <- ld z i; pi <- ld p i; st p i (fadd zi (fmul beta pi))) (g_p g)) = Some p /\ hold p fp').
  { unfold fp', new_p. destruct (Z.eqb_spec (g_iter g) 0) as [E|E]; [now apply copy_spec|].
    apply (map_hold (fun i v => fadd (fz i) (fmul beta v)) _ (g_p g) fp); auto. intros i x Hi' E1. destruct Hz as [_ Hz]. rewrite Hz, E1 by auto. reflexivity. }
  destruct E as (p & -> & Hp'). cbn [bind].
  destruct (call_spec Ax p (g_s g) fp') as (s & Es & Hs); auto. rewrite Es. cbn [bind].
  rewrite (sum_spec _ _ fp' (app Ax fp')) by auto. cbn [bind]. fold tmp.
  destruct (fdiv rho tmp) as [alpha|] eqn:Ea; [right|left; auto]. cbn [bind].
  destruct (update_spec alpha p s (g_x g) (g_r g) fp' (app Ax fp') fx fr) as (x' & r' & Eu & Hx' & Hr'); auto. rewrite Eu. cbn [bind].
  destruct (g_res g) as [v|] eqn:Ev.
  - destruct (st_Some v (g_iter g) (fsqrt (fsum (fun i => fmul (fsub (fr i) (fmul alpha (app Ax fp' i))) (fsub (fr i) (fmul alpha (app Ax fp' i))))))) as [v' E']; [specialize (Hres v eq_refl); lia|].
    rewrite E'. cbn [bind]. do 2 eexists. split; [reflexivity|]. split; [reflexivity|]. cbn. split; [|split; [auto|split; [auto|eauto]]].
    constructor; cbn; auto; try apply Hz; try apply Hs; try lia. split; [apply Hp'|auto].
  - cbn [bind]. do 2 eexists. split; [reflexivity|]. split; [reflexivity|]. cbn. split; [|auto].
    constructor; cbn; auto; try apply Hz; try apply Hs; try lia. split; [apply Hp'|auto].
Qed.

(** ** The loop as iterated steps *)
Fixpoint steps (k : nat) (g : pcg_st F) : option (pcg_st F) :=
  match k with O => Some g | S k => g <- steps k g; pcg_step n Ax invMx g end.
Definition cond (max_iter : Z) (stop : F) (g : pcg_st F) : bool := (g_iter g <? max_iter) && flt stop (g_rn g).
Lemma steps_front k g : steps (S k) g = (g <- pcg_step n Ax invMx g; steps k g).
Proof. induction k as [|k IH]; [cbn; destruct (pcg_step n Ax invMx g); reflexivity|]. cbn [steps] in *. rewrite IH. destruct (pcg_step n Ax invMx g); reflexivity. Qed.
Lemma loop_steps max_iter stop : forall fuel g g', pcg_loop n fuel Ax invMx max_iter stop g = Some g' ->
  exists k, steps k g = Some g' /\ cond max_iter stop g' = false /\
    forall j, (j < k)%nat -> exists gj, steps j g = Some gj /\ cond max_iter stop gj = true.
Proof.
  induction fuel as [|fuel IH]; intros g g'; cbn [pcg_loop]; fold (cond max_iter stop g); destruct (cond max_iter stop g) eqn:Ec; try discriminate.
  2:{ destruct (pcg_step n Ax invMx g) as [g1|] eqn:E1; [|discriminate]. cbn [bind]. intros H. destruct (IH g1 g' H) as (k & Ek & Hc & Hj).
      exists (S k). rewrite steps_front, E1. cbn [bind]. repeat split; auto. intros [|j] Hj'; [exists g; auto|]. rewrite steps_front, E1. cbn [bind]. apply Hj. lia. }
  all: intros [= <-]; exists O; repeat split; auto; intros; lia.
Qed.
Lemma steps_loop max_iter stop : forall k fuel g g', (k <= fuel)%nat -> steps k g = Some g' -> cond max_iter stop g' = false ->
  (forall j gj, (j < k)%nat -> steps j g = Some gj -> cond max_iter stop gj = true) -> pcg_loop n fuel Ax invMx max_iter stop g = Some g'.
Proof.
  induction k as [|k IH]; intros fuel g g' Hf Ek Hc Hj.
  - injection Ek as ->. destruct fuel; cbn [pcg_loop]; fold (cond max_iter stop g'); now rewrite Hc.
  - destruct fuel as [|fuel]; [lia|]. cbn [pcg_loop]. fold (cond max_iter stop g). rewrite (Hj O g) by (cbn; auto; lia).
    rewrite steps_front in Ek. destruct (pcg_step n Ax invMx g) as [g1|] eqn:E1; [|discriminate]. cbn [bind] in *.
    apply IH; auto; [lia|]. intros j gj Hj' Ej. apply (Hj (S j)); [lia|]. rewrite steps_front, E1. exact Ej.
Qed.
(** Counters and the recorded norms after k steps. *)
Lemma steps_iter k : forall g g', 0 <= g_iter g -> steps k g = Some g' -> g_iter g' = g_iter g + Z.of_nat k.
Proof.
  induction k as [|k IH]; intros g g' Hg E; [injection E as <-; lia|]. cbn [steps] in E. destruct (steps k g) as [g1|] eqn:E1; [|discriminate]. cbn [bind] in E.
  specialize (IH g g1 Hg E1). enough (g_iter g' = g_iter g1 + 1) by lia. revert E. unfold pcg_step.
  destruct (match invMx with Some _ => _ | None => _ end); [|discriminate]. cbn [bind]. destruct (sum_prod n _ _); [|discriminate]. cbn [bind]. destruct (fdiv _ _); [|discriminate]. cbn [bind].
  destruct (if g_iter g1 =? 0 then _ else _); [|discriminate]. cbn [bind]. destruct (call n _ _ _); [|discriminate]. cbn [bind]. destruct (sum_prod n _ _); [|discriminate]. cbn [bind]. destruct (fdiv _ _); [|discriminate]. cbn [bind].
  destruct (update_xr n _ _ _ _ _) as [[[? ?] ?]|]; [|discriminate]. cbn [bind]. destruct (match g_res g1 with Some _ => _ | None => _ end); [|discriminate]. cbn [bind]. now intros [= <-].
Qed.

(** A relation between iterate and residual that every update keeps, and the
    recorded norms. *)
Lemma steps_inv (I : (Z -> F) -> (Z -> F) -> Prop)
    (HI : forall fx fr p a, I fx fr -> I (fun i => fadd (fx i) (fmul a (p i))) (fun i => fsub (fr i) (fmul a (app Ax p i))))
    g0 fx0 fr0 fp0 : rep g0 fx0 fr0 fp0 -> I fx0 fr0 -> g_iter g0 = 0 -> forall k g, steps k g0 = Some g ->
  (forall v, g_res g0 = Some v -> Z.of_nat k <= zlen v) ->
  (exists fx fr fp, rep g fx fr fp /\ I fx fr) /\
  match g_res g0 with
  | None => g_res g = None
  | Some v => exists v', g_res g = Some v' /\ zlen v' = zlen v /\
      (forall i, Z.of_nat k <= i -> getz v' i = getz v i) /\
      forall i, (i < k)%nat -> exists gi, steps (S i) g0 = Some gi /\ ld v' (Z.of_nat i) = Some (g_rn gi)
  end.
Proof.
  intros HR H0 Hi. induction k as [|k IH]; intros g E Hv.
  - injection E as <-. split; [eauto 6|]. destruct (g_res g0) as [v|]; auto. exists v. repeat split; auto. intros; lia.
  - assert (E0 := E). cbn [steps] in E. destruct (steps k g0) as [g1|] eqn:E1; [|discriminate]. cbn [bind] in E.
    destruct (IH g1 eq_refl) as [(fx & fr & fp & HR1 & HI1) HV]; [intros v Ev; specialize (Hv v Ev); lia|].
    assert (Hit : g_iter g1 = Z.of_nat k) by (rewrite (steps_iter k g0 g1); auto; lia).
    destruct (step_spec g1 fx fr fp HR1) as [[EN _]|(beta & _ & [[EN _]|(alpha & g' & _ & E' & HR' & _ & Hit' & HV')])]; try congruence.
    { intros v Ev. destruct (g_res g0) as [v0|]; [|congruence]. destruct HV as (v' & Ev' & Lv & _). specialize (Hv v0 eq_refl). replace v with v' by congruence. lia. }
    replace g' with g in * by congruence. split; [do 3 eexists; split; [exact HR'|]; now apply HI|].
    destruct (g_res g0) as [v0|].
    + destruct HV as (v' & Ev' & Lv & Gv & Sv). rewrite Ev' in HV'. destruct HV' as (v2 & Ev2 & Es). exists v2. split; auto. split; [rewrite (st_zlen _ _ _ _ Es); auto|]. split.
      * intros i Hi'. rewrite (getz_st _ _ _ _ i Es). destruct (Z.eqb_spec (g_iter g1) i); [lia|]. apply Gv. lia.
      * intros i Hi'. destruct (Nat.eq_dec i k) as [->|Ni].
        -- exists g. split; auto. rewrite (ld_st _ _ _ _ (Z.of_nat k) Es), Hit, Z.eqb_refl. reflexivity.
        -- destruct (Sv i ltac:(lia)) as (gi & Egi & El). exists gi. split; auto. rewrite (ld_st _ _ _ _ (Z.of_nat i) Es). destruct (Z.eqb_spec (g_iter g1) (Z.of_nat i)); [lia|auto].
    + rewrite HV in HV'. exact HV'.
Qed.

(** The state before the loop. *)
Lemma start_spec tol b x res fb fx : hold b fb -> hold x fx ->
  let fr := fun i => fsub (fb i) (app Ax fx i) in
  let bn := fsqrt (fsum (fun i => fmul (fb i) (fb i))) in
  exists g, rep g fx fr fx /\ g_x g = x /\ g_iter g = 0 /\ g_rho g = flit 1%Q /\ g_res g = res /\
    forall max_iter, pcg n tol max_iter Ax b invMx x res =
    (g <- pcg_loop n (Z.to_nat max_iter) Ax invMx max_iter (fmul bn tol) g;
     relres <- fdiv (g_rn g) bn;
     Some (POut (g_x g) (if fle (g_rn g) (fmul bn tol) then 0 else 1) relres (g_iter g) (g_res g))).
Proof.
  intros Hb Hx fr bn. unfold pcg.
  destruct (call_spec Ax x (alloc n) fx) as (r & Er & Hr); auto using hold_alloc. rewrite Er. cbn [bind].
  match goal with |- context [zfor 0 n ?bd r] => destruct (map_hold (fun i v => fsub (fb i) v) bd r _ Hr) as (r' & Er' & Hr') end.
  { intros i m Hi E. destruct Hb as [_ Hb]. rewrite Hb, E by auto. reflexivity. }
  rewrite Er'. cbn [bind]. rewrite (sum_spec b b fb fb) by auto. cbn [bind]. rewrite (sum_spec r' r' _ _ Hr' Hr'). cbn [bind].
  eexists (PSt x r' (alloc n) (alloc n) (alloc n) (flit 1%Q) _ res 0). split; [|cbn; split; [auto|split; [auto|split; [auto|split; [auto|reflexivity]]]]].
  constructor; cbn; auto using hold_alloc; try lia; try reflexivity. split; [apply hold_alloc|]. congruence.
Qed.
End PCG.
