(** H2P_ext_krnl_mv: padded kernel matvec (Model_PerMv.v). *)
From Coq Require Import ZArith QArith List Lia Bool Permutation.
From Verif Require Import Base Mem Num CRing Conc Model_Utils Model_Dense Spec_Dense Proof_Dense2 Model_Partition Model_Matvec Spec_Matvec Proof_Gemv Model_Build Proof_Build Proof_BuildFill Model_JIT Proof_JitBlk Proof_JitExt Proof_Gemm Model_PerMv.
Import ListNotations.
Open Scope Z_scope.

Section Ext.
Context {F : num} {K : cring}.
Add Ring Kring : (cth K).
Local Open Scope ring_K.
Variable kern : list F -> list F -> Z -> Z -> K.

Section Mv.
Variables (dim kdim : Z) (c0s c1s : mem F) (n0 n1 : Z) (P Q : Z -> list F) (inp : mem K) (X : Z -> Z -> K).
Hypothesis Hk : 1 <= kdim.
Hypothesis Hn0 : 0 <= n0.
Hypothesis Hn1 : 0 <= n1.
Hypothesis HP : forall i, 0 <= i < n0 -> point dim c0s 0 n0 i = Some (P i).
Hypothesis HQ : forall j, 0 <= j < n1 -> point dim c1s 0 n1 j = Some (Q j).
Hypothesis HX : forall b j, 0 <= b < kdim -> 0 <= j < n1 -> ld inp (b * n1 + j) = Some (X b j).

Definition vI (o : mem K) : Prop := zlen o = (kdim * n0)%Z /\ (forall k, 0 <= k < kdim * n0 -> exists v, ld o k = Some v).
Definition vT (p : Z) (o : mem K) : K := val c0 (ld o p).
Definition vf (i j a b : Z) (p : Z) : K := if p =? a * n0 + i then kern (P i) (Q j) a b * X b j else c0.

Lemma krnl_mv_spec out : vI out ->
  exists o, krnl_mv kern dim kdim c0s n0 n0 c1s n1 n1 inp out = Some o /\ vI o /\
    (forall a i, 0 <= a < kdim -> 0 <= i < n0 -> val c0 (ld o (a * n0 + i)) = val c0 (ld out (a * n0 + i)) + rsum 0 n1 (fun j => rsum 0 kdim (fun b => kern (P i) (Q j) a b * X b j))).
Proof.
  intros B0. unfold krnl_mv.
  match goal with |- context [zfor 0 n0 ?body ?z] =>
    destruct (zfor_sums (P := Z) vI (fun _ => True) vT 0 n0 body (fun p i => rsum 0 n1 (fun j => rsum 0 kdim (fun a => rsum 0 kdim (fun b => vf i j a b p)))) z Hn0 B0) as (o & E & B & T) end.
  - intros i o Hi Bo. rewrite (HP i Hi). cbn [bind].
    match goal with |- context [zfor 0 n1 ?body o] =>
      destruct (zfor_sums (P := Z) vI (fun _ => True) vT 0 n1 body (fun p j => rsum 0 kdim (fun a => rsum 0 kdim (fun b => vf i j a b p))) o Hn1 Bo) as (o2 & E2 & B2 & T2); [|eauto] end.
    clear o Bo. intros j o Hj Bo. rewrite (HQ j Hj). cbn [bind].
    match goal with |- context [zfor 0 kdim ?body o] =>
      destruct (zfor_sums (P := Z) vI (fun _ => True) vT 0 kdim body (fun p a => rsum 0 kdim (fun b => vf i j a b p)) o ltac:(lia) Bo) as (o2 & E2 & B2 & T2); [|eauto] end.
    clear o Bo. intros a o Ha Bo.
    match goal with |- context [zfor 0 kdim ?body o] =>
      destruct (zfor_sums (P := Z) vI (fun _ => True) vT 0 kdim body (fun p b => vf i j a b p) o ltac:(lia) Bo) as (o2 & E2 & B2 & T2); [|eauto] end.
    clear o Bo. intros b o Hb (B1 & B3).
    rewrite HX by auto. cbn [bind]. pose proof (grid_range kdim n0 a i Ha Hi) as R0.
    destruct (B3 _ R0) as (v0 & V0).
    destruct (madd_spec o (a * n0 + i)%Z (kern (P i) (Q j) a b * X b j) v0 V0) as (d0 & D0 & Zd0 & G0). rewrite D0.
    eexists. split; [reflexivity|]. split.
    + split; [lia|]. intros k Hk'. rewrite G0. destruct (_ =? k); eauto.
    + intros k _; unfold vT, vf. rewrite G0. destruct (Z.eqb_spec (a * n0 + i) k); destruct (Z.eqb_spec k (a * n0 + i)); try lia; [subst k; rewrite V0; cbn [val]; ring|ring].
  - exists o. split; auto. split; auto. intros a i Ha Hi. specialize (T (a * n0 + i)%Z Logic.I). unfold vT in T at 1 2. rewrite T. f_equal.
    rewrite (rsum_only 0 n0 (fun i0 => rsum 0 n1 (fun j => rsum 0 kdim (fun a0 => rsum 0 kdim (fun b => vf i0 j a0 b (a * n0 + i)%Z)))) i Hi).
    + apply rsum_ext. intros j Hj.
      rewrite (rsum_only 0 kdim (fun a0 => rsum 0 kdim (fun b => vf i j a0 b (a * n0 + i)%Z)) a Ha).
      { apply rsum_ext. intros b Hb. unfold vf. now rewrite Z.eqb_refl. }
      intros a' Ha' Hne. apply rsum_zero. intros b Hb. unfold vf.
      destruct (Z.eqb_spec (a * n0 + i) (a' * n0 + i)) as [e|]; [apply grid_inj in e; lia|reflexivity].
    + intros i' Hi' Hne. apply rsum_zero. intros j Hj. apply rsum_zero. intros a' Ha'. apply rsum_zero. intros b Hb. unfold vf.
      destruct (Z.eqb_spec (a * n0 + i) (a' * n0 + i')) as [e|]; [apply grid_inj in e; lia|reflexivity].
Qed.
End Mv.

Variable simd : Z.
Hypothesis Hs : 1 <= simd.

Lemma pad_points_v (pad : F) dim (cs : mem F) o ldc n (R : Z -> list F) : 0 <= dim -> 0 <= n -> (forall i, 0 <= i < n -> point dim cs o ldc i = Some (R i)) ->
  exists m R', pad_rows pad dim n (ext_len simd n) (fun k => ld cs (o + k)) ldc = Some m /\
    (forall i, 0 <= i < ext_len simd n -> point dim m 0 (ext_len simd n) i = Some (R' i)) /\ (forall i, 0 <= i < n -> R' i = R i).
Proof.
  intros Hd Hn HR. pose proof (ext_len_ge simd n Hs Hn) as Ge.
  destruct (pad_rows_spec pad dim n (ext_len simd n) (fun k => ld cs (o + k)) ldc (fun d j => nth (Z.to_nat d) (R j) (nlit 0%Q))) as (m & E & Zm & G); auto.
  { intros d j Hd' Hj. apply point_cells with (dim := dim); auto. }
  exists m, (fun i => map (fun d => if i <? n then nth (Z.to_nat d) (R i) (nlit 0%Q) else pad) (zrange 0 dim)).
  split; auto. split.
  - intros i Hi. unfold point. apply all_some_map. intros d Hd'. apply In_zrange in Hd'. rewrite <- (G d i Hd' Hi). f_equal.
  - intros i Hi. specialize (HR i Hi). destruct (Z.ltb_spec i n); [|lia].
    pose proof (point_cells _ _ _ _ _ _ HR) as C. unfold point in HR.
    rewrite (all_some_map _ (fun d => nth (Z.to_nat d) (R i) (nlit 0%Q))) in HR; [congruence|].
    intros d Hd'. apply In_zrange in Hd'. rewrite <- (C d Hd'). f_equal. lia.
Qed.

Lemma ext_krnl_mv_spec dim kdim (cs0 : mem F) o0 ld0 n0 (cs1 : mem F) o1 ld1 n1 (P Q : Z -> list F) (xin : mem K) oi ldi (X : Z -> K) (out : mem K) oo ldo (g : Z -> K) :
  0 <= dim -> 1 <= kdim -> 0 <= n0 -> 0 <= n1 ->
  (forall i, 0 <= i < n0 -> point dim cs0 o0 ld0 i = Some (P i)) -> (forall j, 0 <= j < n1 -> point dim cs1 o1 ld1 j = Some (Q j)) ->
  (forall b j, 0 <= b < kdim -> 0 <= j < n1 -> ld xin (oi + (b * ldi + j)) = Some (X (j * kdim + b)%Z)) ->
  fits kdim n0 oo ldo (zlen out) ->
  (forall a i, 0 <= a < kdim -> 0 <= i < n0 -> ld out (oo + (a * ldo + i)) = Some (g (i * kdim + a)%Z)) ->
  exists out', ext_krnl_mv kern simd dim kdim cs0 o0 ld0 n0 cs1 o1 ld1 n1 xin oi ldi out oo ldo = Some out' /\ zlen out' = zlen out /\
    (forall a i, 0 <= a < kdim -> 0 <= i < n0 -> ld out' (oo + (a * ldo + i)) =
       Some (g (i * kdim + a)%Z + rsum 0 (n1 * kdim)%Z (fun cc => kern (P i) (Q (cc / kdim)%Z) a (cc mod kdim)%Z * X cc))) /\
    (forall k, (forall a i, 0 <= a < kdim -> 0 <= i < n0 -> k <> (oo + (a * ldo + i))%Z) -> getz out' k = getz out k).
Proof.
  intros Hd Hk Hn0 Hn1 HP HQ HX Hf Hg. unfold ext_krnl_mv.
  pose proof (ext_len_ge simd n0 Hs Hn0) as Ge0. pose proof (ext_len_ge simd n1 Hs Hn1) as Ge1.
  cbv zeta.
  destruct (pad_points_v far_away dim cs0 o0 ld0 n0 P Hd Hn0 HP) as (trg & P' & E0 & HP' & EP).
  destruct (pad_points_v far_away dim cs1 o1 ld1 n1 Q Hd Hn1 HQ) as (src & Q' & E1 & HQ' & EQ).
  rewrite E0, E1. clear E0 E1. set (n0e := ext_len simd n0) in *. set (n1e := ext_len simd n1) in *.
  destruct (Z.ltb_spec ((dim + kdim) * (n0e + n1e)) (dim * n0e + dim * n1e + n1e * kdim + n0e * kdim)) as [Hbad|_]; [nia|]. cbn [bind].
  destruct (pad_rows_spec (c0 : K) kdim n1 n1e (fun k => ld xin (oi + k)) ldi (fun b j => X (j * kdim + b)%Z)) as (X0 & E2 & Z2 & G2); auto; try lia. rewrite E2. cbn [bind].
  destruct (mzero_spec (c0 : K) (alloc (n0e * kdim)) (n0e * kdim)) as (q0 & E4 & Z4 & G4); [rewrite zlen_alloc; nia|]. rewrite E4. cbn [bind].
  rewrite zlen_alloc in Z4 by nia.
  destruct (krnl_mv_spec dim kdim trg src n0e n1e P' Q' X0 (fun b j => if j <? n1 then X (j * kdim + b)%Z else c0)) with (out := q0) as (r0 & E6 & (Y1 & Y3) & R0); auto; try lia.
  { split; [lia|]. intros k Hk'; eexists; apply G4; lia. }
  rewrite E6. cbn [bind].
  set (S0 := fun a i => rsum 0 (n1 * kdim)%Z (fun cc => kern (P i) (Q (cc / kdim)%Z) a (cc mod kdim)%Z * X cc)).
  assert (R0' : forall a i, 0 <= a < kdim -> 0 <= i < n0 -> ld r0 (a * n0e + i) = Some (S0 a i)).
  { intros a i Ha Hi. destruct (Y3 (a * n0e + i)%Z) as (v & V); [apply grid_range; lia|]. rewrite V. f_equal.
    specialize (R0 a i Ha ltac:(lia)). rewrite V in R0. cbn [val] in R0. rewrite R0, G4 by (rewrite (Z.mul_comm n0e); apply grid_range; lia). cbn [val].
    rewrite (rsum_pad n1 n1e) by first [lia | intros j Hj; apply rsum_zero; intros b Hb; destruct (Z.ltb_spec j n1); [lia|ring]].
    transitivity (c0 + S0 a i); [|ring]. f_equal. unfold S0. rewrite (rsum_grid n1 kdim) by lia. apply rsum_ext.
    intros j Hj. apply rsum_ext. intros b Hb. rewrite EP, EQ by auto. destruct (Z.ltb_spec j n1); [|lia].
    destruct (divmod_comp kdim j b Hk Hb) as [-> ->]. reflexivity. }
  destruct (region_loop kdim n0 oo ldo (fun i j out => v <- ld r0 (i * n0e + j)%Z; madd out (oo + (i * ldo + j))%Z v) (fun a i => g (i * kdim + a)%Z + S0 a i) out Hf) as (out' & E & Zo & Vo & Oo).
  - intros a i D Ha Hi ZD GD. rewrite (R0' a i Ha Hi). cbn [bind].
    assert (V : ld D (oo + (a * ldo + i)) = Some (g (i * kdim + a)%Z)) by (specialize (Hg a i Ha Hi); unfold ld in *; now rewrite GD).
    unfold madd. rewrite V. cbn [bind]. destruct (st_Some D (oo + (a * ldo + i))%Z (g (i * kdim + a)%Z + S0 a i)) as [D' ED].
    { apply ld_range in V. lia. }
    exists D'. split; auto. split; [apply (st_zlen _ _ _ _ ED)|]. intros x. rewrite (getz_st _ _ _ _ _ ED). rewrite (Z.eqb_sym x). reflexivity.
  - exists out'. split; [exact E|]. auto.
Qed.
End Ext.
