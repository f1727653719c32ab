(** H2P_ext_krnl_bimv: padded kernel bi-matvec (Model_JIT.v). *)
From Coq Require Import ZArith QArith List Lia Bool Permutation.
From Verif Require Import Base Mem Num CRing Conc Model_Utils Model_Dense Spec_Dense Proof_Dense2 Model_Partition Model_Matvec Spec_Matvec Proof_Gemv Model_Build Proof_Build Proof_BuildFill Model_JIT Proof_JitBlk.
Import ListNotations.
Open Scope Z_scope.

Lemma grid_range rows next i j : 0 <= i < rows -> 0 <= j < next -> 0 <= i * next + j < rows * next.
Proof. intros Hi Hj. assert (i * next <= (rows - 1) * next) by (apply Z.mul_le_mono_nonneg_r; lia). assert (0 <= i * next) by nia. lia. Qed.
Lemma grid_inj next i j i' j' : 0 <= j < next -> 0 <= j' < next -> i * next + j = i' * next + j' -> i = i' /\ j = j'.
Proof.
  intros Hj Hj' E. assert (i = i').
  { assert (E1 : (i * next + j) / next = i) by (rewrite Z.div_add_l, (Z.div_small j next) by lia; lia).
    assert (E2 : (i' * next + j') / next = i') by (rewrite Z.div_add_l, (Z.div_small j' next) by lia; lia). congruence. }
  subst. lia.
Qed.

Lemma pad_rows_spec {A} (zero : A) rows n next (rd : Z -> option A) lds (f : Z -> Z -> A) : 0 <= rows -> 0 <= n <= next ->
  (forall i j, 0 <= i < rows -> 0 <= j < n -> rd (i * lds + j) = Some (f i j)) ->
  exists m, pad_rows zero rows n next rd lds = Some m /\ zlen m = rows * next /\
    forall i j, 0 <= i < rows -> 0 <= j < next -> ld m (i * next + j) = Some (if j <? n then f i j else zero).
Proof.
  intros Hr Hn Hrd. unfold pad_rows.
  pose (P := fun (i : Z) (m : mem A) => zlen m = rows * next /\
    forall i' j, 0 <= i' < i -> 0 <= j < next -> ld m (i' * next + j) = Some (if j <? n then f i' j else zero)).
  match goal with |- context [zfor 0 rows ?b ?z] => destruct (zfor_inv P 0 rows b z) as (m & E & Zm & Gm) end; auto.
  - split; [rewrite zlen_alloc; nia|]. intros; lia.
  - intros i m Hi [Zm Gm].
    pose (P2 := fun (j : Z) (m' : mem A) => zlen m' = rows * next /\ (forall i' j, 0 <= i' < i -> 0 <= j < next -> ld m' (i' * next + j) = Some (if j <? n then f i' j else zero)) /\
      forall j', 0 <= j' < j -> ld m' (i * next + j') = Some (if j' <? n then f i j' else zero)).
    assert (Step : forall j m' v, 0 <= j < next -> P2 j m' -> v = (if j <? n then f i j else zero) -> exists m2, st m' (i * next + j) v = Some m2 /\ P2 (j + 1) m2).
    { intros j m' v Hj (Z1 & G1 & G2) ->. pose proof (grid_range rows next i j Hi Hj).
      destruct (st_Some m' (i * next + j) (if j <? n then f i j else zero)) as [m2 E2]; [lia|]. exists m2. split; auto.
      split; [rewrite (st_zlen _ _ _ _ E2); auto|]. split.
      - intros i' j' Hi' Hj'. rewrite (ld_st _ _ _ _ _ E2). destruct (Z.eqb_spec (i * next + j) (i' * next + j')) as [e|]; [|auto].
        apply grid_inj in e; lia.
      - intros j' Hj'. rewrite (ld_st _ _ _ _ _ E2). destruct (Z.eqb_spec (i * next + j) (i * next + j')).
        + replace j' with j by lia. auto.
        + apply G2. lia. }
    match goal with |- context [zfor 0 n ?b m] => destruct (zfor_inv P2 0 n b m) as (m1 & E1 & G1) end; [lia| | |].
    + split; auto. split; auto. intros; lia.
    + intros j m' Hj HP. rewrite Hrd by lia. cbn [bind]. apply Step; auto; [lia|]. destruct (Z.ltb_spec j n); [reflexivity|lia].
    + rewrite E1. cbn [bind]. match goal with |- context [zfor n next ?b m1] => destruct (zfor_inv P2 n next b m1) as (m2 & E2 & (Z2 & G2 & G3)) end; [lia|auto| |].
      * intros j m' Hj HP. apply Step; auto; [lia|]. destruct (Z.ltb_spec j n); [lia|reflexivity].
      * exists m2. split; auto. split; auto. intros i' j Hi' Hj. destruct (Z.eq_dec i' i) as [->|]; [auto|apply G2; lia].
  - eauto.
Qed.

Section Ext.
Context {F : num} {K : cring}.
Add Ring Kring : (cth K).
Local Open Scope ring_K.

Lemma zfor_sums {St P} (I : St -> Prop) (D : P -> Prop) (T : P -> St -> K) lo hi (body : Z -> St -> option St) (f : P -> Z -> K) s : lo <= hi -> I s ->
  (forall i s, lo <= i < hi -> I s -> exists s', body i s = Some s' /\ I s' /\ forall p, D p -> T p s' = T p s + f p i) ->
  exists s', zfor lo hi body s = Some s' /\ I s' /\ forall p, D p -> T p s' = T p s + rsum lo hi (f p).
Proof.
  intros Hl Is Hb. destruct (zfor_inv (fun i s' => I s' /\ forall p, D p -> T p s' = T p s + rsum lo i (f p)) lo hi body s) as (s' & E & I' & T'); auto.
  - split; auto. intros p _. rewrite rsum_empty by lia. ring.
  - intros i s1 Hi [I1 T1]. destruct (Hb i s1 Hi I1) as (s2 & E2 & I2 & T2). exists s2. split; auto. split; auto.
    intros p Hp. rewrite T2, T1, rsum_snoc by (auto; lia). ring.
  - eauto.
Qed.

Variable kern : list F -> list F -> Z -> Z -> K.

(** *** The user's krnl_bimv *)
Section Bimv.
Variables (dim kdim : Z) (c0s c1s : mem F) (n0 n1 : Z) (P Q : Z -> list F) (in0 in1 : mem K) (X0 X1 : Z -> Z -> K).
Hypothesis Hk : 1 <= kdim.
Hypothesis Hn0 : 0 <= n0.
Hypothesis Hn1 : 0 <= n1.
Hypothesis HP : forall i, 0 <= i < n0 -> point dim c0s 0 n0 i = Some (P i).
Hypothesis HQ : forall j, 0 <= j < n1 -> point dim c1s 0 n1 j = Some (Q j).
Hypothesis HX0 : forall b j, 0 <= b < kdim -> 0 <= j < n1 -> ld in0 (b * n1 + j) = Some (X0 b j).
Hypothesis HX1 : forall a i, 0 <= a < kdim -> 0 <= i < n0 -> ld in1 (a * n0 + i) = Some (X1 a i).

Definition bI (o : mem K * mem K) : Prop := zlen (fst o) = (kdim * n0)%Z /\ zlen (snd o) = (kdim * n1)%Z /\
  (forall k, 0 <= k < kdim * n0 -> exists v, ld (fst o) k = Some v) /\ (forall k, 0 <= k < kdim * n1 -> exists v, ld (snd o) k = Some v).
Definition bT (p : bool * Z) (o : mem K * mem K) : K := if fst p then val c0 (ld (snd o) (snd p)) else val c0 (ld (fst o) (snd p)).
Definition bf (i j a b : Z) (p : bool * Z) : K :=
  if fst p then if snd p =? b * n1 + j then kern (P i) (Q j) a b * X1 a i else c0
  else if snd p =? a * n0 + i then kern (P i) (Q j) a b * X0 b j else c0.

Lemma krnl_bimv_spec out0 out1 : bI (out0, out1) ->
  exists o0 o1, krnl_bimv kern dim kdim c0s n0 n0 c1s n1 n1 in0 in1 out0 out1 = Some (o0, o1) /\ bI (o0, o1) /\
    (forall a i, 0 <= a < kdim -> 0 <= i < n0 -> val c0 (ld o0 (a * n0 + i)) = val c0 (ld out0 (a * n0 + i)) + rsum 0 n1 (fun j => rsum 0 kdim (fun b => kern (P i) (Q j) a b * X0 b j))) /\
    (forall b j, 0 <= b < kdim -> 0 <= j < n1 -> val c0 (ld o1 (b * n1 + j)) = val c0 (ld out1 (b * n1 + j)) + rsum 0 n0 (fun i => rsum 0 kdim (fun a => kern (P i) (Q j) a b * X1 a i))).
Proof.
  intros B0. unfold krnl_bimv.
  match goal with |- context [zfor 0 n0 ?body ?z] =>
    destruct (zfor_sums (P := bool * Z) bI (fun _ => True) bT 0 n0 body (fun p i => rsum 0 n1 (fun j => rsum 0 kdim (fun a => rsum 0 kdim (fun b => bf i j a b p)))) z Hn0 B0) as ([o0 o1] & E & B & T) end.
  - intros i o Hi Bo. rewrite (HP i Hi). cbn [bind].
    match goal with |- context [zfor 0 n1 ?body o] =>
      destruct (zfor_sums (P := bool * Z) bI (fun _ => True) bT 0 n1 body (fun p j => rsum 0 kdim (fun a => rsum 0 kdim (fun b => bf i j a b p))) o Hn1 Bo) as (o2 & E2 & B2 & T2); [|eauto] end.
    clear o Bo. intros j o Hj Bo. rewrite (HQ j Hj). cbn [bind].
    match goal with |- context [zfor 0 kdim ?body o] =>
      destruct (zfor_sums (P := bool * Z) bI (fun _ => True) bT 0 kdim body (fun p a => rsum 0 kdim (fun b => bf i j a b p)) o ltac:(lia) Bo) as (o2 & E2 & B2 & T2); [|eauto] end.
    clear o Bo. intros a o Ha Bo.
    match goal with |- context [zfor 0 kdim ?body o] =>
      destruct (zfor_sums (P := bool * Z) bI (fun _ => True) bT 0 kdim body (fun p b => bf i j a b p) o ltac:(lia) Bo) as (o2 & E2 & B2 & T2); [|eauto] end.
    clear o Bo. intros b [o0 o1] Hb (B1 & B2 & B3 & B4). cbn [fst snd] in *.
    rewrite HX0, HX1 by auto. cbn [bind]. pose proof (grid_range kdim n0 a i Ha Hi) as R0. pose proof (grid_range kdim n1 b j Hb Hj) as R1.
    destruct (B3 _ R0) as (v0 & V0). destruct (B4 _ R1) as (v1 & V1).
    destruct (madd_spec o0 (a * n0 + i)%Z (kern (P i) (Q j) a b * X0 b j) v0 V0) as (d0 & D0 & Zd0 & G0). rewrite D0. cbn [bind].
    destruct (madd_spec o1 (b * n1 + j)%Z (kern (P i) (Q j) a b * X1 a i) v1 V1) as (d1 & D1 & Zd1 & G1). rewrite D1. cbn [bind].
    eexists. split; [reflexivity|]. split.
    + split; [cbn; lia|]. split; [cbn; lia|]. cbn [fst snd]. split; intros k Hk'.
      * rewrite G0. destruct (_ =? k); eauto.
      * rewrite G1. destruct (_ =? k); eauto.
    + intros [[|] k] _; unfold bT, bf; cbn [fst snd].
      * rewrite G1. destruct (Z.eqb_spec (b * n1 + j) k); destruct (Z.eqb_spec k (b * n1 + j)); try lia; [subst k; rewrite V1; cbn [val]; ring|ring].
      * rewrite G0. destruct (Z.eqb_spec (a * n0 + i) k); destruct (Z.eqb_spec k (a * n0 + i)); try lia; [subst k; rewrite V0; cbn [val]; ring|ring].
  - exists o0, o1. split; auto. split; auto. split.
    + intros a i Ha Hi. specialize (T (false, (a * n0 + i)%Z) Logic.I). unfold bT in T at 1 2. cbn [fst snd] in T. rewrite T. f_equal.
      rewrite (rsum_only 0 n0 (fun i0 => rsum 0 n1 (fun j => rsum 0 kdim (fun a0 => rsum 0 kdim (fun b => bf i0 j a0 b (false, (a * n0 + i)%Z))))) i Hi).
      * apply rsum_ext. intros j Hj.
        rewrite (rsum_only 0 kdim (fun a0 => rsum 0 kdim (fun b => bf i j a0 b (false, (a * n0 + i)%Z))) a Ha).
        { apply rsum_ext. intros b Hb. unfold bf. cbn [fst snd]. now rewrite Z.eqb_refl. }
        intros a' Ha' Hne. apply rsum_zero. intros b Hb. unfold bf. cbn [fst snd].
        destruct (Z.eqb_spec (a * n0 + i) (a' * n0 + i)) as [e|]; [apply grid_inj in e; lia|reflexivity].
      * intros i' Hi' Hne. apply rsum_zero. intros j Hj. apply rsum_zero. intros a' Ha'. apply rsum_zero. intros b Hb. unfold bf. cbn [fst snd].
        destruct (Z.eqb_spec (a * n0 + i) (a' * n0 + i')) as [e|]; [apply grid_inj in e; lia|reflexivity].
    + intros b j Hb Hj. specialize (T (true, (b * n1 + j)%Z) Logic.I). unfold bT in T at 1 2. cbn [fst snd] in T. rewrite T. f_equal.
      apply rsum_ext. intros i Hi.
      rewrite (rsum_only 0 n1 (fun j0 => rsum 0 kdim (fun a0 => rsum 0 kdim (fun b0 => bf i j0 a0 b0 (true, (b * n1 + j)%Z)))) j Hj).
      * apply rsum_ext. intros a Ha.
        rewrite (rsum_only 0 kdim (fun b0 => bf i j a b0 (true, (b * n1 + j)%Z)) b Hb).
        { unfold bf. cbn [fst snd]. now rewrite Z.eqb_refl. }
        intros b' Hb' Hne. unfold bf. cbn [fst snd].
        destruct (Z.eqb_spec (b * n1 + j) (b' * n1 + j)) as [e|]; [apply grid_inj in e; lia|reflexivity].
      * intros j' Hj' Hne. apply rsum_zero. intros a' Ha'. apply rsum_zero. intros b' Hb'. unfold bf. cbn [fst snd].
        destruct (Z.eqb_spec (b * n1 + j) (b' * n1 + j')) as [e|]; [apply grid_inj in e; lia|reflexivity].
Qed.
End Bimv.

Lemma ext_len_ge simd n : 1 <= simd -> 0 <= n -> n <= ext_len simd n.
Proof.
  intros Hs Hn. unfold ext_len. pose proof (Z.div_mod (n + simd - 1) simd ltac:(lia)) as D. pose proof (Z.mod_pos_bound (n + simd - 1) simd ltac:(lia)). lia.
Qed.
Lemma point_cells dim (c : mem F) off ldc j l : point dim c off ldc j = Some l ->
  forall d, 0 <= d < dim -> ld c (off + (d * ldc + j)) = Some (nth (Z.to_nat d) l (nlit 0%Q)) .
Proof.
  unfold point. intros H d Hd.
  assert (G : forall ds l, all_some (map (fun d => ld c (off + d * ldc + j)) ds) = Some l -> forall n d, nth_error ds n = Some d -> ld c (off + d * ldc + j) = Some (nth n l (nlit 0%Q))).
  { clear. induction ds as [|d0 ds IH]; intros l H n d Hn; [destruct n; discriminate|]. cbn [map all_some] in H.
    destruct (ld c (off + d0 * ldc + j)) as [x|] eqn:Ex; [|discriminate]. cbn [bind] in H.
    destruct (all_some _) as [xs|] eqn:Exs; [|discriminate]. cbn [bind] in H. injection H as <-.
    destruct n; cbn in Hn |- *; [injection Hn as <-; auto|]. eapply IH; eauto. }
  specialize (G _ _ H (Z.to_nat d) d). rewrite Z.add_assoc. apply G.
  pose proof (getz_zrange 0 dim d ltac:(lia)) as E. unfold getz in E. destruct (Z.leb_spec 0 d); [|lia]. rewrite E. f_equal; lia.
Qed.

Lemma rsum_pad n ne (f : Z -> K) : 0 <= n <= ne -> (forall j, n <= j < ne -> f j = c0) -> rsum 0 ne f = rsum 0 n f.
Proof. intros Hn Hz. rewrite (rsum_split 0 n ne) by lia. rewrite (rsum_zero n ne) by auto. ring. Qed.

(** *** H2P_ext_krnl_bimv *)
Section ExtB.
Variables (simd dim kdim : Z) (cs0 : mem F) (o0 ld0 n0 : Z) (cs1 : mem F) (o1 ld1 n1 : Z) (P Q : Z -> list F).
Hypothesis Hs : 1 <= simd.
Hypothesis Hd : 0 <= dim.
Hypothesis Hk : 1 <= kdim.
Hypothesis Hn0 : 0 <= n0.
Hypothesis Hn1 : 0 <= n1.
Hypothesis HP : forall i, 0 <= i < n0 -> point dim cs0 o0 ld0 i = Some (P i).
Hypothesis HQ : forall j, 0 <= j < n1 -> point dim cs1 o1 ld1 j = Some (Q j).
Context {St : Type}.
Variables (I : St -> Prop) (D : Z -> Prop) (T : Z -> St -> K) (w0 w1 : Z -> Z -> K) (x0 x1 : Z -> K).
Variables (in0 in1 : Z -> option K) (ldi0 ldi1 ldo0 ldo1 : Z) (add0 add1 : Z -> K -> St -> option St).
Hypothesis H0 : forall b j, 0 <= b < kdim -> 0 <= j < n1 -> in0 (b * ldi0 + j)%Z = Some (x0 (j * kdim + b)%Z).
Hypothesis H1 : forall a i, 0 <= a < kdim -> 0 <= i < n0 -> in1 (a * ldi1 + i)%Z = Some (x1 (i * kdim + a)%Z).
Hypothesis A0 : forall a i v s, 0 <= a < kdim -> 0 <= i < n0 -> I s -> exists s', add0 (a * ldo0 + i)%Z v s = Some s' /\ I s' /\
  forall p, D p -> T p s' = T p s + w0 p (i * kdim + a)%Z * v.
Hypothesis A1 : forall b j v s, 0 <= b < kdim -> 0 <= j < n1 -> I s -> exists s', add1 (b * ldo1 + j)%Z v s = Some s' /\ I s' /\
  forall p, D p -> T p s' = T p s + w1 p (j * kdim + b)%Z * v.

Lemma pad_points (cs : mem F) o ldc n (R : Z -> list F) : 0 <= n -> (forall i, 0 <= i < n -> point dim cs o ldc i = Some (R i)) ->
  exists m R', pad_rows (nlit 0%Q) dim n (ext_len simd n) (fun k => ld cs (o + k)) ldc = Some m /\
    (forall i, 0 <= i < ext_len simd n -> point dim m 0 (ext_len simd n) i = Some (R' i)) /\ (forall i, 0 <= i < n -> R' i = R i).
Proof.
  intros Hn HR. pose proof (ext_len_ge simd n Hs Hn) as Ge.
  destruct (pad_rows_spec (nlit 0%Q) dim n (ext_len simd n) (fun k => ld cs (o + k)) ldc (fun d j => nth (Z.to_nat d) (R j) (nlit 0%Q))) as (m & E & Zm & G); auto.
  { intros d j Hd' Hj. apply point_cells with (dim := dim); auto. }
  exists m, (fun i => map (fun d => if i <? n then nth (Z.to_nat d) (R i) (nlit 0%Q) else nlit 0%Q) (zrange 0 dim)).
  split; auto. split.
  - intros i Hi. unfold point. apply all_some_map. intros d Hd'. apply In_zrange in Hd'. rewrite <- (G d i Hd' Hi). f_equal.
  - intros i Hi. specialize (HR i Hi). destruct (Z.ltb_spec i n); [|lia].
    pose proof (point_cells _ _ _ _ _ _ HR) as C. unfold point in HR.
    rewrite (all_some_map _ (fun d => nth (Z.to_nat d) (R i) (nlit 0%Q))) in HR; [congruence|].
    intros d Hd'. apply In_zrange in Hd'. rewrite <- (C d Hd'). f_equal. lia.
Qed.

Lemma ext_krnl_bimv_spec s : I s ->
  exists s', ext_krnl_bimv kern simd dim kdim cs0 o0 ld0 n0 cs1 o1 ld1 n1 in0 in1 ldi0 ldi1 ldo0 ldo1 add0 add1 s = Some s' /\ I s' /\
    forall p, D p -> T p s' = T p s + rsum 0 (n0 * kdim)%Z (bi_term (n1 * kdim)%Z w0 w1 (kval kern kdim P Q) x0 x1 p).
Proof.
  intros Is. unfold ext_krnl_bimv.
  pose proof (ext_len_ge simd n0 Hs Hn0) as Ge0. pose proof (ext_len_ge simd n1 Hs Hn1) as Ge1.
  set (n0e := ext_len simd n0) in *. set (n1e := ext_len simd n1) in *. cbv zeta.
  destruct (Z.ltb_spec ((dim + kdim) * (n0e + n1e) * 2) (dim * n0e + dim * n1e + n1e * kdim + n0e * kdim + n0e * kdim + n1e * kdim)) as [Hbad|_]; [nia|].
  destruct (pad_points cs0 o0 ld0 n0 P Hn0 HP) as (trg & P' & E0 & HP' & EP). fold n0e in E0, HP'. rewrite E0. cbn [bind].
  destruct (pad_points cs1 o1 ld1 n1 Q Hn1 HQ) as (src & Q' & E1 & HQ' & EQ). fold n1e in E1, HQ'. rewrite E1. cbn [bind].
  destruct (pad_rows_spec (c0 : K) kdim n1 n1e in0 ldi0 (fun b j => x0 (j * kdim + b)%Z)) as (X0 & E2 & Z2 & G2); auto; try lia. rewrite E2. cbn [bind].
  destruct (pad_rows_spec (c0 : K) kdim n0 n0e in1 ldi1 (fun a i => x1 (i * kdim + a)%Z)) as (X1 & E3 & Z3 & G3); auto; try lia. rewrite E3. cbn [bind].
  destruct (mzero_spec (c0 : K) (alloc (n0e * kdim)) (n0e * kdim)) as (q0 & E4 & Z4 & G4); [rewrite zlen_alloc; nia|]. rewrite E4. cbn [bind].
  destruct (mzero_spec (c0 : K) (alloc (n1e * kdim)) (n1e * kdim)) as (q1 & E5 & Z5 & G5); [rewrite zlen_alloc; nia|]. rewrite E5. cbn [bind].
  rewrite zlen_alloc in Z4, Z5 by nia.
  destruct (krnl_bimv_spec dim kdim trg src n0e n1e P' Q' X0 X1 (fun b j => if j <? n1 then x0 (j * kdim + b)%Z else c0) (fun a i => if i <? n0 then x1 (i * kdim + a)%Z else c0))
    with (out0 := q0) (out1 := q1) as (r0 & r1 & E6 & B6 & R0 & R1); auto; try lia.
  { split; [cbn; lia|]. split; [cbn; lia|]. cbn [fst snd]. split; intros k Hk'; eexists; [apply G4|apply G5]; lia. }
  rewrite E6. cbn [bind]. destruct B6 as (Y1 & Y2 & Y3 & Y4). cbn [fst snd] in *.
  set (S0 := fun a i => rsum 0 n1 (fun j => rsum 0 kdim (fun b => kern (P i) (Q j) a b * x0 (j * kdim + b)%Z))).
  set (S1 := fun b j => rsum 0 n0 (fun i => rsum 0 kdim (fun a => kern (P i) (Q j) a b * x1 (i * kdim + a)%Z))).
  assert (R0' : forall a i, 0 <= a < kdim -> 0 <= i < n0 -> ld r0 (a * n0e + i) = Some (S0 a i)).
  { intros a i Ha Hi. destruct (Y3 (a * n0e + i)%Z) as (v & V); [apply grid_range; lia|]. rewrite V. f_equal.
    specialize (R0 a i Ha ltac:(lia)). rewrite V in R0. cbn [val] in R0. rewrite R0, G4 by (rewrite (Z.mul_comm n0e); apply grid_range; lia). cbn [val].
    rewrite (rsum_pad n1 n1e) by first [lia | intros j Hj; apply rsum_zero; intros b Hb; destruct (Z.ltb_spec j n1); [lia|ring]].
    transitivity (c0 + S0 a i); [|ring]. f_equal. unfold S0. apply rsum_ext.
    intros j Hj. apply rsum_ext. intros b Hb. rewrite EP, EQ by auto. destruct (Z.ltb_spec j n1); [reflexivity|lia]. }
  assert (R1' : forall b j, 0 <= b < kdim -> 0 <= j < n1 -> ld r1 (b * n1e + j) = Some (S1 b j)).
  { intros b j Hb Hj. destruct (Y4 (b * n1e + j)%Z) as (v & V); [apply grid_range; lia|]. rewrite V. f_equal.
    specialize (R1 b j Hb ltac:(lia)). rewrite V in R1. cbn [val] in R1. rewrite R1, G5 by (rewrite (Z.mul_comm n1e); apply grid_range; lia). cbn [val].
    rewrite (rsum_pad n0 n0e) by first [lia | intros i Hi; apply rsum_zero; intros a Ha; destruct (Z.ltb_spec i n0); [lia|ring]].
    transitivity (c0 + S1 b j); [|ring]. f_equal. unfold S1. apply rsum_ext.
    intros i Hi. apply rsum_ext. intros a Ha. rewrite EP, EQ by auto. destruct (Z.ltb_spec i n0); [reflexivity|lia]. }
  match goal with |- context [zfor 0 kdim ?body s] =>
    destruct (zfor_sums I D T 0 kdim body (fun p a => rsum 0 n0 (fun i => w0 p (i * kdim + a)%Z * S0 a i)) s ltac:(lia) Is) as (s1 & F1 & I1 & T1) end.
  { intros a s1 Ha I1. match goal with |- context [zfor 0 n0 ?body s1] =>
      destruct (zfor_sums I D T 0 n0 body (fun p i => w0 p (i * kdim + a)%Z * S0 a i) s1 Hn0 I1) as (s2 & F2 & I2 & T2); [|eauto] end.
    intros i s2 Hi I2. rewrite (R0' a i Ha Hi). cbn [bind]. auto. }
  rewrite F1. cbn [bind].
  match goal with |- context [zfor 0 kdim ?body s1] =>
    destruct (zfor_sums I D T 0 kdim body (fun p b => rsum 0 n1 (fun j => w1 p (j * kdim + b)%Z * S1 b j)) s1 ltac:(lia) I1) as (s2 & F2 & I2 & T2) end.
  { intros b s2 Hb I2. match goal with |- context [zfor 0 n1 ?body s2] =>
      destruct (zfor_sums I D T 0 n1 body (fun p j => w1 p (j * kdim + b)%Z * S1 b j) s2 Hn1 I2) as (s3 & F3 & I3 & T3); [|eauto] end.
    intros j s3 Hj I3. rewrite (R1' b j Hb Hj). cbn [bind]. auto. }
  exists s2. split; auto. split; auto. intros p Hp. rewrite T2, T1 by auto. clear T1 T2 F1 F2.
  assert (KV : forall i a j b, 0 <= a < kdim -> 0 <= b < kdim -> kval kern kdim P Q (i * kdim + a) (j * kdim + b) = kern (P i) (Q j) a b).
  { intros i a j b Ha Hb. unfold kval. destruct (divmod_comp kdim i a Hk Ha) as [-> ->]. destruct (divmod_comp kdim j b Hk Hb) as [-> ->]. reflexivity. }
  unfold bi_term. rewrite rsum_add.
  assert (L0 : rsum 0 kdim (fun a => rsum 0 n0 (fun i => w0 p (i * kdim + a)%Z * S0 a i)) =
    rsum 0 (n0 * kdim)%Z (fun i => w0 p i * rsum 0 (n1 * kdim)%Z (fun j => kval kern kdim P Q i j * x0 j))).
  { rewrite rsum_swap. rewrite (rsum_grid n0 kdim) by lia. apply rsum_ext. intros i Hi. apply rsum_ext. intros a Ha. f_equal.
    unfold S0. rewrite (rsum_grid n1 kdim) by lia. apply rsum_ext. intros j Hj. apply rsum_ext. intros b Hb. now rewrite KV. }
  assert (L1 : rsum 0 kdim (fun b => rsum 0 n1 (fun j => w1 p (j * kdim + b)%Z * S1 b j)) =
    rsum 0 (n0 * kdim)%Z (fun i => rsum 0 (n1 * kdim)%Z (fun j => w1 p j * (kval kern kdim P Q i j * x1 i)))).
  { rewrite (rsum_swap 0 kdim 0 n1). rewrite (rsum_swap 0 (n0 * kdim) 0 (n1 * kdim)). rewrite (rsum_grid n1 kdim) by lia. apply rsum_ext. intros j Hj. apply rsum_ext. intros b Hb.
    rewrite rsum_mul_l. f_equal. unfold S1. rewrite (rsum_grid n0 kdim) by lia. apply rsum_ext. intros i Hi. apply rsum_ext. intros a Ha. now rewrite KV. }
  rewrite L0, L1. ring.
Qed.
End ExtB.
End Ext.
