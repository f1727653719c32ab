(** Routines over the real numbers that meet the contract of Spec_Lapack.v:
    Householder QR, LU and Cholesky by bordering, triangular solves. *)
From Coq Require Import ZArith List Lia Bool Reals Lra.
From Verif Require Import Base Mem Num CRing FNum Spec_Lapack Spec_SPD.
Import ListNotations.
Open Scope R_scope.
Open Scope Z_scope.

(** ** Finite sums of reals *)
Definition S (lo hi : Z) (f : Z -> R) : R := @rsum Rring lo hi f.
Lemma S_ext lo hi f g : (forall i, lo <= i < hi -> f i = g i) -> S lo hi f = S lo hi g.
Proof. apply (@rsum_ext Rring). Qed.
Lemma S_add lo hi f g : (S lo hi (fun i => f i + g i) = S lo hi f + S lo hi g)%R.
Proof. apply (@rsum_add Rring). Qed.
Lemma S_mul_l lo hi c f : (S lo hi (fun i => c * f i) = c * S lo hi f)%R.
Proof. apply (@rsum_mul_l Rring). Qed.
Lemma S_mul_r lo hi c f : (S lo hi (fun i => f i * c) = S lo hi f * c)%R.
Proof. apply (@rsum_mul_r Rring). Qed.
Lemma S_zero lo hi f : (forall i, lo <= i < hi -> f i = 0%R) -> S lo hi f = 0%R.
Proof. apply (@rsum_zero Rring). Qed.
Lemma S_empty lo hi f : hi <= lo -> S lo hi f = 0%R.
Proof. apply (@rsum_empty Rring). Qed.
Lemma S_snoc lo hi f : lo <= hi -> S lo (hi + 1) f = (S lo hi f + f hi)%R.
Proof. apply (@rsum_snoc Rring). Qed.
Lemma S_split lo mid hi f : lo <= mid <= hi -> S lo hi f = (S lo mid f + S mid hi f)%R.
Proof. apply (@rsum_split Rring). Qed.
Lemma S_only lo hi f k : lo <= k < hi -> (forall i, lo <= i < hi -> i <> k -> f i = 0%R) -> S lo hi f = f k.
Proof. intros H1 H2. apply (@rsum_only Rring lo hi f k H1 H2). Qed.
Lemma S_swap lo hi lo' hi' f : S lo hi (fun i => S lo' hi' (fun j => f i j)) = S lo' hi' (fun j => S lo hi (fun i => f i j)).
Proof. apply (@rsum_swap Rring). Qed.
Lemma S_shift lo hi d f : S (lo + d) (hi + d) f = S lo hi (fun i => f (i + d)).
Proof. apply (@rsum_shift Rring). Qed.
Lemma S_sub lo hi f g : (S lo hi (fun i => f i - g i) = S lo hi f - S lo hi g)%R.
Proof.
  rewrite (S_ext lo hi _ (fun i => f i + (-1) * g i)%R) by (intros; ring). rewrite S_add, S_mul_l. ring.
Qed.
Lemma S_nonneg lo hi f : (forall i, lo <= i < hi -> (0 <= f i)%R) -> (0 <= S lo hi f)%R.
Proof.
  intros H. destruct (Z.le_gt_cases hi lo) as [E|E]; [rewrite S_empty by auto; lra|]. revert H. replace hi with (lo + (hi - lo)) by lia.
  generalize (hi - lo) (ltac:(lia) : 0 <= hi - lo). clear E hi. intros m Hm. pattern m. apply natlike_ind; [| |exact Hm]; clear m Hm.
  - intros _. rewrite S_empty by lia. lra.
  - intros m Hm IH H. replace (lo + Z.succ m) with (lo + m + 1) by lia. rewrite S_snoc by lia. assert (0 <= S lo (lo + m) f)%R by (apply IH; intros; apply H; lia). specialize (H (lo + m) ltac:(lia)). lra.
Qed.
Lemma S_pos0 lo hi f : (forall i, lo <= i < hi -> (0 <= f i)%R) -> S lo hi f = 0%R -> forall i, lo <= i < hi -> f i = 0%R.
Proof.
  intros H E i Hi. rewrite (S_split lo i hi), (S_split i (i + 1) hi) in E by lia. rewrite (S_only i (i + 1) f i) in E by (auto; lia).
  assert (0 <= S lo i f)%R by (apply S_nonneg; intros; apply H; lia). assert (0 <= S (i + 1) hi f)%R by (apply S_nonneg; intros; apply H; lia). specialize (H i Hi). lra.
Qed.

(** ** Triangular systems *)
(** First k unknowns of T x = b for a lower triangle T. *)
Fixpoint fsub (k : nat) (T : Z -> Z -> R) (b : Z -> R) (i : Z) : R :=
  match k with
  | O => 0%R
  | Datatypes.S k' => let n := Z.of_nat k' in if i =? n then ((b n - S 0 n (fun l => T n l * fsub k' T b l)) / T n n)%R else fsub k' T b i
  end.
Lemma fsub_ok k T b : (forall i, 0 <= i < Z.of_nat k -> T i i <> 0%R) -> forall i, 0 <= i < Z.of_nat k -> S 0 (i + 1) (fun l => T i l * fsub k T b l)%R = b i.
Proof.
  induction k as [|k IH]; intros Hd i Hi; [lia|]. cbn [fsub]. set (n := Z.of_nat k) in *. rewrite Nat2Z.inj_succ in Hi, Hd. rewrite S_snoc by lia.
  destruct (Z.eqb_spec i n) as [->|Ne].
  - rewrite (S_ext 0 n _ (fun l => T n l * fsub k T b l)%R). 2:{ intros l Hl. destruct (Z.eqb_spec l n); [lia|auto]. } specialize (Hd n ltac:(lia)). field. auto.
  - rewrite <- (IH ltac:(intros; apply Hd; lia) i ltac:(lia)). rewrite S_snoc by lia. f_equal. apply S_ext. intros l Hl. destruct (Z.eqb_spec l n); [lia|auto].
Qed.
(** T x = b for T lower (or upper) triangular of order m. *)
Definition tsolve (lower : bool) (m : Z) (T : Z -> Z -> R) (b : Z -> R) (i : Z) : R :=
  if lower then fsub (Z.to_nat m) T b i
  else fsub (Z.to_nat m) (fun a c => T (m - 1 - a) (m - 1 - c)) (fun a => b (m - 1 - a)) (m - 1 - i).
Lemma S_rev m f : S 0 m f = S 0 m (fun i => f (m - 1 - i)).
Proof.
  destruct (Z.le_gt_cases m 0) as [E|E]; [now rewrite !S_empty by auto|]. revert f. assert (Hm : 0 <= m) by lia. clear E. pattern m. apply natlike_ind; [| |exact Hm]; clear m Hm.
  - intros f. now rewrite !S_empty by lia.
  - intros m Hm IH f. replace (Z.succ m) with (m + 1) by lia. rewrite S_snoc by lia. rewrite (S_split 0 1 (m + 1)) by lia. rewrite (S_only 0 1 _ 0) by lia.
    rewrite Rplus_comm. replace (m + 1 - 1 - 0) with m by lia. f_equal. rewrite (IH f). rewrite <- (Z.add_0_l 1) at 1. rewrite S_shift. apply S_ext. intros i Hi. f_equal. lia.
Qed.
Lemma tsolve_ok (lower : bool) m (T : Z -> Z -> R) b : (forall i, 0 <= i < m -> T i i <> 0%R) -> (forall i j, 0 <= i < m -> 0 <= j < m -> (if lower then i < j else j < i) -> T i j = 0%R) ->
  forall i, 0 <= i < m -> S 0 m (fun l => T i l * tsolve lower m T b l)%R = b i.
Proof.
  intros Hd Ht i Hi. unfold tsolve. destruct lower.
  - rewrite (S_split 0 (i + 1) m) by lia. rewrite fsub_ok by (try intros; try apply Hd; lia). rewrite S_zero; [ring|]. intros l Hl. rewrite Ht by lia. ring.
  - rewrite S_rev. set (T' := fun a c => T (m - 1 - a) (m - 1 - c)). set (b' := fun a => b (m - 1 - a)).
    replace (b i) with (b' (m - 1 - i)) by (unfold b'; f_equal; lia). rewrite <- (fsub_ok (Z.to_nat m) T' b'); [|intros a Ha; apply Hd; lia|lia].
    rewrite (S_split 0 (m - 1 - i + 1) m) by lia. rewrite (S_zero (m - 1 - i + 1)).
    + rewrite Rplus_0_r. apply S_ext. intros l Hl. unfold T'. do 2 f_equal; lia.
    + intros l Hl. rewrite Ht by lia. ring.
Qed.

(** ** LU by bordering *)
Notation triR := (@tri Rring).
Fixpoint luf (k : nat) (A : Z -> Z -> R) (i j : Z) : R :=
  match k with
  | O => 0%R
  | Datatypes.S k' =>
    let n := Z.of_nat k' in let F := luf k' A in
    let col := tsolve true n (triR true true F) (fun a => A a n) in
    let row := tsolve true n (fun a c => triR false false F c a) (fun a => A n a) in
    if (i <? n) && (j <? n) then F i j else if i <? n then col i else if j <? n then row j
    else (A n n - S 0 n (fun l => row l * col l))%R
  end.
Lemma luf_step k A : let n := Z.of_nat k in let F := luf k A in let G := luf (Datatypes.S k) A in
  let col := tsolve true n (triR true true F) (fun a => A a n) in let row := tsolve true n (fun a c => triR false false F c a) (fun a => A n a) in
  (forall i j, i < n -> j < n -> G i j = F i j) /\ (forall i, i < n -> G i n = col i) /\ (forall j, j < n -> G n j = row j) /\
  G n n = (A n n - S 0 n (fun l => row l * col l))%R.
Proof.
  intros n F G col row. unfold G. cbn [luf]. fold n. fold F. fold col. fold row. repeat split; intros;
  repeat match goal with |- context [?a <? ?b] => destruct (Z.ltb_spec a b); try lia end; cbn [andb]; auto.
Qed.
Ltac tris := unfold tri; repeat match goal with |- context [?a =? ?b] => destruct (Z.eqb_spec a b); try lia | |- context [?a <? ?b] => destruct (Z.ltb_spec a b); try lia end.

Lemma luf_ok A : forall k, (forall i, 0 <= i < Z.of_nat k -> luf k A i i <> 0%R) ->
  forall i j, 0 <= i < Z.of_nat k -> 0 <= j < Z.of_nat k -> S 0 (Z.of_nat k) (fun l => triR true true (luf k A) i l * triR false false (luf k A) l j)%R = A i j.
Proof.
  induction k as [|k IH]; [intros; lia|]. intros Hd. destruct (luf_step k A) as (G1 & G2 & G3 & G4). set (n := Z.of_nat k) in *. set (F := luf k A) in *. set (G := luf (Datatypes.S k) A) in *.
  replace (Z.of_nat (Datatypes.S k)) with (n + 1) in * by lia.
  assert (Hd' : forall i, 0 <= i < n -> F i i <> 0%R) by (intros i Hi; rewrite <- G1 by lia; apply Hd; lia). specialize (IH Hd').
  intros i j Hi Hj. rewrite S_snoc by lia.
  assert (L : forall i l, i < n -> l < n -> triR true true G i l = triR true true F i l) by (intros; tris; auto).
  assert (U : forall i l, i < n -> l < n -> triR false false G i l = triR false false F i l) by (intros; tris; auto; subst; apply G1; lia).
  destruct (Z.eq_dec i n) as [->|Hin]; destruct (Z.eq_dec j n) as [->|Hjn].
  - rewrite (S_ext 0 n _ (fun l => G n l * G l n)%R). 2:{ intros l Hl. f_equal; tris; auto. }
    replace (triR true true G n n) with 1%R by (tris; reflexivity). replace (triR false false G n n) with (G n n) by (tris; reflexivity). rewrite G4.
    rewrite (S_ext 0 n (fun l => G n l * G l n)%R (fun l => tsolve true n (fun a c => triR false false F c a) (fun a => A n a) l * tsolve true n (triR true true F) (fun a => A a n) l)%R); [ring|].
    intros l Hl. now rewrite G2, G3 by lia.
  - rewrite (S_ext 0 n _ (fun l => triR false false F l j * tsolve true n (fun a c => triR false false F c a) (fun a => A n a) l)%R).
    2:{ intros l Hl. rewrite U by lia. replace (triR true true G n l) with (G n l) by (tris; reflexivity). rewrite G3 by lia. ring. }
    replace (triR false false G n j) with 0%R by (tris; reflexivity). rewrite (tsolve_ok true n (fun a c => triR false false F c a)).
    + ring.
    + intros a Ha. replace (triR false false F a a) with (F a a) by (tris; reflexivity). auto.
    + intros a c Ha Hc Hac. tris. reflexivity.
    + lia.
  - rewrite (S_ext 0 n _ (fun l => triR true true F i l * tsolve true n (triR true true F) (fun a => A a n) l)%R).
    2:{ intros l Hl. rewrite L by lia. replace (triR false false G l n) with (G l n) by (tris; reflexivity). now rewrite G2 by lia. }
    replace (triR true true G i n) with 0%R by (tris; reflexivity). rewrite (tsolve_ok true n (triR true true F)).
    + ring.
    + intros a Ha. replace (triR true true F a a) with 1%R by (tris; reflexivity). lra.
    + intros a c Ha Hc Hac. tris. reflexivity.
    + lia.
  - rewrite (S_ext 0 n _ (fun l => triR true true F i l * triR false false F l j)%R) by (intros l Hl; now rewrite L, U by lia). rewrite IH by lia.
    replace (triR true true G i n) with 0%R by (tris; reflexivity). ring.
Qed.

Definition qform (n : Z) (A : Z -> Z -> R) (y : Z -> R) : R := S 0 n (fun i => S 0 n (fun j => y i * A i j * y j))%R.

Lemma qform_border n A y : 0 <= n -> qform (n + 1) A y = (qform n A y + S 0 n (fun i => y i * A i n) * y n + y n * S 0 n (fun j => A n j * y j) + y n * A n n * y n)%R.
Proof.
  intros Hn. unfold qform. rewrite S_snoc by lia. rewrite (S_ext 0 n _ (fun i => S 0 n (fun j => y i * A i j * y j) + y i * A i n * y n)%R) by (intros; now rewrite S_snoc by lia).
  rewrite S_add, S_snoc by lia. rewrite <- S_mul_l, (S_mul_r 0 n (y n) (fun i => y i * A i n)%R). rewrite (S_ext 0 n (fun j => y n * A n j * y j)%R (fun i => y n * (A n i * y i))%R) by (intros; ring). ring.
Qed.
Lemma S_assoc m n (a : Z -> R) (B : Z -> Z -> R) (x : Z -> R) : S 0 m (fun l => a l * S 0 n (fun j => B l j * x j))%R = S 0 n (fun j => S 0 m (fun l => a l * B l j) * x j)%R.
Proof.
  rewrite (S_ext 0 m _ (fun l => S 0 n (fun j => a l * (B l j * x j)))%R) by (intros; now rewrite S_mul_l).
  rewrite S_swap. apply S_ext. intros j Hj. rewrite <- S_mul_r. apply S_ext. intros; ring.
Qed.

Lemma luf_bad A : forall k, (forall i, 0 <= i < Z.of_nat k -> luf k A i i <> 0%R) \/
  exists y, notzero (Z.of_nat k) y /\ (forall i, ~ 0 <= i < Z.of_nat k -> y i = 0%R) /\ qform (Z.of_nat k) A y = 0%R.
Proof.
  induction k as [|k IH]; [left; intros; lia|]. destruct (luf_step k A) as (G1 & G2 & G3 & G4). pose proof (luf_ok A k) as HF. set (n := Z.of_nat k) in *. set (F := luf k A) in *. set (G := luf (Datatypes.S k) A) in *.
  replace (Z.of_nat (Datatypes.S k)) with (n + 1) in * by lia. destruct IH as [Hd|(y & (i0 & Hi0 & Hy) & Y0 & Yq)].
  - destruct (Req_dec (G n n) 0) as [E0|E0].
    2:{ left. intros i Hi. destruct (Z.eq_dec i n) as [->|Hne]; auto. rewrite G1 by lia. apply Hd; lia. }
    right. specialize (HF Hd). set (row := tsolve true n (fun a c => triR false false F c a) (fun a => A n a)) in *. set (col := tsolve true n (triR true true F) (fun a => A a n)) in *.
    set (y0 := tsolve false n (triR false false F) (fun a => - col a)%R).
    assert (Hy0 : forall i, 0 <= i < n -> S 0 n (fun l => triR false false F i l * y0 l)%R = (- col i)%R).
    { intros i Hi. apply (tsolve_ok false n); auto.
      - intros a Ha. replace (triR false false F a a) with (F a a) by (tris; reflexivity). auto.
      - intros a c Ha Hc Hac. tris. reflexivity. }
    assert (Hcol : forall i, 0 <= i < n -> S 0 n (fun l => triR true true F i l * col l)%R = A i n).
    { intros i Hi. apply (tsolve_ok true n (triR true true F) (fun a => A a n)); auto.
      - intros a Ha. replace (triR true true F a a) with 1%R by (tris; reflexivity). lra.
      - intros a c Ha Hc Hac. tris. reflexivity. }
    assert (Hrow : forall j, 0 <= j < n -> S 0 n (fun l => row l * triR false false F l j)%R = A n j).
    { intros j Hj. rewrite (S_ext 0 n _ (fun l => triR false false F l j * row l)%R) by (intros; ring). apply (tsolve_ok true n (fun a c => triR false false F c a) (fun a => A n a)); auto.
      - intros a Ha. replace (triR false false F a a) with (F a a) by (tris; reflexivity). auto.
      - intros a c Ha Hc Hac. tris. reflexivity. }
    exists (fun i => if i =? n then 1%R else if (0 <=? i) && (i <? n) then y0 i else 0%R). split; [|split].
    + exists n. split; [lia|]. rewrite Z.eqb_refl. lra.
    + intros i Hi. destruct (Z.eqb_spec i n); [lia|]. destruct (Z.leb_spec 0 i), (Z.ltb_spec i n); cbn [andb]; auto; lia.
    + assert (Ey : forall i, 0 <= i < n -> (if i =? n then 1%R else if (0 <=? i) && (i <? n) then y0 i else 0%R) = y0 i).
      { intros i Hi. destruct (Z.eqb_spec i n); [lia|]. destruct (Z.leb_spec 0 i), (Z.ltb_spec i n); cbn [andb]; auto; lia. }
      rewrite qform_border by lia. rewrite Z.eqb_refl. unfold qform.
      rewrite (S_ext 0 n _ (fun i => - (y0 i * A i n))%R).
      2:{ intros i Hi. rewrite Ey by auto. rewrite (S_ext 0 n _ (fun j => y0 i * (A i j * y0 j))%R) by (intros j Hj; rewrite Ey by auto; ring). rewrite S_mul_l.
          rewrite (S_ext 0 n _ (fun j => S 0 n (fun l => triR true true F i l * triR false false F l j) * y0 j)%R) by (intros j Hj; now rewrite HF by lia).
          rewrite <- S_assoc. rewrite (S_ext 0 n _ (fun l => (-1) * (triR true true F i l * col l))%R) by (intros l Hl; rewrite Hy0 by auto; ring). rewrite S_mul_l, Hcol by auto. ring. }
      rewrite (S_ext 0 n (fun i => (if i =? n then 1%R else if (0 <=? i) && (i <? n) then y0 i else 0%R) * A i n)%R (fun i => y0 i * A i n)%R) by (intros i Hi; now rewrite Ey by auto).
      rewrite (S_ext 0 n _ (fun i => (-1) * (y0 i * A i n))%R) by (intros; ring). rewrite S_mul_l.
      rewrite (S_ext 0 n (fun j => A n j * _)%R (fun j => S 0 n (fun l => row l * triR false false F l j) * y0 j)%R) by (intros j Hj; now rewrite Ey, Hrow by auto).
      rewrite <- (S_assoc n n row (triR false false F) y0). rewrite (S_ext 0 n (fun l => row l * _)%R (fun l => (-1) * (row l * col l))%R) by (intros l Hl; rewrite Hy0 by auto; ring). rewrite S_mul_l. rewrite E0 in G4. lra.
  - right. exists y. split; [exists i0; split; [lia|auto]|]. split; [intros i Hi; apply Y0; lia|]. rewrite qform_border, Yq by lia. rewrite (Y0 n) by lia. ring.
Qed.

(** ** Cholesky by bordering *)
Fixpoint chf (k : nat) (A : Z -> Z -> R) (i j : Z) : R :=
  match k with
  | O => 0%R
  | Datatypes.S k' =>
    let n := Z.of_nat k' in let F := chf k' A in
    let row := tsolve true n (triR true false F) (fun a => A n a) in
    if (i <? n) && (j <? n) then F i j else if i <? n then 0%R else if j <? n then row j
    else sqrt (A n n - S 0 n (fun l => row l * row l))%R
  end.
(** The squares of the diagonal. *)
Definition chd (A : Z -> Z -> R) (n : Z) : R := (A n n - S 0 n (fun l => chf (Z.to_nat (n + 1)) A n l * chf (Z.to_nat (n + 1)) A n l))%R.
Lemma chf_step k A : let n := Z.of_nat k in let F := chf k A in let G := chf (Datatypes.S k) A in
  let row := tsolve true n (triR true false F) (fun a => A n a) in
  (forall i j, i < n -> j < n -> G i j = F i j) /\ (forall j, j < n -> G n j = row j) /\
  G n n = sqrt (chd A n) /\ chd A n = (A n n - S 0 n (fun l => row l * row l))%R.
Proof.
  intros n F G row.
  assert (E : forall j, j < n -> G n j = row j).
  { intros j Hj. unfold G. cbn [chf]. fold n. fold F. fold row. destruct (Z.ltb_spec n n), (Z.ltb_spec j n); try lia. reflexivity. }
  assert (D : chd A n = (A n n - S 0 n (fun l => row l * row l))%R).
  { unfold chd. replace (Z.to_nat (n + 1)) with (Datatypes.S k) by lia. fold G. f_equal. apply S_ext. intros l Hl. now rewrite E by lia. }
  split; [|split; [auto|split; [|auto]]].
  - intros i j Hi Hj. unfold G. cbn [chf]. fold n. destruct (Z.ltb_spec i n), (Z.ltb_spec j n); try lia. reflexivity.
  - rewrite D. unfold G. cbn [chf]. fold n. fold F. fold row. destruct (Z.ltb_spec n n); [lia|]. reflexivity.
Qed.

Lemma chf_ok A : forall k, (forall i, 0 <= i < Z.of_nat k -> (0 < chd A i)%R) ->
  (forall i, 0 <= i < Z.of_nat k -> (0 < chf k A i i)%R) /\
  forall i j, 0 <= i < Z.of_nat k -> 0 <= j <= i -> S 0 (Z.of_nat k) (fun l => triR true false (chf k A) i l * triR true false (chf k A) j l)%R = A i j.
Proof.
  induction k as [|k IH]; [intros; split; intros; lia|]. intros Hd. destruct (chf_step k A) as (G1 & G2 & G3 & G4). set (n := Z.of_nat k) in *. set (F := chf k A) in *. set (G := chf (Datatypes.S k) A) in *.
  replace (Z.of_nat (Datatypes.S k)) with (n + 1) in * by lia. destruct IH as [Dp IH]; [intros; apply Hd; lia|].
  assert (Dn : (0 < G n n)%R) by (rewrite G3; apply sqrt_lt_R0, Hd; lia).
  split. { intros i Hi. destruct (Z.eq_dec i n) as [->|Hne]; auto. rewrite G1 by lia. apply Dp; lia. }
  assert (L : forall i l, i < n -> l < n -> triR true false G i l = triR true false F i l) by (intros; tris; auto; subst; apply G1; lia).
  intros i j Hi Hj. rewrite S_snoc by lia. destruct (Z.eq_dec i n) as [->|Hin]; [destruct (Z.eq_dec j n) as [->|Hjn]|].
  - replace (triR true false G n n) with (G n n) by (tris; reflexivity). rewrite G3, sqrt_sqrt by (apply Rlt_le, Hd; lia). rewrite G4.
    rewrite (S_ext 0 n _ (fun l => tsolve true n (triR true false F) (fun a => A n a) l * tsolve true n (triR true false F) (fun a => A n a) l)%R); [ring|].
    intros l Hl. replace (triR true false G n l) with (G n l) by (tris; reflexivity). now rewrite G2 by lia.
  - replace (triR true false G j n) with 0%R by (tris; reflexivity).
    rewrite (S_ext 0 n _ (fun l => triR true false F j l * tsolve true n (triR true false F) (fun a => A n a) l)%R).
    2:{ intros l Hl. rewrite (L j l) by lia. replace (triR true false G n l) with (G n l) by (tris; reflexivity). rewrite G2 by lia. ring. }
    rewrite (tsolve_ok true n (triR true false F)).
    + ring.
    + intros a Ha. replace (triR true false F a a) with (F a a) by (tris; reflexivity). specialize (Dp a Ha). lra.
    + intros a c Ha Hc Hac. tris. reflexivity.
    + lia.
  - replace (triR true false G i n) with 0%R by (tris; reflexivity).
    rewrite (S_ext 0 n _ (fun l => triR true false F i l * triR true false F j l)%R) by (intros l Hl; now rewrite !L by lia). rewrite IH by lia. ring.
Qed.

Lemma chf_bad A : (forall i j, A i j = A j i) -> forall k, (forall i, 0 <= i < Z.of_nat k -> (0 < chd A i)%R) \/
  exists y, notzero (Z.of_nat k) y /\ (forall i, ~ 0 <= i < Z.of_nat k -> y i = 0%R) /\ (qform (Z.of_nat k) A y <= 0)%R.
Proof.
  intros Sym. induction k as [|k IH]; [left; intros; lia|]. destruct (chf_step k A) as (G1 & G2 & G3 & G4). pose proof (chf_ok A k) as HF. set (n := Z.of_nat k) in *. set (F := chf k A) in *. set (G := chf (Datatypes.S k) A) in *.
  replace (Z.of_nat (Datatypes.S k)) with (n + 1) in * by lia. destruct IH as [Hd|(y & (i0 & Hi0 & Hy) & Y0 & Yq)].
  - destruct (Rlt_le_dec 0 (chd A n)) as [E0|E0].
    { left. intros i Hi. destruct (Z.eq_dec i n) as [->|Hne]; auto. apply Hd; lia. }
    right. destruct (HF Hd) as [Dp HF']. clear HF. set (row := tsolve true n (triR true false F) (fun a => A n a)) in *. set (T := triR true false F) in *.
    assert (HA : forall i j, 0 <= i < n -> 0 <= j < n -> S 0 n (fun l => T i l * T j l)%R = A i j).
    { intros i j Hi Hj. destruct (Z.le_gt_cases j i); [apply HF'; lia|]. rewrite (S_ext 0 n _ (fun l => T j l * T i l)%R) by (intros; ring). rewrite (Sym i j). apply HF'; lia. }
    assert (Td : forall a, 0 <= a < n -> T a a <> 0%R). { intros a Ha. unfold T. replace (triR true false F a a) with (F a a) by (tris; reflexivity). specialize (Dp a Ha). lra. }
    assert (Tt : forall a c, a < c -> T a c = 0%R) by (intros; unfold T; tris; reflexivity).
    set (y0 := tsolve false n (fun a c => T c a) (fun a => - row a)%R).
    assert (Hy0 : forall i, 0 <= i < n -> S 0 n (fun l => T l i * y0 l)%R = (- row i)%R).
    { intros i Hi. apply (tsolve_ok false n (fun a c => T c a) (fun a => - row a)%R); auto. }
    assert (Hrow : forall j, 0 <= j < n -> S 0 n (fun l => T j l * row l)%R = A n j).
    { intros j Hj. apply (tsolve_ok true n T (fun a => A n a)); auto. }
    exists (fun i => if i =? n then 1%R else if (0 <=? i) && (i <? n) then y0 i else 0%R). split; [|split].
    + exists n. split; [lia|]. rewrite Z.eqb_refl. lra.
    + intros i Hi. destruct (Z.eqb_spec i n); [lia|]. destruct (Z.leb_spec 0 i), (Z.ltb_spec i n); cbn [andb]; auto; lia.
    + assert (Ey : forall i, 0 <= i < n -> (if i =? n then 1%R else if (0 <=? i) && (i <? n) then y0 i else 0%R) = y0 i).
      { intros i Hi. destruct (Z.eqb_spec i n); [lia|]. destruct (Z.leb_spec 0 i), (Z.ltb_spec i n); cbn [andb]; auto; lia. }
      rewrite qform_border by lia. rewrite Z.eqb_refl. unfold qform.
      assert (Hc : S 0 n (fun i => y0 i * A n i)%R = (- S 0 n (fun l => row l * row l))%R).
      { rewrite (S_ext 0 n _ (fun i => y0 i * S 0 n (fun l => T i l * row l))%R) by (intros i Hi; now rewrite Hrow by auto). rewrite S_assoc.
        rewrite (S_ext 0 n _ (fun l => (-1) * (row l * row l))%R); [rewrite S_mul_l; ring|]. intros l Hl. rewrite (S_ext 0 n _ (fun i => T i l * y0 i)%R) by (intros; ring). rewrite Hy0 by auto. ring. }
      rewrite (S_ext 0 n _ (fun i => (-1) * (y0 i * A n i))%R).
      2:{ intros i Hi. rewrite Ey by auto. rewrite (S_ext 0 n _ (fun j => y0 i * (S 0 n (fun l => T i l * T j l) * y0 j))%R) by (intros j Hj; rewrite Ey, HA by auto; ring). rewrite S_mul_l.
          rewrite <- (S_assoc n n (fun l => T i l) (fun l j => T j l) y0). rewrite (S_ext 0 n _ (fun l => (-1) * (T i l * row l))%R) by (intros l Hl; rewrite Hy0 by auto; ring). rewrite S_mul_l, Hrow by auto. ring. }
      rewrite S_mul_l, Hc.
      rewrite (S_ext 0 n (fun i => (if i =? n then 1%R else if (0 <=? i) && (i <? n) then y0 i else 0%R) * A i n)%R (fun i => y0 i * A n i)%R) by (intros i Hi; now rewrite Ey, (Sym i n) by auto).
      rewrite (S_ext 0 n (fun j => A n j * _)%R (fun j => y0 j * A n j)%R) by (intros j Hj; rewrite Ey by auto; ring). rewrite Hc. lra.
  - right. exists y. split; [exists i0; split; [lia|auto]|]. split; [intros i Hi; apply Y0; lia|]. rewrite qform_border by lia. rewrite (Y0 n) by lia. lra.
Qed.

(** ** Householder QR *)
(** Below the diagonal of the column x at row k: reflector and tau. *)
Definition hbeta (m k : Z) (x : Z -> R) : R := let s := sqrt (S k m (fun i => x i * x i)%R) in if Rle_dec 0 (x k) then (- s)%R else s.
Definition htail (m k : Z) (x : Z -> R) : R := S (k + 1) m (fun i => x i * x i)%R.
Definition htau (m k : Z) (x : Z -> R) : R := if Req_EM_T (htail m k x) 0 then 0%R else ((hbeta m k x - x k) / hbeta m k x)%R.
Definition hvec (m k : Z) (x : Z -> R) (i : Z) : R := if Req_EM_T (htail m k x) 0 then 0%R else (x i / (x k - hbeta m k x))%R.
(** As a full vector. *)
Definition hfull (m k : Z) (x : Z -> R) (i : Z) : R := if i <? k then 0%R else if i =? k then 1%R else hvec m k x i.

Lemma house m k x : 0 <= k < m -> let v := hfull m k x in let t := htau m k x in
  (t * (t * S 0 m (fun i => v i * v i) - 2) = 0)%R /\
  (forall i, k < i < m -> (x i - t * v i * S 0 m (fun l => v l * x l) = 0)%R).
Proof.
  intros Hk v t.
  assert (Sv : forall g, S 0 m (fun i => v i * g i)%R = (g k + S (k + 1) m (fun i => hvec m k x i * g i))%R).
  { intros g. rewrite (S_split 0 k m), (S_split k (k + 1) m) by lia. rewrite S_zero. 2:{ intros i Hi. unfold v, hfull. destruct (Z.ltb_spec i k); [ring|lia]. }
    rewrite (S_only k (k + 1) _ k) by (auto; lia). rewrite (S_ext (k + 1) m _ (fun i => hvec m k x i * g i)%R).
    2:{ intros i Hi. unfold v, hfull. destruct (Z.ltb_spec i k), (Z.eqb_spec i k); try lia. reflexivity. }
    unfold v, hfull. rewrite Z.eqb_refl. destruct (Z.ltb_spec k k); [lia|]. ring. }
  assert (T0 : (0 <= htail m k x)%R) by (apply S_nonneg; intros; nra).
  unfold t, htau. destruct (Req_EM_T (htail m k x) 0) as [E|E].
  - split; [ring|]. intros i Hi. assert (x i * x i = 0)%R. { apply (S_pos0 (k + 1) m (fun i => x i * x i)%R); [intros; nra|exact E|lia]. } assert (x i = 0)%R by nra. rewrite H0. ring.
  - set (b := hbeta m k x) in *. set (s := htail m k x) in *.
    assert (Hb2 : (b * b = x k * x k + s)%R).
    { assert (E2 : S k m (fun i => x i * x i)%R = (x k * x k + s)%R). { rewrite (S_split k (k + 1) m), (S_only k (k + 1) _ k) by (auto; lia). reflexivity. }
      unfold b, hbeta. rewrite E2. assert (0 <= x k * x k + s)%R by nra. destruct (Rle_dec 0 (x k)); [replace (- sqrt (x k * x k + s) * - sqrt (x k * x k + s))%R with (sqrt (x k * x k + s) * sqrt (x k * x k + s))%R by ring|]; now apply sqrt_sqrt. }
    assert (Hb0 : (b <> 0)%R) by (intros E0; rewrite E0 in Hb2; nra).
    assert (Hbx : (x k - b <> 0)%R) by (intros E0; assert (b = x k) by lra; nra).
    assert (Hvg : forall g, S (k + 1) m (fun i => hvec m k x i * g i)%R = (S (k + 1) m (fun i => x i * g i) / (x k - b))%R).
    { intros g. unfold Rdiv. rewrite <- S_mul_r. apply S_ext. intros i Hi. unfold hvec. fold s. fold b. destruct (Req_EM_T s 0); [contradiction|]. unfold Rdiv. ring. }
    assert (Svx : S 0 m (fun l => v l * x l)%R = (- b)%R).
    { rewrite Sv, Hvg. change (S (k + 1) m (fun i => x i * x i)%R) with s. replace s with (b * b - x k * x k)%R by lra. field. auto. }
    assert (Svv : S 0 m (fun l => v l * v l)%R = (1 + s / ((x k - b) * (x k - b)))%R).
    { rewrite Sv, Hvg. rewrite (S_ext (k + 1) m _ (fun i => x i * x i * / (x k - b))%R).
      2:{ intros i Hi. unfold v, hfull, hvec. fold s. fold b. destruct (Z.ltb_spec i k), (Z.eqb_spec i k); try lia. destruct (Req_EM_T s 0); [contradiction|]. unfold Rdiv. ring. }
      rewrite S_mul_r. change (S (k + 1) m (fun i => x i * x i)%R) with s. unfold v, hfull. rewrite Z.eqb_refl. destruct (Z.ltb_spec k k); [lia|]. field. auto. }
    split.
    + rewrite Svv. replace s with (b * b - x k * x k)%R by lra. field. split; auto.
    + intros i Hi. rewrite Svx. unfold v, hfull, hvec. fold s. fold b. destruct (Z.ltb_spec i k), (Z.eqb_spec i k); try lia. destruct (Req_EM_T s 0); [contradiction|]. field. auto.
Qed.

(** The matrix after k reflections. *)
Fixpoint hmat (m : Z) (k : nat) (A : Z -> Z -> R) (i j : Z) : R :=
  match k with
  | O => A i j
  | Datatypes.S k' => let n := Z.of_nat k' in let W := hmat m k' A in let x := fun i => W i n in
      (W i j - htau m n x * hfull m n x i * S 0 m (fun l => hfull m n x l * W l j))%R
  end.
Definition hcol (m : Z) (A : Z -> Z -> R) (k i : Z) : R := hmat m (Z.to_nat k) A i k.
Definition Rgeqrf (m n : Z) (A : Z -> Z -> R) : (Z -> Z -> R) * (Z -> R) :=
  (fun i j => if i <=? j then hmat m (Z.to_nat n) A i j else hvec m j (hcol m A j) i, fun k => htau m k (hcol m A k)).

Lemma hmat_zero m A : forall k, Z.of_nat k <= m -> forall i j, 0 <= j < Z.of_nat k -> j < i < m -> hmat m k A i j = 0%R.
Proof.
  induction k as [|k IH]; [intros; lia|]. intros Hm i j Hj Hi. cbn [hmat]. set (n := Z.of_nat k) in *. set (W := hmat m k A) in *. rewrite Nat2Z.inj_succ in *. fold n in Hm, Hj.
  destruct (Z.eq_dec j n) as [->|Hne].
  - destruct (house m n (fun i => W i n)) as [_ H]; [lia|]. apply H. lia.
  - rewrite (IH ltac:(lia) i j) by lia. rewrite S_zero; [ring|]. intros l Hl. unfold hfull. destruct (Z.ltb_spec l n); [ring|]. rewrite (IH ltac:(lia) l j) by lia. ring.
Qed.

Lemma orth_mul m Q H : orthogonal (K := Rring) m Q -> orthogonal (K := Rring) m H -> orthogonal (K := Rring) m (fun r c => S 0 m (fun l => Q r l * H l c)%R).
Proof.
  intros [Q1 Q2] [H1 H2]. split; intros i j Hi Hj.
  - change (S 0 m (fun l => S 0 m (fun a => Q l a * H a i) * S 0 m (fun b => Q l b * H b j))%R = @delta Rring i j). rewrite <- H1 by auto.
    rewrite (S_ext 0 m _ (fun l => S 0 m (fun b => S 0 m (fun a => Q l a * H a i) * Q l b * H b j))%R).
    2:{ intros l Hl. rewrite <- S_mul_l. apply S_ext. intros; ring. }
    rewrite S_swap. apply S_ext. intros b Hb.
    change (H b i * H b j)%K with (H b i * H b j)%R. rewrite S_mul_r. f_equal.
    rewrite (S_ext 0 m _ (fun l => Q l b * S 0 m (fun a => Q l a * H a i))%R) by (intros; ring). rewrite S_assoc.
    rewrite (S_ext 0 m _ (fun a => @delta Rring b a * H a i)%R) by (intros a Ha; f_equal; apply Q1; auto).
    rewrite (S_only 0 m _ b); [|auto|intros a Ha Hab; unfold delta; destruct (Z.eqb_spec b a); [congruence|cbn; ring]].
    unfold delta. rewrite Z.eqb_refl. cbn. ring.
  - change (S 0 m (fun l => S 0 m (fun a => Q i a * H a l) * S 0 m (fun b => Q j b * H b l))%R = @delta Rring i j). rewrite <- Q2 by auto.
    rewrite (S_ext 0 m _ (fun l => S 0 m (fun b => Q j b * (S 0 m (fun a => Q i a * H a l) * H b l)))%R).
    2:{ intros l Hl. rewrite <- S_mul_l. apply S_ext. intros; ring. }
    rewrite S_swap. apply S_ext. intros b Hb. rewrite S_mul_l. change (@cmul Rring (Q i b) (Q j b)) with (Q i b * Q j b)%R. rewrite (Rmult_comm (Q i b)). f_equal.
    rewrite (S_ext 0 m _ (fun l => H b l * S 0 m (fun a => H a l * Q i a))%R). 2:{ intros l Hl. rewrite Rmult_comm. f_equal. apply S_ext. intros; ring. }
    rewrite S_assoc.
    rewrite (S_ext 0 m _ (fun a => @delta Rring b a * Q i a)%R) by (intros a Ha; f_equal; apply H2; auto).
    rewrite (S_only 0 m _ b); [|auto|intros a Ha Hab; unfold delta; destruct (Z.eqb_spec b a); [congruence|cbn; ring]].
    unfold delta. rewrite Z.eqb_refl. cbn. ring.
Qed.

Definition hrefl (t : R) (v : Z -> R) (r c : Z) : R := (@delta Rring r c - t * v r * v c)%R.
Lemma S_delta m i g : 0 <= i < m -> S 0 m (fun l => @delta Rring l i * g l)%R = g i.
Proof.
  intros Hi. rewrite (S_only 0 m _ i); auto.
  - unfold delta. rewrite Z.eqb_refl. cbn. ring.
  - intros l Hl Hne. unfold delta. destruct (Z.eqb_spec l i); [congruence|]. cbn. ring.
Qed.
Lemma delta_comm i j : @delta Rring i j = @delta Rring j i.
Proof. unfold delta. now rewrite Z.eqb_sym. Qed.
Lemma hrefl_orth m t v : (t * (t * S 0 m (fun i => v i * v i) - 2) = 0)%R -> orthogonal (K := Rring) m (hrefl t v).
Proof.
  intros E. assert (G : forall i j, 0 <= i < m -> 0 <= j < m -> S 0 m (fun l => hrefl t v l i * hrefl t v l j)%R = @delta Rring i j).
  { intros i j Hi Hj. unfold hrefl.
    rewrite (S_ext 0 m _ (fun l => @delta Rring l i * (@delta Rring l j - t * v l * v j) - @delta Rring l j * (t * v l * v i) + (t * t * v i * v j) * (v l * v l))%R) by (intros; ring).
    rewrite S_add, S_sub, S_mul_l, !S_delta by auto. transitivity (@delta Rring i j + v i * v j * (t * (t * S 0 m (fun i => v i * v i) - 2)))%R; [ring|]. rewrite E. ring. }
  split; intros i j Hi Hj; [exact (G i j Hi Hj)|]. rewrite <- G by auto. apply (@rsum_ext Rring). intros l Hl. unfold hrefl. rewrite (delta_comm l i), (delta_comm l j). cbn. ring.
Qed.

Lemma refl_is m n A k r c : k < Z.of_nat n -> refl (K := Rring) (fst (Rgeqrf m (Z.of_nat n) A)) (snd (Rgeqrf m (Z.of_nat n) A)) k r c = hrefl (htau m k (hcol m A k)) (hfull m k (hcol m A k)) r c.
Proof.
  intros Hk. assert (E : forall r, reflv (K := Rring) (fst (Rgeqrf m (Z.of_nat n) A)) k r = hfull m k (hcol m A k) r).
  { intros r'. unfold reflv, hfull. cbn [fst Rgeqrf]. destruct (Z.ltb_spec r' k), (Z.eqb_spec r' k); try lia; auto. destruct (Z.leb_spec r' k); [lia|]. reflexivity. }
  unfold refl. rewrite !E. reflexivity.
Qed.

Lemma qprod_ok m n A : Z.of_nat n <= m -> let P := fst (Rgeqrf m (Z.of_nat n) A) in let tau := snd (Rgeqrf m (Z.of_nat n) A) in
  forall k, (k <= n)%nat -> orthogonal (K := Rring) m (qprod (K := Rring) m k P tau) /\ forall i j, 0 <= i < m -> S 0 m (fun l => qprod (K := Rring) m k P tau l i * A l j)%R = hmat m k A i j.
Proof.
  intros Hm P tau. induction k as [|k IH]; intros Hk.
  - split.
    + split; intros i j Hi Hj; cbn [qprod]; [apply (S_delta m i (fun l => @delta Rring l j) Hi)|].
      change (S 0 m (fun l => @delta Rring i l * @delta Rring j l)%R = @delta Rring i j). rewrite (S_ext 0 m _ (fun l => @delta Rring l i * @delta Rring j l)%R) by (intros; now rewrite (delta_comm i)). rewrite S_delta by auto. apply delta_comm.
    + intros i j Hi. cbn [qprod hmat]. apply (S_delta m i (fun l => A l j) Hi).
  - destruct (IH ltac:(lia)) as [O Q]. set (kk := Z.of_nat k) in *. set (x := hcol m A kk).
    assert (Ex : forall i, x i = hmat m k A i kk) by (intros; unfold x, hcol, kk; now rewrite Nat2Z.id).
    destruct (house m kk x) as [H1 _]; [lia|].
    assert (E : forall r c, qprod (K := Rring) m (Datatypes.S k) P tau r c = S 0 m (fun l => qprod (K := Rring) m k P tau r l * hrefl (htau m kk x) (hfull m kk x) l c)%R).
    { intros r c. cbn [qprod]. apply S_ext. intros l Hl. fold kk. unfold P, tau. rewrite refl_is by lia. reflexivity. }
    split.
    + destruct (orth_mul m _ _ O (hrefl_orth m _ _ H1)) as [O1 O2]. split; intros i j Hi Hj; [rewrite <- O1 by auto|rewrite <- O2 by auto]; apply (@rsum_ext Rring); intros l Hl; rewrite !E; reflexivity.
    + intros i j Hi. rewrite (S_ext 0 m _ (fun l => A l j * S 0 m (fun a => qprod (K := Rring) m k P tau l a * hrefl (htau m kk x) (hfull m kk x) a i))%R) by (intros l Hl; rewrite E; ring).
      rewrite S_assoc. rewrite (S_ext 0 m _ (fun a => hmat m k A a j * hrefl (htau m kk x) (hfull m kk x) a i)%R).
      2:{ intros a Ha. f_equal. rewrite <- Q by auto. apply S_ext. intros; ring. }
      cbn [hmat]. fold kk. assert (Xe : (fun i => hmat m k A i kk) = x). { unfold x, hcol. unfold kk at 2. now rewrite Nat2Z.id. } rewrite Xe.
      unfold hrefl. rewrite (S_ext 0 m _ (fun a => @delta Rring a i * hmat m k A a j - (htau m kk x * hfull m kk x i) * (hfull m kk x a * hmat m k A a j))%R) by (intros; ring).
      rewrite S_sub, S_delta, S_mul_l by auto. reflexivity.
Qed.

(** ** The routines *)
Definition Rgetrf (n : Z) (A : Z -> Z -> R) : Z * (Z -> Z -> R) * (Z -> Z) :=
  (if forallb (fun i => if Req_EM_T (luf (Z.to_nat n) A i i) 0 then false else true) (zrange 0 n) then 0 else 1, luf (Z.to_nat n) A, fun k => k + 1).
Definition Rpotrf (n : Z) (A : Z -> Z -> R) : Z * (Z -> Z -> R) :=
  let A' := fun i j => if j <=? i then A i j else A j i in
  (if forallb (fun i => if Rlt_dec 0 (chd A' i) then true else false) (zrange 0 n) then 0 else 1, chf (Z.to_nat n) A').
Definition Rtrsm (left lower trans unit : bool) (m n : Z) (A B : Z -> Z -> R) (i j : Z) : R :=
  let T := @top Rring trans (triR lower unit A) in let lo := xorb lower trans in
  if left then tsolve lo m T (fun a => B a j) i else tsolve (negb lo) n (fun a c => T c a) (fun c => B i c) j.
Definition Rlapack : lapack Rring := Lapack (K := Rring) Rgeqrf Rgetrf Rpotrf Rtrsm (fun x => ln (Rabs x)).

Lemma interchange_id n : forall (A : Z -> Z -> R) i j, interchange (K := Rring) n (fun k => k + 1) A i j = A i j.
Proof.
  induction n as [|n IH]; intros A i j; cbn [interchange]; auto. unfold swap_rows. rewrite IH. replace (Z.of_nat n + 1 - 1) with (Z.of_nat n) by lia.
  destruct (Z.eqb_spec i (Z.of_nat n)); [now subst|]. reflexivity.
Qed.

Lemma Rlapack_ok : lapack_ok Rlapack.
Proof.
  split.
  - intros m n A Hn. cbn [l_geqrf Rlapack]. destruct (qprod_ok m (Z.to_nat n) A ltac:(lia) (Z.to_nat n) ltac:(lia)) as [O Q]. rewrite Z2Nat.id in O, Q by lia.
    destruct (Rgeqrf m n A) as [P tau] eqn:E. cbn [fst snd] in O, Q. split; [exact O|]. intros i j Hi Hj. unfold qmat. etransitivity; [exact (Q i j Hi)|]. injection E as <- _. destruct (Z.leb_spec i j); auto. apply hmat_zero; lia.
  - intros n A Hn. cbn [l_getrf Rlapack]. unfold Rgetrf. split; [intros; lia|]. destruct (forallb _ _) eqn:E; [|discriminate]. intros _. rewrite forallb_forall in E.
    assert (D : forall i, 0 <= i < Z.of_nat (Z.to_nat n) -> luf (Z.to_nat n) A i i <> 0%R). { intros i Hi. specialize (E i ltac:(apply In_zrange; lia)). destruct (Req_EM_T _ _); [discriminate|auto]. }
    split; [intros i Hi; apply D; lia|]. intros i j Hi Hj. rewrite interchange_id. pose proof (luf_ok A (Z.to_nat n) D i j) as H. rewrite Z2Nat.id in H by lia. apply H; lia.
  - intros n A Hn. cbn [l_potrf Rlapack]. unfold Rpotrf. set (A' := fun i j => if j <=? i then A i j else A j i). destruct (forallb _ _) eqn:E; [|discriminate]. intros _. rewrite forallb_forall in E.
    assert (D : forall i, 0 <= i < Z.of_nat (Z.to_nat n) -> (0 < chd A' i)%R). { intros i Hi. specialize (E i ltac:(apply In_zrange; lia)). destruct (Rlt_dec _ _); [auto|discriminate]. }
    destruct (chf_ok A' (Z.to_nat n) D) as [D1 D2]. rewrite Z2Nat.id in D1, D2 by lia. split; [intros i Hi; specialize (D1 i Hi); apply Rgt_not_eq; exact D1|].
    intros i j Hi Hj. etransitivity; [exact (D2 i j Hi Hj)|]. unfold A'. destruct (Z.leb_spec j i); [reflexivity|lia].
  - intros lower trans unit m n A B Hm Hd i j Hi Hj. cbn [l_trsm Rlapack Rtrsm]. unfold Rtrsm. apply (tsolve_ok (xorb lower trans) m (@top Rring trans (triR lower unit A)) (fun a => B a j)); auto.
    + intros a Ha. unfold top. assert (triR lower unit A a a <> 0%R). { unfold tri. rewrite Z.eqb_refl. destruct unit; [cbn; lra|apply Hd; auto]. } destruct trans; auto.
    + intros a c Ha Hc Hac. unfold top. destruct lower, trans; cbn [xorb] in Hac; tris; reflexivity.
  - intros lower trans unit m n A B Hm Hd i j Hi Hj. cbn [l_trsm Rlapack Rtrsm]. unfold Rtrsm.
    etransitivity; [|apply (tsolve_ok (negb (xorb lower trans)) n (fun a c => @top Rring trans (triR lower unit A) c a) (fun c => B i c))]; auto.
    + apply S_ext. intros l Hl. apply Rmult_comm.
    + intros a Ha. unfold top. assert (triR lower unit A a a <> 0%R). { unfold tri. rewrite Z.eqb_refl. destruct unit; [cbn; lra|apply Hd; auto]. } destruct trans; auto.
    + intros a c Ha Hc Hac. unfold top. destruct lower, trans; cbn [xorb negb] in Hac; tris; reflexivity.
Qed.

Lemma Rlapack_exact : lapack_exact Rlapack.
Proof.
  split.
  - intros n A Hn. cbn [l_getrf Rlapack]. unfold Rgetrf. cbn [fst]. intros H. destruct (luf_bad A (Z.to_nat n)) as [D|(y & Y1 & _ & Y2)].
    + exfalso. apply H. replace (forallb _ _) with true; auto. symmetry. apply forallb_forall. intros i Hi. apply In_zrange in Hi. destruct (Req_EM_T _ _) as [E|E]; auto. destruct (D i ltac:(lia) E).
    + rewrite Z2Nat.id in Y1, Y2 by lia. exists y. split; auto.
  - intros n A Hn Sym. cbn [l_potrf Rlapack]. unfold Rpotrf. cbn [fst]. set (A' := fun i j => if j <=? i then A i j else A j i). intros H.
    destruct (chf_bad A' ltac:(intros i j; unfold A'; destruct (Z.leb_spec j i), (Z.leb_spec i j); auto; try lia; now replace j with i by lia) (Z.to_nat n)) as [D|(y & Y1 & _ & Y2)].
    + exfalso. apply H. replace (forallb _ _) with true; auto. symmetry. apply forallb_forall. intros i Hi. apply In_zrange in Hi. destruct (Rlt_dec _ _) as [E|E]; auto. destruct (E (D i ltac:(lia))).
    + rewrite Z2Nat.id in Y1, Y2 by lia. exists y. split; auto. replace (quad n A y) with (qform n A' y); auto. apply S_ext. intros i Hi. apply S_ext. intros j Hj. do 2 f_equal. unfold A'. destruct (Z.leb_spec j i); auto.
Qed.
