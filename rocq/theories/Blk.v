(** Rectangular regions of arrays, as BLAS and LAPACK routines see them: reading
    and writing an m-by-n block at offset [o] with leading dimension [l] (row
    major).  Used to model calls of library routines that are not in /repo. *)
From Coq Require Import ZArith List Lia Bool.
From Verif Require Import Base Mem Num CRing Conc Model_Utils Model_Dense Spec_Dense Proof_Dense Model_Matvec Proof_Gemv Model_Matmul Proof_Gemm.
Import ListNotations.
Open Scope Z_scope.

Section Blk.
Context {K : cring}.

(** The block must lie inside the array and be initialised. *)
Definition rd (m n : Z) (a : mem K) (o l : Z) : option (Z -> Z -> K) :=
  _ <- zfor 0 m (fun i u => zfor 0 n (fun j u => _ <- ld a (o + (i * l + j)); Some u) u) tt;
  Some (fun i j => match ld a (o + (i * l + j)) with Some v => v | None => c0 end).
Definition wr (m n : Z) (f : Z -> Z -> K) (a : mem K) (o l : Z) : option (mem K) :=
  zfor 0 m (fun i a => zfor 0 n (fun j a => st a (o + (i * l + j)) (f i j)) a) a.

(** The array holds the matrix [f] there. *)
Definition holds (a : mem K) (o l m n : Z) (f : Z -> Z -> K) : Prop :=
  forall i j, 0 <= i < m -> 0 <= j < n -> ld a (o + (i * l + j)) = Some (f i j).

Lemma rd_ok a o l m n f : holds a o l m n f -> exists g, rd m n a o l = Some g /\ forall i j, 0 <= i < m -> 0 <= j < n -> g i j = f i j.
Proof.
  intros H. unfold rd.
  assert (E : zfor 0 m (fun i u => zfor 0 n (fun j u => _ <- ld a (o + (i * l + j)); Some u) u) tt = Some tt).
  { destruct (Z.le_gt_cases 0 m); [|now rewrite zfor_empty by lia].
    destruct (zfor_inv (fun _ _ => True) 0 m (fun i u => zfor 0 n (fun j u => _ <- ld a (o + (i * l + j)); Some u) u) tt) as ([] & E & _); auto.
    intros i [] Hi _. destruct (Z.le_gt_cases 0 n); [|exists tt; now rewrite zfor_empty by lia].
    destruct (zfor_inv (fun _ _ => True) 0 n (fun j u => _ <- ld a (o + (i * l + j)); Some u) tt) as ([] & E & _); auto.
    - intros j [] Hj _. exists tt. rewrite H by lia. cbn [bind]. auto.
    - exists tt. auto. }
  rewrite E. cbn [bind]. eexists. split; [reflexivity|]. intros i j Hi Hj. cbv beta. now rewrite H by lia.
Qed.

Lemma wr_empty m n f a o l : m <= 0 \/ n <= 0 -> wr m n f a o l = Some a.
Proof.
  intros H. unfold wr. destruct (Z.le_gt_cases m 0); [now rewrite zfor_empty by lia|].
  destruct (zfor_inv (fun _ x => x = a) 0 m (fun i a => zfor 0 n (fun j a => st a (o + (i * l + j)) (f i j)) a) a) as (x & E & ->); auto; [lia|].
  intros i x _ ->. exists a. rewrite zfor_empty by lia. auto.
Qed.

Lemma wr_ok m n f a o l : fits m n o l (zlen a) -> exists a', wr m n f a o l = Some a' /\ zlen a' = zlen a /\ holds a' o l m n f /\
  forall x, (forall i j, 0 <= i < m -> 0 <= j < n -> x <> o + (i * l + j)) -> getz a' x = getz a x.
Proof.
  intros Hf. unfold wr.
  destruct (region_loop m n o l (fun i j a => st a (o + (i * l + j)) (f i j)) f a Hf) as (C' & E & Z1 & H1 & H2).
  - intros i j D Hi Hj Zd _. destruct Hf as (F1 & F2 & F3 & F4 & F5). specialize (F5 ltac:(lia) ltac:(lia)).
    destruct (st_Some D (o + (i * l + j)) (f i j)) as [D' E]; [nia|].
    exists D'. split; auto. split; [eapply st_zlen; eauto|]. intros x. rewrite (getz_st _ _ _ _ x E).
    destruct (Z.eqb_spec (o + (i * l + j)) x); destruct (Z.eqb_spec x (o + (i * l + j))); auto; lia.
  - exists C'. auto.
Qed.

(** Offset by rows and columns. *)
Lemma holds_sub a o l M N f r0 c0 m n o' : holds a o l M N f -> 0 <= r0 -> r0 + m <= M -> 0 <= c0 -> c0 + n <= N -> o' = o + (r0 * l + c0) ->
  holds a o' l m n (fun i j => f (r0 + i) (c0 + j)).
Proof.
  intros H R1 R2 C1 C2 -> i j Hi Hj. replace (o + (r0 * l + c0) + (i * l + j)) with (o + ((r0 + i) * l + (c0 + j))) by ring. apply H; lia.
Qed.
Lemma holds_ext a o l m n f g : holds a o l m n f -> (forall i j, 0 <= i < m -> 0 <= j < n -> f i j = g i j) -> holds a o l m n g.
Proof. intros H E i j Hi Hj. rewrite <- E by lia. now apply H. Qed.
Lemma holds_getz a a' o l m n f : holds a o l m n f -> (forall i j, 0 <= i < m -> 0 <= j < n -> getz a' (o + (i * l + j)) = getz a (o + (i * l + j))) -> holds a' o l m n f.
Proof. intros H E i j Hi Hj. unfold ld. rewrite E by lia. now apply H. Qed.

Lemma rd_sub a o l M N f r0 c0 m n o' : holds a o l M N f -> 0 <= r0 -> r0 + m <= M -> 0 <= c0 -> c0 + n <= N -> o' = o + (r0 * l + c0) ->
  exists g, rd m n a o' l = Some g /\ forall i j, 0 <= i < m -> 0 <= j < n -> g i j = f (r0 + i) (c0 + j).
Proof. intros. eapply rd_ok. eapply holds_sub; eauto. Qed.

(** Overwriting a sub-block of a matrix. *)
Definition patch (r0 c0 m n : Z) (f g : Z -> Z -> K) (i j : Z) : K :=
  if (r0 <=? i) && (i <? r0 + m) && ((c0 <=? j) && (j <? c0 + n)) then f (i - r0) (j - c0) else g i j.
Lemma patch_in r0 c0 m n f g i j : r0 <= i < r0 + m -> c0 <= j < c0 + n -> patch r0 c0 m n f g i j = f (i - r0) (j - c0).
Proof.
  intros H1 H2. unfold patch. rewrite (proj2 (Z.leb_le r0 i)), (proj2 (Z.leb_le c0 j)) by lia.
  rewrite (proj2 (Z.ltb_lt i (r0 + m))), (proj2 (Z.ltb_lt j (c0 + n))) by lia. auto.
Qed.
Lemma patch_out r0 c0 m n f g i j : ~ (r0 <= i < r0 + m /\ c0 <= j < c0 + n) -> patch r0 c0 m n f g i j = g i j.
Proof.
  intros H. unfold patch. destruct (Z.leb_spec r0 i), (Z.ltb_spec i (r0 + m)), (Z.leb_spec c0 j), (Z.ltb_spec j (c0 + n)); cbn; auto. exfalso. lia.
Qed.

Lemma holds_fits a o l M N f r0 c0 m n : holds a o l M N f -> 0 <= o -> N <= l -> 0 <= r0 -> r0 + m <= M -> 0 <= c0 -> c0 + n <= N -> 0 <= m -> 0 <= n ->
  fits m n (o + (r0 * l + c0)) l (zlen a).
Proof.
  intros H Ho Hl R1 R2 C1 C2 Hm Hn. split; auto. split; auto. split; [nia|]. split; [lia|]. intros Pm Pn.
  pose proof (ld_range _ _ _ (H (r0 + (m - 1)) (c0 + (n - 1)) ltac:(lia) ltac:(lia))). nia.
Qed.

(** What an update of the region (r0, c0, m, n) leaves of a matrix. *)
Lemma holds_patch a a' o l M N g f r0 c0 m n o' : holds a o l M N g -> N <= l -> 0 <= r0 -> r0 + m <= M -> 0 <= c0 -> c0 + n <= N -> o' = o + (r0 * l + c0) ->
  holds a' o' l m n f -> (forall x, (forall i j, 0 <= i < m -> 0 <= j < n -> x <> o' + (i * l + j)) -> getz a' x = getz a x) ->
  holds a' o l M N (patch r0 c0 m n f g).
Proof.
  intros H Hl R1 R2 C1 C2 -> Hf Hx i j Hi Hj. unfold patch.
  destruct (Z.leb_spec r0 i), (Z.ltb_spec i (r0 + m)), (Z.leb_spec c0 j), (Z.ltb_spec j (c0 + n)); cbn [andb].
  1:{ replace (o + (i * l + j)) with (o + (r0 * l + c0) + ((i - r0) * l + (j - c0))) by ring. apply Hf; lia. }
  all: unfold ld; rewrite Hx; [now apply H|]; intros i' j' Hi' Hj' E; assert (EE : i * l + j = (r0 + i') * l + (c0 + j')) by lia;
    apply (region_inj N l) in EE; lia.
Qed.
Lemma wr_sub a o l M N g r0 c0 m n f o' : holds a o l M N g -> 0 <= o -> N <= l -> 0 <= r0 -> r0 + m <= M -> 0 <= c0 -> c0 + n <= N -> o' = o + (r0 * l + c0) ->
  exists a', wr m n f a o' l = Some a' /\ zlen a' = zlen a /\ holds a' o l M N (patch r0 c0 m n f g).
Proof.
  intros H Ho Hl R1 R2 C1 C2 ->.
  destruct (Z.le_gt_cases m 0) as [Hm|Hm]; [|destruct (Z.le_gt_cases n 0) as [Hn|Hn]].
  1, 2: exists a; rewrite wr_empty by lia; split; [auto|]; split; [auto|]; eapply holds_ext; [exact H|];
    intros i j Hi Hj; rewrite patch_out; auto; lia.
  destruct (wr_ok m n f a (o + (r0 * l + c0)) l) as (a' & E & Z1 & H1 & H2).
  { eapply holds_fits; eauto; lia. }
  exists a'. split; auto. split; auto. eapply holds_patch; eauto.
Qed.
End Blk.
