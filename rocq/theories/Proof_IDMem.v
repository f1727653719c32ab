(** Memory lemmas for the interpolative decomposition: what the vector loops of
    Model_ID.v do, for any arithmetic. *)
From Coq Require Import ZArith QArith List Lia Bool Permutation.
From Verif Require Import Base Mem FNum Model_Utils Model_Dense Model_CSR Model_Build Model_ID.
Import ListNotations.
Open Scope Z_scope.

Lemma all_some_map {A B} (f : A -> option B) (g : A -> B) l : (forall x, In x l -> f x = Some (g x)) -> all_some (map f l) = Some (map g l).
Proof.
  induction l as [|a l IH]; intros H; [reflexivity|]. cbn [map all_some]. rewrite (H a) by now left. cbn [bind].
  rewrite IH by (intros; apply H; now right). reflexivity.
Qed.
Lemma rds_spec {A} (m : mem A) off n inc (x : Z -> A) : (forall k, 0 <= k < n -> ld m (off + k * inc) = Some (x k)) ->
  rds m off n inc = Some (map x (zrange 0 n)).
Proof. intros H. apply all_some_map. intros k Hk. apply In_zrange in Hk. auto. Qed.
Lemma rds1_spec {A} (m : mem A) off n (x : Z -> A) : (forall k, 0 <= k < n -> ld m (off + k) = Some (x k)) ->
  rds m off n 1 = Some (map x (zrange 0 n)).
Proof. intros H. apply rds_spec. intros k Hk. rewrite Z.mul_1_r. auto. Qed.

(** Two arrays with the same cells outside [lo, hi). *)
Definition same_out {A} (lo hi : Z) (m m' : list A) : Prop := zlen m' = zlen m /\ forall k, ~ (lo <= k < hi) -> getz m' k = getz m k.
Lemma same_out_ld {A} lo hi (m m' : mem A) k : same_out lo hi m m' -> ~ (lo <= k < hi) -> ld m' k = ld m k.
Proof. intros [_ H] Hk. unfold ld. now rewrite H. Qed.
Lemma same_out_refl {A} lo hi (m : list A) : same_out lo hi m m. Proof. split; auto. Qed.
Lemma same_out_trans {A} lo hi (m m' m'' : list A) : same_out lo hi m m' -> same_out lo hi m' m'' -> same_out lo hi m m''.
Proof. intros [H1 H2] [H3 H4]. split; [congruence|]. intros. rewrite H4; auto. Qed.
Lemma same_out_weaken {A} lo hi lo' hi' (m m' : list A) : same_out lo hi m m' -> lo' <= lo -> hi <= hi' -> same_out lo' hi' m m'.
Proof. intros [H1 H2] Hl Hh. split; auto. intros k Hk. apply H2. lia. Qed.

(** A loop writing the cells off, off+1, ... one after the other. *)
Lemma zfor_cells {A} off lo len (y : Z -> A) (body : Z -> mem A -> option (mem A)) R :
  0 <= lo <= len -> 0 <= off + lo -> off + len <= zlen R ->
  (forall j R1, lo <= j < len -> same_out (off + lo) (off + j) R R1 -> body j R1 = st R1 (off + j) (y j)) ->
  exists R', zfor lo len body R = Some R' /\ same_out (off + lo) (off + len) R R' /\ (forall k, lo <= k < len -> ld R' (off + k) = Some (y k)).
Proof.
  intros Hl H0 H1 Hb.
  destruct (zfor_inv (fun j R1 => same_out (off + lo) (off + j) R R1 /\ forall k, lo <= k < j -> ld R1 (off + k) = Some (y k)) lo len body R) as (R' & E & S & G); try lia.
  - split; [apply same_out_refl|lia].
  - intros j R1 Hj (S & G). rewrite (Hb j R1 Hj S). destruct (st_Some R1 (off + j) (y j)) as (R2 & E2); [rewrite (proj1 S); lia|].
    exists R2. split; auto. split.
    + split; [rewrite (st_zlen _ _ _ _ E2); apply S|]. intros k Hk. rewrite (getz_st _ _ _ _ k E2). destruct (Z.eqb_spec (off + j) k); [lia|]. apply S. lia.
    + intros k Hk. rewrite (ld_st _ _ _ _ (off + k) E2). destruct (Z.eqb_spec (off + j) (off + k)); [do 2 f_equal; lia|]. apply G. lia.
  - exists R'. auto.
Qed.

(** swap_cells exchanges two disjoint ranges. *)
Lemma swap_spec {A} (m : mem A) x y len : 0 <= x -> 0 <= y -> 0 <= len -> x + len <= zlen m -> y + len <= zlen m -> (x + len <= y \/ y + len <= x) ->
  exists m', swap_cells m x y len = Some m' /\ zlen m' = zlen m /\
    forall k, getz m' k = if (x <=? k) && (k <? x + len) then getz m (y + (k - x)) else if (y <=? k) && (k <? y + len) then getz m (x + (k - y)) else getz m k.
Proof.
  intros Hx Hy Hl Hx1 Hy1 Hd. unfold swap_cells.
  destruct (zfor_inv (fun i m' => zlen m' = zlen m /\
    forall k, getz m' k = if (x <=? k) && (k <? x + i) then getz m (y + (k - x)) else if (y <=? k) && (k <? y + i) then getz m (x + (k - y)) else getz m k) 0 len
    (fun i m => a <- getz m (x + i); b <- getz m (y + i); m <- setz m (x + i) b; setz m (y + i) a) m) as (m' & E & Zm & G); try lia.
  - split; auto. intros k. destruct (Z.leb_spec x k); destruct (Z.ltb_spec k (x + 0)); destruct (Z.leb_spec y k); destruct (Z.ltb_spec k (y + 0)); cbn [andb]; auto; lia.
  - intros i m1 Hi (Zm & G).
    assert (Ga : getz m1 (x + i) = getz m (x + i)).
    { rewrite G. destruct (Z.leb_spec x (x + i)); destruct (Z.ltb_spec (x + i) (x + i)); destruct (Z.leb_spec y (x + i)); destruct (Z.ltb_spec (x + i) (y + i)); cbn [andb]; auto; lia. }
    assert (Gb : getz m1 (y + i) = getz m (y + i)).
    { rewrite G. destruct (Z.leb_spec x (y + i)); destruct (Z.ltb_spec (y + i) (x + i)); destruct (Z.leb_spec y (y + i)); destruct (Z.ltb_spec (y + i) (y + i)); cbn [andb]; auto; lia. }
    destruct (getz_in m (x + i)) as (a & Ea); [lia|]. destruct (getz_in m (y + i)) as (b & Eb); [lia|].
    rewrite Ga, Ea. cbn [bind]. rewrite Gb, Eb. cbn [bind].
    destruct (setz_Some m1 (x + i) b) as (m2 & E2); [lia|]. rewrite E2. cbn [bind]. pose proof (setz_zlen _ _ _ _ E2) as Z2.
    destruct (setz_Some m2 (y + i) a) as (m3 & E3); [lia|]. exists m3. split; auto. pose proof (setz_zlen _ _ _ _ E3) as Z3. split; [lia|].
    intros k. rewrite (getz_setz _ _ _ _ k E3), (getz_setz _ _ _ _ k E2), G.
    destruct (Z.eqb_spec (y + i) k) as [<-|N1].
    { destruct (Z.leb_spec x (y + i)); destruct (Z.ltb_spec (y + i) (x + (i + 1))); destruct (Z.leb_spec y (y + i)); destruct (Z.ltb_spec (y + i) (y + (i + 1))); cbn [andb]; try lia;
        rewrite <- Ea; f_equal; lia. }
    destruct (Z.eqb_spec (x + i) k) as [<-|N2].
    { destruct (Z.leb_spec x (x + i)); destruct (Z.ltb_spec (x + i) (x + (i + 1))); cbn [andb]; try lia. rewrite <- Eb; f_equal; lia. }
    destruct (Z.leb_spec x k); destruct (Z.ltb_spec k (x + i)); destruct (Z.ltb_spec k (x + (i + 1))); destruct (Z.leb_spec y k); destruct (Z.ltb_spec k (y + i)); destruct (Z.ltb_spec k (y + (i + 1))); cbn [andb]; auto; lia.
  - exists m'. auto.
Qed.

(** par_for with an invariant over the iterations done so far. *)
Lemma par_for_inv {St} (I : list Z -> St -> Prop) (ord : list Z) (body : Z -> St -> option St) : forall s done,
  I done s ->
  (forall done' j todo s, done ++ ord = done' ++ j :: todo -> I done' s -> exists s', body j s = Some s' /\ I (done' ++ [j]) s') ->
  exists s', par_for ord body s = Some s' /\ I (done ++ ord) s'.
Proof.
  induction ord as [|j ord IH]; intros s done H0 Hs; cbn [par_for].
  - exists s. rewrite app_nil_r. auto.
  - destruct (Hs done j ord s eq_refl H0) as (s1 & E & H1). rewrite E. cbn [bind].
    destruct (IH s1 (done ++ [j]) H1) as (s' & E' & H').
    + intros done' k todo s2 Ed H2. apply (Hs done' k todo); auto. rewrite <- Ed, <- app_assoc. reflexivity.
    + exists s'. split; auto. rewrite <- app_assoc in H'. exact H'.
Qed.

Section Vec.
Context {F : fnum}.

Lemma nrm2_spec (m : mem F) off n x : (forall k, 0 <= k < n -> ld m (off + k) = Some (x k)) -> nrm2 m off n = Some (fnrm2 (map x (zrange 0 n))).
Proof. intros H. unfold nrm2. rewrite (rds1_spec m off n x) by auto. reflexivity. Qed.
Lemma dot_spec (m1 m2 : mem F) o1 o2 n x y : (forall k, 0 <= k < n -> ld m1 (o1 + k) = Some (x k)) -> (forall k, 0 <= k < n -> ld m2 (o2 + k) = Some (y k)) ->
  dot m1 o1 m2 o2 n = Some (fdot (map x (zrange 0 n)) (map y (zrange 0 n))).
Proof. intros H1 H2. unfold dot. rewrite (rds1_spec m1 o1 n x) by auto. cbn [bind]. rewrite (rds1_spec m2 o2 n y) by auto. reflexivity. Qed.

(** The Householder vector of x. *)
Definition hsign (x : Z -> F) : F := if flt (flit 0%Q) (x 0) then flit 1%Q else flit (-1)%Q.
Definition hnorm (x : Z -> F) (n : Z) : F := fnrm2 (map x (zrange 0 n)).
Definition hraw (x : Z -> F) (n : Z) (k : Z) : F := if k =? 0 then fadd (x 0) (fmul (hsign x) (hnorm x n)) else x k.
Definition hinv (x : Z -> F) (n : Z) : option F := fdiv (flit 1%Q) (fnrm2 (map (hraw x n) (zrange 0 n))).

Lemma house_spec (R : mem F) off n x : 1 <= n -> (forall k, 0 <= k < n -> ld R (off + k) = Some (x k)) ->
  match hinv x n with
  | Some inv => exists R', house R off n = Some (R', hsign x, hnorm x n) /\ same_out off (off + n) R R' /\
      forall k, 0 <= k < n -> ld R' (off + k) = Some (fmul (hraw x n k) inv)
  | None => house R off n = None
  end.
Proof.
  intros Hn Hx. unfold house. pose proof (Hx 0 ltac:(lia)) as H0. rewrite Z.add_0_r in H0. rewrite H0. cbn [bind].
  rewrite (nrm2_spec R off n x Hx). cbn [bind]. fold (hsign x). fold (hnorm x n).
  pose proof (ld_range _ _ _ H0) as B0. pose proof (ld_range _ _ _ (Hx (n - 1) ltac:(lia))) as B1.
  destruct (st_Some R off (fadd (x 0) (fmul (hsign x) (hnorm x n)))) as (R1 & E1); [lia|]. rewrite E1. cbn [bind].
  assert (H1 : forall k, 0 <= k < n -> ld R1 (off + k) = Some (hraw x n k)).
  { intros k Hk. rewrite (ld_st _ _ _ _ (off + k) E1). unfold hraw. destruct (Z.eqb_spec off (off + k)); destruct (Z.eqb_spec k 0); auto; lia. }
  rewrite (nrm2_spec R1 off n _ H1). cbn [bind]. fold (hinv x n). destruct (hinv x n) as [inv|]; cbn [bind]; auto.
  pose proof (st_zlen _ _ _ _ E1) as Z1.
  destruct (zfor_cells off 0 n (fun j => fmul (hraw x n j) inv) (fun j R => x <- ld R (off + j); st R (off + j) (fmul x inv)) R1) as (R2 & E2 & S2 & G2); try lia.
  { intros j R2 Hj S. rewrite (same_out_ld _ _ _ _ _ S) by lia. rewrite H1 by lia. reflexivity. }
  rewrite E2. cbn [bind]. exists R2. split; auto. split; auto. rewrite Z.add_0_r in S2. split; [rewrite (proj1 S2); lia|].
  intros k Hk. rewrite (proj2 S2) by lia. rewrite (getz_st _ _ _ _ k E1). destruct (Z.eqb_spec off k); auto; lia.
Qed.

Lemma reflect_spec (R : mem F) voff coff n v x : 0 <= n -> (voff + n <= coff \/ coff + n <= voff) ->
  (forall k, 0 <= k < n -> ld R (voff + k) = Some (v k)) -> (forall k, 0 <= k < n -> ld R (coff + k) = Some (x k)) ->
  exists R', reflect R voff coff n = Some R' /\ same_out coff (coff + n) R R' /\
    forall k, 0 <= k < n -> ld R' (coff + k) = Some (fsub (x k) (fmul (fmul (flit 2%Q) (fdot (map v (zrange 0 n)) (map x (zrange 0 n)))) (v k))).
Proof.
  intros Hn Hd Hv Hx. unfold reflect. rewrite (dot_spec R R voff coff n v x Hv Hx). cbn [bind].
  destruct (Z.eq_dec n 0) as [->|].
  { rewrite zfor_empty by lia. exists R. split; auto. split; [apply same_out_refl|lia]. }
  pose proof (ld_range _ _ _ (Hx 0 ltac:(lia))) as B0. pose proof (ld_range _ _ _ (Hx (n - 1) ltac:(lia))) as B1.
  set (h := fmul (flit 2%Q) _).
  destruct (zfor_cells coff 0 n (fun k => fsub (x k) (fmul h (v k))) (fun k R => x <- ld R (coff + k); v <- ld R (voff + k); st R (coff + k) (fsub x (fmul h v))) R) as (R' & E & S & G); try lia.
  { intros j R1 Hj S. rewrite (same_out_ld _ _ _ _ _ S) by lia. rewrite Hx by lia. cbn [bind]. rewrite (same_out_ld _ _ _ _ _ S) by lia. rewrite Hv by lia. reflexivity. }
  rewrite Z.add_0_r in S. exists R'. auto.
Qed.

Lemma finish_col_spec (R : mem F) off n sign hn : 1 <= n -> 0 <= off -> off + n <= zlen R ->
  exists R', finish_col R off n sign hn = Some R' /\ same_out off (off + n) R R' /\
    forall k, 0 <= k < n -> ld R' (off + k) = Some (if k =? 0 then fmul (fsub (flit 0%Q) sign) hn else flit 0%Q).
Proof.
  intros Hn H0 H1. unfold finish_col. destruct (st_Some R off (fmul (fsub (flit 0%Q) sign) hn)) as (R1 & E1); [lia|]. rewrite E1. cbn [bind].
  pose proof (st_zlen _ _ _ _ E1) as Z1.
  destruct (zfor_cells off 1 n (fun _ => flit 0%Q) (fun k R => st R (off + k) (flit 0%Q)) R1) as (R' & E & S & G); try lia; auto.
  exists R'. split; auto. split.
  - split; [rewrite (proj1 S); auto|]. intros k Hk. rewrite (proj2 S) by lia. rewrite (getz_st _ _ _ _ k E1). destruct (Z.eqb_spec off k); auto; lia.
  - intros k Hk. destruct (Z.eqb_spec k 0) as [->|]; [|apply G; lia].
    rewrite (same_out_ld _ _ _ _ _ S) by lia. rewrite (ld_st _ _ _ _ _ E1). destruct (Z.eqb_spec off (off + 0)); auto; lia.
Qed.

(** The largest entry. *)
Definition fpiv (cn : Z -> F) (lo hi : Z) : Z * F :=
  fold_left (fun s j => if flt (snd s) (cn j) then (j, cn j) else s) (zrange lo hi) (lo, flit 0%Q).
Lemma find_pivot_spec (m : mem F) lo hi cn : lo <= hi -> (forall j, lo <= j < hi -> ld m j = Some (cn j)) -> find_pivot m lo hi = Some (fpiv cn lo hi).
Proof.
  intros Hl H. unfold find_pivot, fpiv.
  destruct (zfor_inv (fun j (s : Z * F) => s = fold_left (fun s j => if flt (snd s) (cn j) then (j, cn j) else s) (zrange lo j) (lo, flit 0%Q)) lo hi
    (fun j (s : Z * F) => c <- ld m j; Some (if flt (snd s) c then (j, c) else s)) (lo, flit 0%Q)) as (s & E & ->); auto; try lia.
  - rewrite zrange_empty by lia. reflexivity.
  - intros j s Hj ->. rewrite H by lia. cbn [bind]. eexists. split; [reflexivity|]. rewrite zrange_snoc by lia. rewrite fold_left_app. reflexivity.
Qed.
Lemma fpiv_range cn lo hi : lo < hi -> lo <= fst (fpiv cn lo hi) < hi.
Proof.
  intros Hl. unfold fpiv. assert (G : forall l s, (forall j, In j l -> lo <= j < hi) -> lo <= fst s < hi -> lo <= fst (fold_left (fun s j => if flt (snd s) (cn j) then (j, cn j) else s) l s) < hi).
  { induction l as [|j l IH]; intros s Hin Hs; cbn [fold_left]; auto. apply IH; [intros; apply Hin; now right|]. destruct (flt _ _); auto. cbn [fst]. apply Hin. now left. }
  apply G; [intros j Hj; now apply In_zrange in Hj|cbn; lia].
Qed.
End Vec.

(** Simulation of a loop by a loop on abstract states; undefined together. *)
Lemma zfor_sim {S T} (rel : Z -> S -> T -> Prop) (f : Z -> S -> option S) (g : Z -> T -> option T) lo hi s t : lo <= hi -> rel lo s t ->
  (forall i s t, lo <= i < hi -> rel i s t -> match g i t with Some t' => exists s', f i s = Some s' /\ rel (i + 1) s' t' | None => f i s = None end) ->
  match zfor lo hi g t with Some t' => exists s', zfor lo hi f s = Some s' /\ rel hi s' t' | None => zfor lo hi f s = None end.
Proof.
  intros Hl. remember (Z.to_nat (hi - lo)) as n eqn:En. revert lo s t Hl En. induction n as [|n IH]; intros lo s t Hl En H0 Hs.
  - assert (lo = hi) by lia. subst. rewrite !zfor_empty by lia. eauto.
  - rewrite !(zfor_step lo hi) by lia. pose proof (Hs lo s t ltac:(lia) H0) as H1. destruct (g lo t) as [t'|]; cbn [bind].
    + destruct H1 as (s' & E & R'). rewrite E. cbn [bind]. apply IH; auto; try lia. intros; apply Hs; auto; lia.
    + rewrite H1. reflexivity.
Qed.
