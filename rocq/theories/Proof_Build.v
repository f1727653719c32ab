(** Proofs for Model_Build.v: metadata. *)
From Coq Require Import ZArith List Lia Bool Permutation.
From Verif Require Import Base Mem Num CRing Conc Model_Utils Spec_Utils Proof_Utils Model_Dense Model_CSR Spec_CSR Model_Partition Model_Pairs Model_Matvec Spec_Matvec Model_Build Props_CSR Proof_Bucket.
Import ListNotations.
Open Scope Z_scope.

(** ** Reading and filling *)
Lemma all_some_map {A B} (f : A -> option B) (g : A -> B) l : (forall x, In x l -> f x = Some (g x)) -> all_some (map f l) = Some (map g l).
Proof.
  induction l as [|x l IH]; intros H; cbn [map all_some]; auto. rewrite (H x) by now left. cbn [bind].
  rewrite IH by (intros; apply H; now right). reflexivity.
Qed.
Lemma read_cells_spec {A} (m : mem A) lo n (f : Z -> A) : 0 <= n -> (forall k, 0 <= k < n -> ld m (lo + k) = Some (f k)) ->
  read_cells m lo n = Some (map (fun k => f (k - lo)) (zrange lo (lo + n))).
Proof.
  intros Hn H. unfold read_cells. apply all_some_map. intros x Hx. apply In_zrange in Hx. rewrite <- H by lia. f_equal. lia.
Qed.
Lemma read_cells_getz {A} (m : mem A) lo n l : 0 <= n -> read_cells m lo n = Some l -> zlen l = n /\ forall k, 0 <= k < n -> getz l k = ld m (lo + k).
Proof.
  intros Hn. unfold read_cells. replace (zrange lo (lo + n)) with (map (fun k => lo + k) (zrange 0 n)).
  2:{ unfold zrange. rewrite map_map. replace (lo + n - lo) with (n - 0) by lia. apply map_ext. intros; lia. }
  rewrite map_map. intros H.
  assert (G : forall xs l, all_some (map (fun k => ld m (lo + k)) xs) = Some l -> zlen l = zlen xs /\ forall i k, getz xs i = Some k -> getz l i = ld m (lo + k)).
  { clear. induction xs as [|x xs IH]; intros l H; cbn [map all_some] in H.
    - injection H as <-. split; auto. intros i k Hk. apply getz_range in Hk. zlia.
    - destruct (ld m (lo + x)) as [v|] eqn:E; [|discriminate]. cbn [bind] in H. destruct (all_some _) as [vs|] eqn:E2; [|discriminate]. injection H as <-.
      destruct (IH _ eq_refl) as [Z1 G1]. split; [rewrite !zlen_cons; lia|]. intros i k Hk. pose proof (getz_range _ _ _ Hk).
      destruct (Z.eq_dec i 0) as [->|]; [rewrite getz_0 in *; injection Hk as <-; now rewrite E|]. rewrite getz_cons by lia. rewrite getz_cons in Hk by lia. exact (G1 _ _ Hk). }
  destruct (G _ _ H) as [Z1 G1]. rewrite zlen_zrange in Z1 by lia. split; [lia|]. intros k Hk. apply G1. rewrite getz_zrange by lia. f_equal; lia.
Qed.

Lemma ld_st_same {A} (m : mem A) i v m' : st m i v = Some m' -> ld m' i = Some v.
Proof. intros H. rewrite (ld_st _ _ _ _ i H). now rewrite Z.eqb_refl. Qed.

(** A loop whose iterations set cells to the values of one function. *)
Lemma zfor_fill {A} (N : Z) (g : Z -> A) (S : Z -> Z -> Prop) lo hi (body : Z -> mem A -> option (mem A)) : forall m, zlen m = N ->
  (forall i m, lo <= i < hi -> zlen m = N -> exists m', body i m = Some m' /\ zlen m' = N /\
     forall c, (S i c /\ ld m' c = Some (g c)) \/ (~ S i c /\ getz m' c = getz m c)) ->
  exists m', zfor lo hi body m = Some m' /\ zlen m' = N /\
    forall c, ((exists i, lo <= i < hi /\ S i c) /\ ld m' c = Some (g c)) \/ (~ (exists i, lo <= i < hi /\ S i c) /\ getz m' c = getz m c).
Proof.
  intros m Zm H. destruct (Z.le_gt_cases hi lo) as [Hl|Hl].
  { exists m. rewrite zfor_empty by lia. split; auto. split; auto. intros c. right. split; auto. intros (i & Hi & _). lia. }
  destruct (zfor_inv (fun k m' => zlen m' = N /\
    forall c, ((exists i, lo <= i < k /\ S i c) /\ ld m' c = Some (g c)) \/ (~ (exists i, lo <= i < k /\ S i c) /\ getz m' c = getz m c)) lo hi body m) as (m' & E & Zm' & G); try lia.
  - split; auto. intros c. right. split; auto. intros (i & Hi & _). lia.
  - intros i m1 Hi (Z1 & G1). destruct (H i m1 Hi Z1) as (m2 & E2 & Z2 & G2). exists m2. split; auto. split; auto. intros c.
    destruct (G2 c) as [[Hs Hv]|[Hs Hv]].
    + left. split; auto. exists i. split; auto. lia.
    + destruct (G1 c) as [[(j & Hj & Sj) Hv1]|[Hn Hv1]].
      * left. split; [exists j; split; auto; lia|]. unfold ld in *. rewrite Hv. auto.
      * right. split; [|congruence]. intros (j & Hj & Sj). destruct (Z.eq_dec j i) as [->|]; [auto|]. apply Hn. exists j. split; auto. lia.
  - exists m'. auto.
Qed.

(** The same for a sequence of events. *)
Lemma run_fill {A E} (N : Z) (g : Z -> A) (S : E -> Z -> Prop) (item : E -> mem A -> option (mem A)) (evs : list E) : forall m, zlen m = N ->
  (forall e m, In e evs -> zlen m = N -> exists m', item e m = Some m' /\ zlen m' = N /\
     forall c, (S e c /\ ld m' c = Some (g c)) \/ (~ S e c /\ getz m' c = getz m c)) ->
  exists m', run (map item evs) m = Some m' /\ zlen m' = N /\
    forall c, ((exists e, In e evs /\ S e c) /\ ld m' c = Some (g c)) \/ (~ (exists e, In e evs /\ S e c) /\ getz m' c = getz m c).
Proof.
  induction evs as [|e evs IH]; intros m Zm H.
  - exists m. split; [reflexivity|]. split; auto. intros c. right. split; auto. intros (e & [] & _).
  - cbn [map run]. destruct (H e m (or_introl eq_refl) Zm) as (m1 & E1 & Z1 & G1). rewrite E1. cbn [bind].
    destruct (IH m1 Z1) as (m2 & E2 & Z2 & G2); [intros; apply H; auto; now right|]. exists m2. split; auto. split; auto. intros c.
    destruct (G2 c) as [[(x & Hx & Sx) Hv]|[Hn Hv]].
    + left. split; auto. exists x. split; auto. now right.
    + destruct (G1 c) as [[Hs Hv1]|[Hs Hv1]].
      * left. split; [exists e; split; auto; now left|]. unfold ld in *. rewrite Hv. auto.
      * right. split; [|congruence]. intros (x & [<-|Hx] & Sx); [auto|]. apply Hn. eauto.
Qed.

(** ** Offsets *)
Lemma prefix_sums_spec n ptr size : 0 <= n -> n < zlen ptr -> ld ptr 0 = Some 0 -> (forall k, 0 <= k < n -> ld ptr (k + 1) = Some (size k)) ->
  exists p, prefix_sums n ptr = Some p /\ zlen p = zlen ptr /\ forall k, 0 <= k <= n -> ld p k = Some (zsumf size 0 k).
Proof.
  intros Hn Zp H0 Hs. unfold prefix_sums.
  destruct (zfor_inv (fun i p => zlen p = zlen ptr /\ (forall k, 0 <= k < i -> ld p k = Some (zsumf size 0 k)) /\ (forall k, i <= k <= n -> ld p k = ld ptr k))
    1 (n + 1) (fun i p => a <- ld p i; b <- ld p (i - 1); st p i (a + b)) ptr) as (p & E & Zp' & G & _).
  - lia.
  - split; auto. split; auto. intros k Hk. replace k with 0 by lia. rewrite zsumf_empty by lia. auto.
  - intros i p Hi (Zp' & G1 & G2). assert (Hs' : ld p i = Some (size (i - 1))) by (rewrite G2 by lia; rewrite <- Hs by lia; f_equal; lia).
    rewrite Hs', (G1 (i - 1)) by lia. cbn [bind].
    destruct (st_Some p i (size (i - 1) + zsumf size 0 (i - 1))) as (p' & Ep); [lia|]. exists p'. split; auto.
    pose proof (st_zlen _ _ _ _ Ep). split; [lia|]. split.
    + intros k Hk. rewrite (ld_st _ _ _ _ k Ep). destruct (Z.eqb_spec i k) as [->|]; [|apply G1; lia].
      f_equal. replace k with (k - 1 + 1) at 3 by lia. rewrite zsumf_snoc by lia. lia.
    + intros k Hk. rewrite (ld_st _ _ _ _ k Ep). destruct (Z.eqb_spec i k); [lia|]. apply G2. lia.
  - exists p. split; auto. split; auto. intros k Hk. apply G. lia.
Qed.

(** ** The pair-to-index matrix *)
Lemma NoDup_flat_map {A B} (f : A -> list B) l : NoDup l -> (forall x, In x l -> NoDup (f x)) ->
  (forall x y b, In x l -> In y l -> In b (f x) -> In b (f y) -> x = y) -> NoDup (flat_map f l).
Proof.
  induction 1 as [|x l Hx Hl IH]; intros Hf Hd; cbn [flat_map]; [constructor|].
  assert (G : forall m, NoDup m -> (forall b, In b m -> ~ In b (flat_map f l)) -> NoDup (m ++ flat_map f l)).
  { induction 1 as [|b m Hb Hm IHm]; intros Hn; cbn [app]; [apply IH; intros; [apply Hf; now right|eapply Hd; eauto; now right]|].
    constructor; [|apply IHm; intros; apply Hn; now right]. intros Hin. apply in_app_or in Hin as [Hin|Hin]; [auto|]. apply (Hn b); [now left|auto]. }
  apply G; [apply Hf; now left|]. intros b Hb Hin. apply in_flat_map in Hin as (y & Hy & Hby).
  assert (x = y) by (eapply Hd; eauto; [now left|now right]). subst. auto.
Qed.

Lemma NoDup_app_intro {A} (l m : list A) : NoDup l -> NoDup m -> (forall x, In x l -> ~ In x m) -> NoDup (l ++ m).
Proof.
  induction 1 as [|x l Hx Hl IH]; intros Hm Hd; cbn [app]; auto. constructor.
  - intros Hin. apply in_app_or in Hin as [Hin|Hin]; [auto|]. apply (Hd x); [now left|auto].
  - apply IH; auto. intros y Hy. apply Hd. now right.
Qed.
Lemma NoDup_map_inj {A B} (f : A -> B) l : (forall x y, In x l -> In y l -> f x = f y -> x = y) -> NoDup l -> NoDup (map f l).
Proof.
  intros Hi. induction 1 as [|x l Hx Hl IH]; cbn [map]; constructor.
  - intros Hin. apply in_map_iff in Hin as (y & E & Hy). assert (x = y) by (apply Hi; [now left|now right|auto]). congruence.
  - apply IH. intros; apply Hi; auto; now right.
Qed.
Lemma NoDup_getz {A} (l : list A) i j x : NoDup l -> getz l i = Some x -> getz l j = Some x -> i = j.
Proof.
  intros Hn Hi Hj. pose proof (getz_range _ _ _ Hi). pose proof (getz_range _ _ _ Hj).
  unfold getz in *. destruct (Z.leb_spec 0 i); [|lia]. destruct (Z.leb_spec 0 j); [|lia].
  assert (Z.to_nat i = Z.to_nat j); [|lia]. eapply NoDup_nth_error; eauto; [|congruence]. apply nth_error_Some. congruence.
Qed.

(** What the lookup tables answer: the value listed for the coordinates, 0 if
    there is none; and row r of the table lists the partners of r. *)
Definition lookup_of (n_node : Z) (ps : list (Z * Z * Z)) (rp ci va : mem Z) : Prop :=
  (forall i j v, In (i, j, v) ps -> csr_get rp ci va i j = Some v) /\
  (forall i j, 0 <= i < n_node -> (forall v, ~ In (i, j, v) ps) -> csr_get rp ci va i j = Some 0) /\
  (forall r, 0 <= r < n_node -> exists a b, ld rp r = Some a /\ ld rp (r + 1) = Some b /\ a <= b /\
     Permutation (map (ld ci) (zrange a b)) (map (fun e => Some (snd (fst e))) (filter (fun e => fst (fst e) =? r) ps))).

Lemma pair_index_spec n_node cap ps ord : 1 <= n_node -> 1 <= zlen ps <= cap -> Permutation ord (zrange 0 n_node) ->
  (forall i j v, In (i, j, v) ps -> 0 <= i < n_node) -> NoDup (map (fun '(i, j, _) => (i, j)) ps) ->
  exists rp ci va, pair_index n_node cap ps ord = Some (rp, ci, va) /\ lookup_of n_node ps rp ci va.
Proof.
  intros Hn Hz Ho Hr Hd. unfold pair_index. destruct (Z.ltb_spec cap (zlen ps)); [lia|].
  set (row := map (fun '(i, _, _) => i) ps). set (col := map (fun '(_, j, _) => j) ps). set (vv := map snd ps).
  assert (G : forall k i j v, getz ps k = Some (i, j, v) -> nthz row k = i /\ nthz col k = j /\ nthz vv k = v).
  { intros k i j v Hk. unfold row, col, vv. repeat split; apply nthz_eq; rewrite getz_map, Hk; reflexivity. }
  assert (Ok : coo_ok n_node (zlen ps) row col vv).
  { unfold coo_ok, row, col, vv. rewrite !zlen_map. repeat (split; [reflexivity|]). intros k Hk.
    destruct (getz_in ps k Hk) as [[[i j] v] E]. destruct (G _ _ _ _ E) as (E1 & _). fold row. rewrite E1. eapply Hr, getz_In; eauto. }
  assert (Di : coords_distinct (zlen ps) row col).
  { intros k k' Hk Hk' E1 E2. destruct (getz_in ps k Hk) as [[[i j] v] E]. destruct (getz_in ps k' Hk') as [[[i' j'] v'] E'].
    destruct (G _ _ _ _ E) as (A1 & A2 & _). destruct (G _ _ _ _ E') as (B1 & B2 & _).
    eapply (NoDup_getz _ k k' (i, j) Hd); rewrite getz_map, ?E, ?E'; cbn; congruence. }
  destruct (C12_coo_to_csr n_node (zlen ps) row col vv Hn (proj1 Hz) Ok (alloc (n_node + 1)) (alloc cap) (alloc cap) ord) as (rp & ci & va & E & Hc);
    try (rewrite zlen_alloc; lia); auto.
  exists rp, ci, va. split; auto. destruct (C12_get _ _ _ _ _ _ _ _ Ok Di Hc) as [G1 G2]. split; [|split].
  - intros i j v Hin. apply In_getz in Hin as (k & Hk). destruct (G _ _ _ _ Hk) as (<- & <- & <-). apply G1. eapply getz_range; eauto.
  - intros i j Hi Hno. apply G2; auto. intros k Hk (E1 & E2). destruct (getz_in ps k Hk) as [[[i' j'] v'] E'].
    destruct (G _ _ _ _ E') as (A1 & A2 & _). apply (Hno v'). apply getz_In with k. congruence.
  - intros r Hr0. destruct Hc as (_ & _ & _ & Hc). destruct (Hc r Hr0) as (a & b & A1 & A2 & A3 & _ & P & _).
    exists a, b. do 2 (split; [auto|]). split; [lia|]. apply (Permutation_map fst) in P. unfold cells, coo_row in P. rewrite !map_map in P.
    change (Permutation (map (ld ci) (zrange a b)) (map (getz col) (filter (fun k => nthz row k =? r) (zrange 0 (zlen ps))))) in P.
    assert (Eq : map (getz col) (filter (fun k => nthz row k =? r) (zrange 0 (zlen ps))) = map (fun e => Some (snd (fst e))) (filter (fun e => fst (fst e) =? r) ps)); [|rewrite <- Eq; exact P].
    unfold col, row. clear. induction ps as [|[[i j] v] l IH] using rev_ind; [reflexivity|].
    rewrite !map_app, zlen_app, filter_app, map_app. cbn [map]. change (zlen [(i, j, v)]) with 1. pose proof (zlen_nonneg l).
    rewrite zrange_snoc, filter_app, map_app by lia. f_equal.
    + etransitivity; [|exact IH].
      assert (E : forall m, (forall k, In k m -> 0 <= k < zlen l) ->
        map (getz (map (fun '(_, j0, _) => j0) l ++ [j])) (filter (fun k => nthz (map (fun '(i0, _, _) => i0) l ++ [i]) k =? r) m) =
        map (getz (map (fun '(_, j0, _) => j0) l)) (filter (fun k => nthz (map (fun '(i0, _, _) => i0) l) k =? r) m)).
      { induction m as [|k m IHm]; intros Hm; [reflexivity|]. cbn [filter].
        assert (Hk : 0 <= k < zlen l) by (apply Hm; now left).
        assert (En : nthz (map (fun '(i0, _, _) => i0) l ++ [i]) k = nthz (map (fun '(i0, _, _) => i0) l) k) by (unfold nthz; rewrite getz_app1 by (rewrite zlen_map; lia); reflexivity).
        rewrite En. destruct (_ =? r); [cbn [map]; rewrite getz_app1 by (rewrite zlen_map; lia); f_equal|]; apply IHm; intros; apply Hm; now right. }
      apply E. intros k Hk. apply In_zrange in Hk. lia.
    + assert (E1 : nthz (map (fun '(i0, _, _) => i0) l ++ [i]) (zlen l) = i) by (unfold nthz; rewrite getz_app2 by (rewrite zlen_map; lia); rewrite zlen_map, Z.sub_diag; reflexivity).
      assert (E2 : getz (map (fun '(_, j0, _) => j0) l ++ [j]) (zlen l) = Some j) by (rewrite getz_app2 by (rewrite zlen_map; lia); rewrite zlen_map, Z.sub_diag; reflexivity).
      cbn [filter fst snd]. rewrite E1. destruct (i =? r); cbn [map fst snd]; [now rewrite E2|reflexivity].
Qed.

(** ** The metadata of B *)

(** What the metadata say: [n] blocks, the k-th of size nrow k by ncol k. *)
Record meta_ok (n_node n : Z) (nrow ncol : Z -> Z) (ps : list (Z * Z * Z)) (m : bmeta) : Prop := {
  mo_nrow : forall k, 0 <= k < n -> ld (bm_nrow m) k = Some (nrow k);
  mo_ncol : forall k, 0 <= k < n -> ld (bm_ncol m) k = Some (ncol k);
  mo_ptr : forall k, 0 <= k <= n -> ld (bm_ptr m) k = Some (zsumf (fun k => nrow k * ncol k) 0 k);
  mo_total : bm_total m = zsumf (fun k => nrow k * ncol k) 0 n;
  mo_look : lookup_of n_node ps (bm_rowptr m) (bm_colidx m) (bm_val m)
}.

Lemma bump_spec m i c : ld m i = Some c -> exists m', bump m i = Some m' /\ zlen m' = zlen m /\ forall k, ld m' k = if i =? k then Some (c + 1) else ld m k.
Proof.
  intros H. unfold bump. rewrite H. cbn [bind]. destruct (st_Some m i (c + 1)) as [m' E]; [eapply ld_range; eauto|].
  exists m'. split; auto. split; [eapply st_zlen; eauto|]. intros k. apply (ld_st _ _ _ _ k E).
Qed.

(** Occurrences of node j in the first i pairs. *)
Definition occurs (l : list (Z * Z)) (j : Z) : Z := zcount (fun '(a, _) => a =? j) l + zcount (fun '(_, b) => b =? j) l.
Lemma occurs_app l m j : occurs (l ++ m) j = occurs l j + occurs m j.
Proof. unfold occurs. rewrite !zcount_app. lia. Qed.

(** The entries of the i-th pair, recorded with index v. *)
Definition both (v : Z) (p : Z * Z) : list (Z * Z * Z) := [(fst p, snd p, v); (snd p, fst p, - v)].
Definition pair_at (pairs : list (Z * Z)) (i : Z) : Z * Z := val (0, 0) (getz pairs i).
Definition pair_entries (off : Z) (pairs : list (Z * Z)) (n : Z) : list (Z * Z * Z) :=
  flat_map (fun i => both (off + i + 1) (pair_at pairs i)) (zrange 0 n).
Lemma pair_entries_snoc off pairs i p : 0 <= i -> getz pairs i = Some p -> pair_entries off pairs (i + 1) = pair_entries off pairs i ++ both (off + i + 1) p.
Proof.
  intros Hi Hp. unfold pair_entries. rewrite zrange_snoc by lia. rewrite flat_map_app. cbn [flat_map]. unfold pair_at at 2. rewrite Hp. cbn [val]. now rewrite app_nil_r.
Qed.
Lemma pair_entries_len off pairs n : 0 <= n -> zlen (pair_entries off pairs n) = 2 * n.
Proof.
  intros Hn. unfold pair_entries. replace n with (zlen (zrange 0 n)) at 2 by (rewrite zlen_zrange; lia).
  induction (zrange 0 n) as [|x l IH]; cbn [flat_map both app]; [reflexivity|]. rewrite !zlen_cons, IH. lia.
Qed.

Section Bmeta.
Variables (kdim n_node n_thread : Z) (level cluster : mem Z) (J : list int_vec) (pairs : list (Z * Z)) (np0 np1 : Z -> Z).
Hypothesis Hk : 1 <= kdim.
Hypothesis Hnp : forall k n0 n1, getz pairs k = Some (n0, n1) ->
  B_npts level cluster J n0 n1 = Some (np0 k, np1 k) /\ 0 <= np0 k /\ 0 <= np1 k /\ 0 <= n0 < n_node /\ 0 <= n1 < n_node.
Let nrow k := np0 k * kdim.
Let ncol k := np1 k * kdim.
Let size k := nrow k * ncol k.

Definition b_inv (i : Z) (s : bst) : Prop :=
  zlen (b_nrow s) = zlen pairs /\ zlen (b_ncol s) = zlen pairs /\ zlen (b_ptr s) = zlen pairs + 1 /\
  (forall k, 0 <= k < i -> ld (b_nrow s) k = Some (nrow k) /\ ld (b_ncol s) k = Some (ncol k) /\ ld (b_ptr s) (k + 1) = Some (size k)) /\
  ld (b_ptr s) 0 = Some 0 /\ b_tot s = zsumf size 0 i /\
  zlen (b_nr s) = n_node /\ (forall j, 0 <= j < n_node -> ld (b_nr s) j = Some (occurs (firstn (Z.to_nat i) pairs) j)) /\
  b_ps s = pair_entries 0 pairs i.

Lemma firstn_snoc_getz {A} (l : list A) i x : getz l i = Some x -> firstn (Z.to_nat (i + 1)) l = firstn (Z.to_nat i) l ++ [x].
Proof.
  intros H. pose proof (getz_range _ _ _ H) as R. replace (Z.to_nat (i + 1)) with (S (Z.to_nat i)) by lia.
  unfold getz in H. destruct (Z.leb_spec 0 i); [|lia]. clear R H0. revert l H. induction (Z.to_nat i) as [|n IH]; intros [|y l] H; try discriminate; cbn in *.
  - congruence.
  - now rewrite IH.
Qed.

Lemma B_item_spec i s : 0 <= i < zlen pairs -> b_inv i s -> exists s', B_item kdim false level cluster J pairs i s = Some s' /\ b_inv (i + 1) s'.
Proof.
  intros Hi (Z1 & Z2 & Z3 & A & P0 & T & Zr & R & Ps). destruct (getz_in pairs i Hi) as [[n0 n1] E].
  destruct (Hnp _ _ _ E) as (En & G0 & G1 & N0 & N1). unfold B_item. rewrite E. cbn [bind].
  destruct (bump_spec (b_nr s) n0 _ (R n0 N0)) as (nr1 & -> & Zr1 & L1). cbn [bind].
  destruct (ld nr1 n1) as [c1|] eqn:Ec; [|rewrite L1, (R n1 N1) in Ec; destruct (n0 =? n1); discriminate].
  destruct (bump_spec nr1 n1 _ Ec) as (nr2 & -> & Zr2 & L2). cbn [bind]. rewrite En. cbn [bind].
  destruct (st_Some (b_nrow s) i (np0 i * kdim)) as [r' E1]; [lia|]. rewrite E1. cbn [bind].
  destruct (st_Some (b_ncol s) i (np1 i * kdim)) as [c' E2]; [lia|]. rewrite E2. cbn [bind].
  destruct (st_Some (b_ptr s) (i + 1) (np0 i * kdim * (np1 i * kdim))) as [p' E3]; [lia|]. rewrite E3. cbn [bind].
  eexists. split; [reflexivity|]. unfold b_inv. cbn [b_nrow b_ncol b_ptr b_tot b_nr b_ps].
  pose proof (st_zlen _ _ _ _ E1). pose proof (st_zlen _ _ _ _ E2). pose proof (st_zlen _ _ _ _ E3).
  repeat (split; [lia|]). split.
  { intros k Hk'. rewrite (ld_st _ _ _ _ k E1), (ld_st _ _ _ _ k E2), (ld_st _ _ _ _ (k + 1) E3).
    destruct (Z.eqb_spec i k) as [->|]; [rewrite Z.eqb_refl; auto|]. destruct (Z.eqb_spec (i + 1) (k + 1)); [lia|]. apply A. lia. }
  split; [rewrite (ld_st _ _ _ _ 0 E3); destruct (Z.eqb_spec (i + 1) 0); [lia|auto]|].
  split; [rewrite zsumf_snoc by lia; unfold size, nrow, ncol in *; lia|]. split; [lia|]. split.
  - intros j Hj. rewrite L2. rewrite (firstn_snoc_getz _ _ _ E), occurs_app. unfold occurs at 2. rewrite !zcount_cons, !zcount_nil.
    rewrite L1 in Ec. rewrite (R n1 N1) in Ec. rewrite L1, (R j Hj).
    destruct (Z.eqb_spec n1 j) as [->|]; destruct (Z.eqb_spec n0 j) as [->|]; rewrite ?Z.eqb_refl in *; try (injection Ec as <-); f_equal; try lia.
  - rewrite (pair_entries_snoc 0 pairs i _ (proj1 Hi) E), Ps. rewrite <- app_assoc. reflexivity.
Qed.
End Bmeta.

Lemma partition_workload_cap n sizes total nb displs dl v : iv_holds displs dl -> partition_workload n sizes total nb displs = Some v -> nb + 1 <= iv_cap v.
Proof.
  intros Hd. unfold partition_workload. destruct (iv_set_capacity_spec displs dl (nb + 1) Hd) as (w & -> & _ & Hw). cbn [bind].
  destruct (st (iv_data w) 0 0); [|discriminate]. cbn [bind]. destruct (zfor 1 _ _ _); [|discriminate]. cbn [bind].
  destruct (nb =? 0); [discriminate|]. destruct (zfor 0 n _ _) as [[[c i] d]|]; [|discriminate]. cbn [bind].
  destruct (0 <? c).
  - destruct (st d i n); [|discriminate]. cbn [bind]. intros E. injection E as <-. cbn [iv_cap]. lia.
  - intros E. injection E as <-. cbn [iv_cap]. lia.
Qed.

(** The partition of work: block boundaries for the items, at most [nb] blocks,
    and room for reading [nb] + 1 boundaries. *)
Definition work_ok (blk : int_vec) (n nb : Z) (size : Z -> Z) : Prop :=
  blocks_ok blk n size /\ iv_len blk <= nb + 1 /\ nb + 1 <= zlen (iv_data blk).

Lemma work_spec n sizes (size : Z -> Z) total nb blk bl : iv_holds blk bl -> zlen sizes = n -> (forall i, 0 <= i < n -> getz sizes i = Some (size i)) ->
  (forall i, 0 <= i < n -> 0 <= size i) -> total = zsumf size 0 n -> 1 <= nb ->
  exists v, partition_workload n sizes total nb blk = Some v /\ work_ok v n nb size.
Proof.
  intros Hb Zs Gs Hp Ht Hn.
  assert (Hns : forall i, 0 <= i < n -> nthz sizes i = size i) by (intros; apply nthz_eq; auto).
  destruct (partition_workload_spec n sizes total nb blk bl Hb Zs) as (v & b & E & Hv & [I0 I1] & L & N1 & N2 & _); auto.
  { intros i Hi. rewrite Hns; auto. } { subst total. unfold work. apply zsumf_ext. intros; symmetry; auto. }
  exists v. split; auto. pose proof (partition_workload_cap _ _ _ _ _ _ _ Hb E). pose proof Hv as (V1 & V2 & V3 & _). split; [|lia].
  pose proof (getz_range _ _ _ I0).
  exists b. split; auto. split; [lia|]. split; auto. split; [intros k K1 K2; specialize (I1 k K1 K2); lia|]. split; auto.
  assert (Hmono : forall m, (m < Z.to_nat (zlen b))%nat -> 0 <= nthz b (Z.of_nat m)).
  { induction m as [|m IHm]; intros Hm; [change (Z.of_nat 0) with 0; rewrite (nthz_eq _ _ _ I0); lia|]. specialize (IHm ltac:(lia)).
    specialize (I1 (Z.of_nat m) ltac:(lia) ltac:(lia)). replace (Z.of_nat (S m)) with (Z.of_nat m + 1) by lia. lia. }
  specialize (Hmono (Z.to_nat (zlen b - 1)) ltac:(lia)). rewrite Z2Nat.id in Hmono by lia.
  intros k Hk. rewrite <- Hns by lia. auto.
Qed.

(** The pairs as an undirected graph without loops or repeated edges. *)
Definition simple_pairs (pairs : list (Z * Z)) : Prop :=
  NoDup pairs /\ (forall a b, In (a, b) pairs -> a <> b /\ ~ In (b, a) pairs).

Lemma pair_entries_In off pairs n i j v : n <= zlen pairs -> In (i, j, v) (pair_entries off pairs n) ->
  exists k, 0 <= k < n /\ ((getz pairs k = Some (i, j) /\ v = off + k + 1) \/ (getz pairs k = Some (j, i) /\ v = - (off + k + 1))).
Proof.
  intros Hn H. apply in_flat_map in H as (k & Hk & H). apply In_zrange in Hk. exists k. split; auto.
  unfold pair_at in H. destruct (getz_in pairs k ltac:(lia)) as [[a b] E]. rewrite E in H. destruct H as [H|[H|[]]]; cbn in H; injection H as <- <- <-; auto.
Qed.
Lemma In_pair_entries off pairs n k a b : n <= zlen pairs -> 0 <= k < n -> getz pairs k = Some (a, b) ->
  In (a, b, off + k + 1) (pair_entries off pairs n) /\ In (b, a, - (off + k + 1)) (pair_entries off pairs n).
Proof.
  intros Hn Hk E. unfold pair_entries. split; apply in_flat_map; exists k; (split; [now apply In_zrange|]); unfold pair_at; rewrite E; cbn; auto.
Qed.

Lemma map_flat_map {A B C} (f : B -> C) (g : A -> list B) l : map f (flat_map g l) = flat_map (fun x => map f (g x)) l.
Proof. induction l; cbn; auto. rewrite map_app. congruence. Qed.

Lemma pair_entries_NoDup off pairs : simple_pairs pairs -> NoDup (map (fun '(i, j, _) => (i, j)) (pair_entries off pairs (zlen pairs))).
Proof.
  intros (Hn & Hs). unfold pair_entries. rewrite map_flat_map. apply NoDup_flat_map.
  - apply NoDup_zrange.
  - intros x Hx. apply In_zrange in Hx. unfold pair_at. destruct (getz_in pairs x Hx) as [[a b] E]. rewrite E. cbn.
    destruct (Hs a b) as [Hab _]; [eapply getz_In; eauto|]. constructor; [intros [H|[]]; congruence|constructor; [auto|constructor]].
  - intros x y [c d] Hx Hy Ix Iy. apply In_zrange in Hx, Hy. unfold pair_at in *.
    destruct (getz_in pairs x Hx) as [[a b] E]. destruct (getz_in pairs y Hy) as [[a' b'] E']. rewrite E in Ix. rewrite E' in Iy. cbn in Ix, Iy.
    pose proof (getz_In _ _ _ E) as In1. pose proof (getz_In _ _ _ E') as In2. destruct (Hs _ _ In1) as [_ S1].
    assert ((a, b) = (a', b') \/ (a, b) = (b', a')) as [Q|Q].
    { destruct Ix as [Q|[Q|[]]]; destruct Iy as [R|[R|[]]]; injection Q as <- <-; injection R as -> ->; auto. }
    + injection Q as <- <-. eapply NoDup_getz; eauto.
    + injection Q as <- <-. contradiction.
Qed.

Section Bmeta2.
Variables (kdim n_node n_thread : Z) (level cluster : mem Z) (J : list int_vec) (pairs : list (Z * Z)) (np0 np1 : Z -> Z).
Hypothesis Hk : 1 <= kdim.
Hypothesis Hnp : forall k n0 n1, getz pairs k = Some (n0, n1) ->
  B_npts level cluster J n0 n1 = Some (np0 k, np1 k) /\ 0 <= np0 k /\ 0 <= np1 k /\ 0 <= n0 < n_node /\ 0 <= n1 < n_node.
Let nrow k := np0 k * kdim.
Let ncol k := np1 k * kdim.

Lemma gen_B_metadata_spec_nt ntask ord blk bl : 1 <= ntask -> 1 <= n_node -> 1 <= n_thread -> 1 <= zlen pairs -> simple_pairs pairs ->
  Permutation ord (zrange 0 n_node) -> iv_holds blk bl ->
  exists m nr v, gen_B_metadata kdim n_node n_thread ntask false level cluster J pairs ord blk = Some (m, nr, v) /\
    meta_ok n_node (zlen pairs) nrow ncol (pair_entries 0 pairs (zlen pairs)) m /\
    zlen nr = n_node /\ (forall j, 0 <= j < n_node -> ld nr j = Some (occurs pairs j)) /\
    work_ok v (zlen pairs) (n_thread * ntask) (fun k => nrow k * ncol k).
Proof.
  intros Hnt Hnode Ht Hn Hs Ho Hb. unfold gen_B_metadata.
  destruct (st_Some (@alloc Z (zlen pairs + 1)) 0 0) as [p0 E0]; [rewrite zlen_alloc; lia|]. rewrite E0. cbn [bind].
  pose proof (st_zlen _ _ _ _ E0) as Zp0. rewrite zlen_alloc in Zp0 by lia.
  destruct (zfill_spec (fun _ => 0) (fun i m => st m i 0) 0 n_node (alloc n_node)) as (nr0 & En & Zn & Ln); [auto|lia|lia|rewrite zlen_alloc; lia|].
  rewrite En. cbn [bind]. rewrite zlen_alloc in Zn by lia.
  destruct (zfor_inv (b_inv kdim n_node pairs np0 np1) 0 (zlen pairs) (B_item kdim false level cluster J pairs)
    (BSt (alloc (zlen pairs)) (alloc (zlen pairs)) p0 nr0 0 [])) as (s & Es & Z1 & Z2 & Z3 & A & P0 & T & Zr & R & Ps).
  - lia.
  - unfold b_inv. cbn [b_nrow b_ncol b_ptr b_tot b_nr b_ps]. rewrite !zlen_alloc by lia. repeat (split; [lia|]).
    split; [eapply ld_st_same; eauto|]. split; [now rewrite zsumf_empty by lia|]. split; [auto|]. split; [|reflexivity].
    intros j Hj. rewrite Ln. destruct (Z.leb_spec 0 j); [|lia]. destruct (Z.ltb_spec j n_node); [|lia]. reflexivity.
  - intros i s Hi Hinv. apply B_item_spec; auto.
  - rewrite Es. cbn [bind].
    assert (HA : forall k, 0 <= k < zlen pairs -> ld (b_ptr s) (1 + k) = Some (nrow k * ncol k)).
    { intros k Hk'. rewrite Z.add_comm. now apply A. }
    rewrite (read_cells_spec _ _ _ (fun k => nrow k * ncol k)) by (auto; lia). cbn [bind].
    assert (Hpos : forall k, 0 <= k < zlen pairs -> 0 <= nrow k * ncol k).
    { intros k Hk'. destruct (getz_in pairs k Hk') as [[a b] E]. destruct (Hnp _ _ _ E) as (_ & G0 & G1 & _). unfold nrow, ncol. nia. }
    destruct (work_spec (zlen pairs) (map (fun k => nrow (k - 1) * ncol (k - 1)) (zrange 1 (1 + zlen pairs))) (fun k => nrow k * ncol k) (b_tot s) (n_thread * ntask) blk bl)
      as (v & Ev & Wv); auto; try nia.
    { rewrite zlen_map, zlen_zrange by lia. lia. }
    { intros i Hi. rewrite getz_map, getz_zrange by lia. cbn. now replace (1 + i - 1) with i by lia. }
    rewrite Ev. cbn [bind].
    destruct (prefix_sums_spec (zlen pairs) (b_ptr s) (fun k => nrow k * ncol k)) as (p & Ep & Zp & Lp); auto; try lia.
    { intros k Hk'. now apply A. }
    rewrite Ep. cbn [bind].
    destruct (pair_index_spec n_node (zlen pairs * 2) (b_ps s) ord) as (rp & ci & va & Epi & Hl); auto.
    { rewrite Ps, pair_entries_len by lia. lia. }
    { intros i j w Hin. rewrite Ps in Hin. apply pair_entries_In in Hin as (k & Hk' & [(E & _)|(E & _)]); [| |lia]; apply Hnp in E; lia. }
    { rewrite Ps. now apply pair_entries_NoDup. }
    rewrite Epi. cbn [bind]. eexists _, _, _. split; [reflexivity|]. split; [|split; [auto|split]].
    + constructor; cbn [bm_nrow bm_ncol bm_ptr bm_total bm_rowptr bm_colidx bm_val]; auto.
      * intros k Hk'. now apply A.
      * intros k Hk'. now apply A.
      * now rewrite <- Ps.
    + intros j Hj. rewrite R by auto. f_equal. f_equal. apply firstn_all2. unfold zlen. lia.
    + auto.
Qed.
Lemma gen_B_metadata_spec ord blk bl : 1 <= n_node -> 1 <= n_thread -> 1 <= zlen pairs -> simple_pairs pairs ->
  Permutation ord (zrange 0 n_node) -> iv_holds blk bl ->
  exists m nr v, gen_B_metadata kdim n_node n_thread 1 false level cluster J pairs ord blk = Some (m, nr, v) /\
    meta_ok n_node (zlen pairs) nrow ncol (pair_entries 0 pairs (zlen pairs)) m /\
    zlen nr = n_node /\ (forall j, 0 <= j < n_node -> ld nr j = Some (occurs pairs j)) /\
    work_ok v (zlen pairs) n_thread (fun k => nrow k * ncol k).
Proof.
  intros Hnode Ht Hn Hs Ho Hb. destruct (gen_B_metadata_spec_nt 1 ord blk bl ltac:(lia) Hnode Ht Hn Hs Ho Hb) as (m & nr & v & E & M & Z1 & L & W).
  rewrite Z.mul_1_r in W. exists m, nr, v. auto 10.
Qed.
End Bmeta2.

(** ** The metadata of D *)
Section Dmeta.
Variables (kdim n_node n_leaf n_thread : Z) (leaves cluster : mem Z) (pairs : list (Z * Z)) (lf cs ce : Z -> Z).
Hypothesis Hk : 1 <= kdim.
Hypothesis Hcl : forall i, 0 <= i < n_node -> ld cluster (2 * i) = Some (cs i) /\ ld cluster (2 * i + 1) = Some (ce i) /\ cs i <= ce i.
Hypothesis Hlf : forall k, 0 <= k < n_leaf -> ld leaves k = Some (lf k) /\ 0 <= lf k < n_node.
Hypothesis Hpr : forall k n0 n1, getz pairs k = Some (n0, n1) -> 0 <= n0 < n_node /\ 0 <= n1 < n_node.
Let np i := ce i - cs i + 1.
(** Row and column node of the k-th block. *)
Definition d_row (k : Z) : Z := if k <? n_leaf then lf k else fst (pair_at pairs (k - n_leaf)).
Definition d_col (k : Z) : Z := if k <? n_leaf then lf k else snd (pair_at pairs (k - n_leaf)).
Let nrow k := np (d_row k) * kdim.
Let ncol k := np (d_col k) * kdim.
Let size k := nrow k * ncol k.
Definition leaf_entries (n : Z) : list (Z * Z * Z) := map (fun i => (lf i, lf i, i + 1)) (zrange 0 n).
Let n := n_leaf + zlen pairs.

Definition d_inv (first last : Z) (pl : list (Z * Z * Z)) (s : dst) : Prop :=
  zlen (d_nrow s) = n /\ zlen (d_ncol s) = n /\ zlen (d_ptr s) = n + 1 /\
  (forall k, 0 <= k < last -> ld (d_nrow s) k = Some (nrow k) /\ ld (d_ncol s) k = Some (ncol k) /\ ld (d_ptr s) (k + 1) = Some (size k)) /\
  ld (d_ptr s) 0 = Some 0 /\ d_tot s = zsumf size first last /\ d_ps s = pl.

Lemma D_leaf_item_spec i s : 0 <= i < n_leaf -> d_inv 0 i (leaf_entries i) s ->
  exists s', D_leaf_item kdim leaves cluster i s = Some s' /\ d_inv 0 (i + 1) (leaf_entries (i + 1)) s'.
Proof.
  intros Hi (Z1 & Z2 & Z3 & A & P0 & T & Ps). pose proof (zlen_nonneg pairs) as Zp. destruct (Hlf i Hi) as (El & Rl). destruct (Hcl _ Rl) as (C1 & C2 & C3).
  unfold D_leaf_item. rewrite El. cbn [bind]. rewrite C1, C2. cbn [bind].
  assert (Er : nrow i = np (lf i) * kdim) by (unfold nrow, d_row; destruct (Z.ltb_spec i n_leaf); [reflexivity|lia]).
  assert (Ec : ncol i = np (lf i) * kdim) by (unfold ncol, d_col; destruct (Z.ltb_spec i n_leaf); [reflexivity|lia]).
  fold (np (lf i)). set (q := np (lf i) * kdim) in *.
  destruct (st_Some (d_nrow s) i q) as [r' E1]; [lia|]. rewrite E1. cbn [bind].
  destruct (st_Some (d_ncol s) i q) as [c' E2]; [lia|]. rewrite E2. cbn [bind].
  destruct (st_Some (d_ptr s) (i + 1) (q * q)) as [p' E3]; [lia|]. rewrite E3. cbn [bind].
  assert (Esz : size i = q * q) by (unfold size; now rewrite Er, Ec).
  rewrite <- Er in E1. rewrite <- Ec in E2. rewrite <- Esz in *. clearbody q.
  eexists. split; [reflexivity|]. unfold d_inv. cbn [d_nrow d_ncol d_ptr d_tot d_ps].
  pose proof (st_zlen _ _ _ _ E1). pose proof (st_zlen _ _ _ _ E2). pose proof (st_zlen _ _ _ _ E3).
  split; [lia|]. split; [lia|]. split; [lia|]. split.
  { intros k Hk'. rewrite (ld_st _ _ _ _ k E1), (ld_st _ _ _ _ k E2), (ld_st _ _ _ _ (k + 1) E3).
    destruct (Z.eqb_spec i k) as [->|]; [rewrite Z.eqb_refl; auto|]. destruct (Z.eqb_spec (i + 1) (k + 1)); [lia|]. apply A. lia. }
  split; [rewrite (ld_st _ _ _ _ 0 E3); destruct (Z.eqb_spec (i + 1) 0); [lia|auto]|].
  split; [rewrite zsumf_snoc by lia; lia|].
  rewrite Ps. unfold leaf_entries. rewrite zrange_snoc, map_app by lia. reflexivity.
Qed.

Lemma D_pair_item_spec i s : 0 <= n_leaf -> 0 <= i < zlen pairs -> d_inv n_leaf (n_leaf + i) (leaf_entries n_leaf ++ pair_entries n_leaf pairs i) s ->
  exists s', D_pair_item kdim n_leaf false cluster pairs i s = Some s' /\
    d_inv n_leaf (n_leaf + (i + 1)) (leaf_entries n_leaf ++ pair_entries n_leaf pairs (i + 1)) s'.
Proof.
  intros Hnl Hi (Z1 & Z2 & Z3 & A & P0 & T & Ps). destruct (getz_in pairs i Hi) as [[n0 n1] E]. destruct (Hpr _ _ _ E) as (R0 & R1).
  destruct (Hcl _ R0) as (C1 & C2 & C3). destruct (Hcl _ R1) as (C4 & C5 & C6).
  unfold D_pair_item. rewrite E. cbn [bind]. rewrite C1, C2, C4, C5. cbn [bind]. fold (np n0) (np n1).
  set (ii := i + n_leaf).
  assert (Epi : pair_at pairs (ii - n_leaf) = (n0, n1)) by (unfold pair_at, ii; replace (i + n_leaf - n_leaf) with i by lia; now rewrite E).
  assert (Er : nrow ii = np n0 * kdim) by (unfold nrow, d_row; destruct (Z.ltb_spec ii n_leaf); [lia|]; now rewrite Epi).
  assert (Ec : ncol ii = np n1 * kdim) by (unfold ncol, d_col; destruct (Z.ltb_spec ii n_leaf); [lia|]; now rewrite Epi).
  rewrite <- Er, <- Ec.
  destruct (st_Some (d_nrow s) ii (nrow ii)) as [r' E1]; [lia|]. rewrite E1. cbn [bind].
  destruct (st_Some (d_ncol s) ii (ncol ii)) as [c' E2]; [lia|]. rewrite E2. cbn [bind].
  destruct (st_Some (d_ptr s) (ii + 1) (nrow ii * ncol ii)) as [p' E3]; [lia|]. rewrite E3. cbn [bind].
  eexists. split; [reflexivity|]. unfold d_inv. cbn [d_nrow d_ncol d_ptr d_tot d_ps].
  pose proof (st_zlen _ _ _ _ E1). pose proof (st_zlen _ _ _ _ E2). pose proof (st_zlen _ _ _ _ E3).
  split; [lia|]. split; [lia|]. split; [lia|]. split.
  { intros k Hk'. rewrite (ld_st _ _ _ _ k E1), (ld_st _ _ _ _ k E2), (ld_st _ _ _ _ (k + 1) E3).
    destruct (Z.eqb_spec ii k) as [->|]; [rewrite Z.eqb_refl; auto|]. destruct (Z.eqb_spec (ii + 1) (k + 1)); [lia|]. apply A. lia. }
  split; [rewrite (ld_st _ _ _ _ 0 E3); destruct (Z.eqb_spec (ii + 1) 0); [lia|auto]|].
  split; [replace (n_leaf + (i + 1)) with (n_leaf + i + 1) by lia; rewrite zsumf_snoc by lia; rewrite T; replace (n_leaf + i) with ii by lia; reflexivity|].
  rewrite (pair_entries_snoc n_leaf pairs i _ (proj1 Hi) E), Ps. rewrite <- !app_assoc. unfold both. cbn [fst snd app]. replace (ii + 1) with (n_leaf + i + 1) by lia. reflexivity.
Qed.

Lemma zsumf_cut f a b c : a <= b <= c -> zsumf f a c = zsumf f a b + zsumf f b c.
Proof. intros. now apply zsumf_split. Qed.

Lemma gen_D_metadata_spec_nt ntask ord blk0 bl0 blk1 bl1 : 1 <= ntask -> 1 <= n_node -> 1 <= n_thread -> 1 <= n_leaf -> simple_pairs pairs ->
  (forall i j, 0 <= i < n_leaf -> 0 <= j < n_leaf -> lf i = lf j -> i = j) ->
  Permutation ord (zrange 0 n_node) -> iv_holds blk0 bl0 -> iv_holds blk1 bl1 ->
  exists m v0 v1, gen_D_metadata kdim n_node n_leaf n_thread ntask false leaves cluster pairs ord blk0 blk1 = Some (m, v0, v1) /\
    meta_ok n_node n nrow ncol (leaf_entries n_leaf ++ pair_entries n_leaf pairs (zlen pairs)) m /\
    work_ok v0 n_leaf (n_thread * ntask) size /\ work_ok v1 (zlen pairs) (n_thread * ntask) (fun k => size (n_leaf + k)).
Proof.
  intros Hnt Hnode Ht Hl Hs Hinj Ho Hb0 Hb1. unfold gen_D_metadata. pose proof (zlen_nonneg pairs) as Zp. fold n.
  destruct (st_Some (@alloc Z (n + 1)) 0 0) as [p0 E0]; [rewrite zlen_alloc; lia|]. rewrite E0. cbn [bind].
  pose proof (st_zlen _ _ _ _ E0) as Zp0. rewrite zlen_alloc in Zp0 by lia.
  destruct (zfor_inv (fun i => d_inv 0 i (leaf_entries i)) 0 n_leaf (D_leaf_item kdim leaves cluster)
    (DSt (alloc n) (alloc n) p0 0 [])) as (s & Es & Hinv).
  - lia.
  - unfold d_inv. cbn [d_nrow d_ncol d_ptr d_tot d_ps]. rewrite !zlen_alloc by lia.
    split; [lia|]. split; [lia|]. split; [lia|]. split; [intros; lia|]. split; [eapply ld_st_same; eauto|]. split; [now rewrite zsumf_empty by lia|reflexivity].
  - intros i s Hi Hinv. now apply D_leaf_item_spec.
  - rewrite Es. cbn [bind]. destruct Hinv as (Z1 & Z2 & Z3 & A & P0 & T0 & Ps0).
    destruct (zfor_inv (fun i => d_inv n_leaf (n_leaf + i) (leaf_entries n_leaf ++ pair_entries n_leaf pairs i)) 0 (zlen pairs) (D_pair_item kdim n_leaf false cluster pairs)
      (DSt (d_nrow s) (d_ncol s) (d_ptr s) 0 (d_ps s))) as (s' & Es' & Hinv').
    + lia.
    + unfold d_inv. cbn [d_nrow d_ncol d_ptr d_tot d_ps]. split; [auto|]. split; [auto|]. split; [auto|]. split; [intros; apply A; lia|]. split; [auto|].
      split; [now rewrite zsumf_empty by lia|]. rewrite Ps0. unfold pair_entries. rewrite zrange_empty by lia. cbn. now rewrite app_nil_r.
    + intros i x Hi Hx. apply D_pair_item_spec; auto. lia.
    + rewrite Es'. cbn [bind]. destruct Hinv' as (Z1' & Z2' & Z3' & A' & P0' & T1 & Ps). fold n in A'. rewrite T0, T1.
      assert (HA : forall k, 0 <= k < n -> ld (d_ptr s') (k + 1) = Some (size k)) by (intros; apply A'; lia).
      assert (Hr : forall k, 0 <= k < n -> 0 <= d_row k < n_node /\ 0 <= d_col k < n_node).
      { intros k Hk'. unfold d_row, d_col. destruct (Z.ltb_spec k n_leaf); [split; apply Hlf; lia|].
        unfold pair_at. destruct (getz_in pairs (k - n_leaf)) as [[a b] E]; [lia|]. rewrite E. cbn. eapply Hpr; eauto. }
      assert (Hpos : forall k, 0 <= k < n -> 0 <= size k).
      { intros k Hk'. destruct (Hr k Hk') as (H1 & H2). pose proof (proj2 (proj2 (Hcl _ H1))). pose proof (proj2 (proj2 (Hcl _ H2))).
        unfold size, nrow, ncol, np. apply Z.mul_nonneg_nonneg; apply Z.mul_nonneg_nonneg; lia. }
      rewrite (read_cells_spec _ _ _ size) by (try lia; intros; rewrite Z.add_comm; apply HA; lia). cbn [bind].
      destruct (work_spec n_leaf (map (fun k => size (k - 1)) (zrange 1 (1 + n_leaf))) size (zsumf size 0 n_leaf) (n_thread * ntask) blk0 bl0)
        as (v0 & Ev0 & Wv0); auto; try nia.
      { rewrite zlen_map, zlen_zrange by lia. lia. }
      { intros i Hi. rewrite getz_map, getz_zrange by lia. cbn. now replace (1 + i - 1) with i by lia. }
      { intros i Hi. apply Hpos. lia. }
      rewrite Ev0. cbn [bind].
      rewrite (read_cells_spec _ _ _ (fun k => size (n_leaf + k))) by (try lia; intros; rewrite <- HA by lia; f_equal; lia). cbn [bind].
      destruct (work_spec (zlen pairs) (map (fun k => size (n_leaf + (k - (n_leaf + 1)))) (zrange (n_leaf + 1) (n_leaf + 1 + zlen pairs))) (fun k => size (n_leaf + k))
        (zsumf size n_leaf (n_leaf + zlen pairs)) (n_thread * ntask) blk1 bl1) as (v1 & Ev1 & Wv1); auto; try nia.
      { rewrite zlen_map, zlen_zrange by lia. lia. }
      { intros i Hi. rewrite getz_map, getz_zrange by lia. cbn. f_equal. f_equal. lia. }
      { intros i Hi. apply Hpos. lia. }
      { unfold zsumf. f_equal. replace n_leaf with (n_leaf + 0) at 1 by lia. clear. generalize (zlen pairs). intros z.
        unfold zrange. rewrite !map_map. replace (n_leaf + z - (n_leaf + 0)) with (z - 0) by lia. apply map_ext. intros. f_equal. lia. }
      rewrite Ev1. cbn [bind].
      destruct (prefix_sums_spec n (d_ptr s') size) as (p & Ep & Zp' & Lp); auto; try lia.
      rewrite Ep. cbn [bind].
      assert (Zle : zlen (leaf_entries n_leaf) = n_leaf) by (unfold leaf_entries; rewrite zlen_map, zlen_zrange; lia).
      assert (Lin : forall i j w, In (i, j, w) (leaf_entries n_leaf) -> exists k, 0 <= k < n_leaf /\ i = lf k /\ j = lf k /\ w = k + 1).
      { intros i j w Hin. apply in_map_iff in Hin as (k & E & Hin). apply In_zrange in Hin. injection E as <- <- <-. eauto. }
      destruct (pair_index_spec n_node (n_leaf + 2 * zlen pairs) (d_ps s') ord) as (rp & ci & va & Epi & Hlk); auto.
      { rewrite Ps, zlen_app, pair_entries_len, Zle by lia. lia. }
      { intros i j w Hin. rewrite Ps in Hin. apply in_app_or in Hin as [Hin|Hin].
        - apply Lin in Hin as (k & Hk' & -> & _). apply Hlf; auto.
        - apply pair_entries_In in Hin as (k & Hk' & [(E & _)|(E & _)]); [| |lia]; apply Hpr in E; lia. }
      { rewrite Ps, map_app. apply NoDup_app_intro.
        - unfold leaf_entries. rewrite map_map. apply NoDup_map_inj; [|apply NoDup_zrange]. intros i j Hi Hj E. apply In_zrange in Hi, Hj. injection E as E _. auto.
        - now apply pair_entries_NoDup.
        - intros [i j] H1 H2. apply in_map_iff in H1 as ([[i1 j1] w1] & E1 & H1). apply Lin in H1 as (k & Hk' & -> & -> & ->).
          apply in_map_iff in H2 as ([[i2 j2] w2] & E2 & H2). injection E1 as <- <-. injection E2 as -> ->.
          apply pair_entries_In in H2 as (k2 & Hk2 & H2); [|lia]. destruct Hs as [_ Hs]. destruct H2 as [[H2 _]|[H2 _]]; apply getz_In in H2; apply Hs in H2; tauto. }
      rewrite Epi. cbn [bind]. eexists _, _, _. split; [reflexivity|]. split; [|split].
      * constructor; cbn [bm_nrow bm_ncol bm_ptr bm_total bm_rowptr bm_colidx bm_val]; auto.
        { intros k Hk'. now apply A'. } { intros k Hk'. now apply A'. }
        { symmetry. apply zsumf_split. lia. } { now rewrite <- Ps. }
      * auto.
      * auto.
Qed.
Lemma gen_D_metadata_spec ord blk0 bl0 blk1 bl1 : 1 <= n_node -> 1 <= n_thread -> 1 <= n_leaf -> simple_pairs pairs ->
  (forall i j, 0 <= i < n_leaf -> 0 <= j < n_leaf -> lf i = lf j -> i = j) ->
  Permutation ord (zrange 0 n_node) -> iv_holds blk0 bl0 -> iv_holds blk1 bl1 ->
  exists m v0 v1, gen_D_metadata kdim n_node n_leaf n_thread 1 false leaves cluster pairs ord blk0 blk1 = Some (m, v0, v1) /\
    meta_ok n_node n nrow ncol (leaf_entries n_leaf ++ pair_entries n_leaf pairs (zlen pairs)) m /\
    work_ok v0 n_leaf n_thread size /\ work_ok v1 (zlen pairs) n_thread (fun k => size (n_leaf + k)).
Proof.
  intros Hnode Ht Hl Hs Hinj Ho Hb0 Hb1. destruct (gen_D_metadata_spec_nt 1 ord blk0 bl0 blk1 bl1 ltac:(lia) Hnode Ht Hl Hs Hinj Ho Hb0 Hb1) as (m & v0 & v1 & E & M & W0 & W1).
  rewrite Z.mul_1_r in W0, W1. exists m, v0, v1. auto 10.
Qed.
End Dmeta.
