(** The periodic product: what its matrix approximates. *)
From Coq Require Import ZArith QArith List Lia Bool Permutation Reals Lra.
From Verif Require Import Base Mem Num CRing Conc Model_Utils Spec_Utils Proof_Utils Model_Dense Spec_Dense Proof_Dense Model_Partition Spec_Tree Model_CSR Spec_CSR Model_Pairs Spec_Pairs Model_Matvec Spec_Matvec
  Model_Build Spec_Build Proof_Build Proof_BuildFill Proof_Gemv Proof_MvTree Proof_MvFwd Proof_MvCor Model_Matmul Proof_Gemm FNum Spec_ID Proof_IDMath Proof_Approx Model_Periodic Spec_Periodic Proof_PerBlock Proof_PerRoot.
Import ListNotations.
Open Scope Z_scope.

Section Exact.
Context {F : num} {K : cring}.
Add Ring Kring : (cth K).
Local Open Scope ring_K.
Variables kern pkern : list F -> list F -> Z -> Z -> K.
Variable h : h2rep F K.
Hypothesis R : rep_ok h.
Variables (pt : Z -> list F) (js : Z -> list Z) (ta ti : list (Z * Z * Z)) (sh : Z -> Z -> F) (O : Z -> Z -> K) (nl l0 : Z).
Notation adm := (map fst ta).
Notation inadm := (map fst ti).
Notation sB := (fun k => sh (lattice_of ta k)).
Notation sD := (fun k => sh (lattice_of ti k)).
Hypothesis Hta : forall k n0 n1 l, getz ta k = Some (n0, n1, l) -> 0 <= n0 < h_nnode h /\ 0 <= n1 < h_nnode h /\ 0 <= l < nl.
Hypothesis Hti : forall k n0 n1 l, getz ti k = Some (n0, n1, l) -> 0 <= n0 < h_nnode h /\ 0 <= n1 < h_nnode h /\ 0 <= l < nl.
Hypothesis Cov : covered_per h nl l0 ta ti.
Hypothesis H0 : 0 <= l0 < nl /\ forall d, sh l0 d = nlit 0%Q.

Lemma kshift_ext s s' p q : (forall d, s d = s' d) -> kshift kern h pt s p q = kshift kern h pt s' p q.
Proof. intros He. unfold kshift. f_equal. unfold moved. apply map_ext. intros d. now rewrite He. Qed.

(** A sum over listed pairs, by lattice. *)
Lemma by_lattice (ts : list (Z * Z * Z)) (G : Z -> K) p q : (forall k n0 n1 l, getz ts k = Some (n0, n1, l) -> 0 <= n0 < h_nnode h /\ 0 <= n1 < h_nnode h /\ 0 <= l < nl) ->
  lsum (fun '(n0, n1, l) => if inside h n0 p && inside h n1 q then G l else c0) ts =
  rsum 0 nl (fun l => lsum (fun x => if (let '(n0, n1, k) := x in (k =? l) && owns (h_t h) n0 (p / h_kdim h) && owns (h_t h) n1 (q / h_kdim h)) then G l else c0) ts).
Proof.
  intros Ht. unfold rsum. rewrite (lsum_swap (fun (l : Z) (x : Z * Z * Z) => if (let (y, k) := x in let (n0, n1) := y in (k =? l) && owns (h_t h) n0 (p / h_kdim h) && owns (h_t h) n1 (q / h_kdim h)) then G l else c0) (zrange 0 nl) ts). apply lsum_ext. intros [[n0 n1] l] Hin. apply In_getz in Hin as (k & Hk). destruct (Ht _ _ _ _ Hk) as (A & B & C).
  change (lsum ?f (zrange 0 nl)) with (rsum 0 nl f). rewrite (rsum_only 0 nl _ l C).
  - rewrite Z.eqb_refl, !(inside_owns h R) by auto. reflexivity.
  - intros i Hi Hne. destruct (Z.eqb_spec l i); [lia|reflexivity].
Qed.

(** How much the expanded block of pair k differs from the kernel block. *)
Definition dev (k p q : Z) : K :=
  match getz ta k with
  | Some (n0, n1, l) => if inside h n0 p && inside h n1 q then per_adm kern h pt js adm sB k p q - kshift kern h pt (sh l) p q else c0
  | None => c0
  end.
(** ... and the root block from the rest of the periodic kernel. *)
Definition far_dev (p q : Z) : K := per_far h O p q - (pentry h pt pkern p q - rsum 0 nl (fun l => kshift kern h pt (sh l) p q)).

Lemma adm_get k n0 n1 l : getz ta k = Some (n0, n1, l) -> getz adm k = Some (n0, n1) /\ lattice_of ta k = l.
Proof. intros G. rewrite getz_map, G. unfold lattice_of. now rewrite G. Qed.
Lemma inadm_get k n0 n1 l : getz ti k = Some (n0, n1, l) -> getz inadm k = Some (n0, n1) /\ lattice_of ti k = l.
Proof. intros G. rewrite getz_map, G. unfold lattice_of. now rewrite G. Qed.

Lemma per_adm_split k p q n0 n1 l : getz ta k = Some (n0, n1, l) -> per_adm kern h pt js adm sB k p q = (if inside h n0 p && inside h n1 q then kshift kern h pt (sh l) p q else c0) + dev k p q.
Proof.
  intros G. unfold dev. rewrite G. destruct (inside h n0 p && inside h n1 q) eqn:E; [ring|]. unfold per_adm. destruct (adm_get _ _ _ _ G) as [-> ->].
  destruct (Hta _ _ _ _ G) as (A & B & _). transitivity (c0 (c := K)); [|ring]. apply rsum_zero. intros r Hr. apply rsum_zero. intros cc Hc. apply andb_false_iff in E as [E|E].
  - rewrite (side_support h R n0 n1 r p (side_size h n0 n1)); auto. ring.
  - rewrite (side_support h R n1 n0 cc q (side_size h n1 n0)); auto. ring.
Qed.

Theorem Hper_dev p q : 0 <= p < h_kms h -> 0 <= q < h_kms h ->
  Hper kern h pt js adm inadm sB sD O p q = pentry h pt pkern p q + rsum 0 (zlen ta) (fun k => dev k p q) + far_dev p q.
Proof.
  intros Hp Hq. unfold Hper. set (G := fun l => kshift kern h pt (sh l) p q).
  assert (HP : forall x, 0 <= x < h_kms h -> 0 <= x / h_kdim h < h_npoint h).
  { intros x Hx. destruct (ro_dims _ R) as (_ & D2 & _ & _ & Dk & _). split; [apply Z.div_pos; lia|apply Z.div_lt_upper_bound; lia]. }
  destruct (diag_total h R (G l0) p q Hp Hq) as [D1 D0].
  assert (EL : rsum 0 (h_nleaf h) (fun k => per_leaf kern h pt k p q) = rsum 0 (h_nleaf h) (fun k => if inside h (leaf h k) p && inside h (leaf h k) q then G l0 else c0)).
  { apply rsum_ext. intros k Hk. unfold per_leaf, G. destruct (_ && _); auto. apply kshift_ext. intros d. unfold no_shift. now rewrite (proj2 H0). }
  assert (EI : rsum 0 (zlen inadm) (fun k => per_inadm kern h pt inadm sD k p q) = lsum (fun '(n0, n1, l) => if inside h n0 p && inside h n1 q then G l else c0) ti).
  { rewrite zlen_map. apply rsum_list. intros k [[n0 n1] l] Hk. unfold per_inadm. destruct (inadm_get _ _ _ _ Hk) as [-> ->]. reflexivity. }
  assert (EA : rsum 0 (zlen adm) (fun k => per_adm kern h pt js adm sB k p q) = lsum (fun '(n0, n1, l) => if inside h n0 p && inside h n1 q then G l else c0) ta + rsum 0 (zlen ta) (fun k => dev k p q)).
  { rewrite zlen_map. rewrite (rsum_ext 0 (zlen ta) _ (fun k => match getz ta k with Some (n0, n1, l) => if inside h n0 p && inside h n1 q then G l else c0 | None => c0 end + dev k p q)).
    - rewrite rsum_add. f_equal. apply rsum_list. intros k [[n0 n1] l] ->. reflexivity.
    - intros k Hk. destruct (getz_in ta k Hk) as [[[n0 n1] l] Gk]. rewrite Gk. apply per_adm_split. auto. }
  rewrite EL, EI, EA, (by_lattice ti G p q Hti), (by_lattice ta G p q Hta). unfold far_dev. fold G.
  set (LA := fun l => lsum (fun x => if (let '(n0, n1, k) := x in (k =? l) && owns (h_t h) n0 (p / h_kdim h) && owns (h_t h) n1 (q / h_kdim h)) then G l else c0) ta).
  set (LI := fun l => lsum (fun x => if (let '(n0, n1, k) := x in (k =? l) && owns (h_t h) n0 (p / h_kdim h) && owns (h_t h) n1 (q / h_kdim h)) then G l else c0) ti).
  set (LD := rsum 0 (h_nleaf h) (fun k => if inside h (leaf h k) p && inside h (leaf h k) q then G l0 else c0)) in *.
  assert (Sum : LD + rsum 0 nl LI + rsum 0 nl LA = rsum 0 nl G).
  { rewrite (rsum_ext 0 nl G (fun l => LI l + LA l + (if l =? l0 then LD else c0))).
    - rewrite !rsum_add, rsum_delta. rewrite (proj2 (Z.leb_le 0 l0)), (proj2 (Z.ltb_lt l0 nl)) by lia. cbn [andb]. ring.
    - intros l Hl. specialize (Cov l _ _ Hl (HP p Hp) (HP q Hq)). unfold covers in Cov.
      match type of Cov with context [zcount ?f ta] => set (f1 := f) in * end.
      assert (Ea : (zcount f1 ta = 0 -> LA l = c0) /\ (zcount f1 ta = 1 -> LA l = G l)).
      { destruct (lsum_count f1 (G l) ta) as [X Y]. unfold LA. split; intros Hz; [etransitivity; [|exact (X Hz)]|etransitivity; [|exact (Y Hz)]]; apply lsum_ext; intros [[? ?] ?] _; reflexivity. }
      assert (Ei : (zcount f1 ti = 0 -> LI l = c0) /\ (zcount f1 ti = 1 -> LI l = G l)).
      { destruct (lsum_count f1 (G l) ti) as [X Y]. unfold LI. split; intros Hz; [etransitivity; [|exact (X Hz)]|etransitivity; [|exact (Y Hz)]]; apply lsum_ext; intros [[? ?] ?] _; reflexivity. }
      pose proof (zcount_nonneg f1 ta). pose proof (zcount_nonneg f1 ti). destruct Cov as [(-> & SL & C1 & C2)|(SL & C1)].
      + rewrite Z.eqb_refl, (proj1 Ea), (proj1 Ei), D1 by auto. ring.
      + destruct (Z.eqb_spec l l0) as [El|El].
        * rewrite D0 by tauto. assert (zcount f1 ta = 0 \/ zcount f1 ta = 1) as [X|X] by lia; [rewrite (proj1 Ea), (proj2 Ei) by lia|rewrite (proj2 Ea), (proj1 Ei) by lia]; ring.
        * assert (zcount f1 ta = 0 \/ zcount f1 ta = 1) as [X|X] by lia; [rewrite (proj1 Ea), (proj2 Ei) by lia|rewrite (proj2 Ea), (proj1 Ei) by lia]; ring. }
  rewrite <- Sum. ring.
Qed.

(** ** Blocks that are exact *)
Lemma dev_zero : pair_interpolates kern h pt js ta sh -> forall k p q, dev k p q = c0.
Proof.
  intros PI k p q. unfold dev. destruct (getz ta k) as [[[n0 n1] l]|] eqn:G; auto. destruct (inside h n0 p) eqn:E0; auto. destruct (inside h n1 q) eqn:E1; auto. cbn [andb].
  destruct (PI _ _ _ _ G) as [P1 P2]. unfold per_adm. destruct (adm_get _ _ _ _ G) as [-> ->].
  transitivity (kshift kern h pt (sh l) p q - kshift kern h pt (sh l) p q); [|ring]. f_equal. rewrite <- (P2 p q E0 E1). rewrite rsum_swap. apply rsum_ext. intros c' Hc.
  rewrite <- (P1 p c' E0 Hc). rewrite <- rsum_mul_r. reflexivity.
Qed.

Lemma far_zero : root_interpolates kern h pt js pkern nl sh -> (forall r c', 0 <= r < rank h (root h) -> 0 <= c' < rank h (root h) -> O r c' = rest kern h pt pkern nl sh (skel_row h js (root h) r) (skel_row h js (root h) c')) ->
  forall p q, 0 <= p < h_kms h -> 0 <= q < h_kms h -> far_dev p q = c0.
Proof.
  intros [P1 P2] HO p q Hp Hq. unfold far_dev. fold (rest kern h pt pkern nl sh p q). transitivity (rest kern h pt pkern nl sh p q - rest kern h pt pkern nl sh p q); [|ring]. f_equal. unfold per_far. rewrite <- (P2 p q Hp Hq). rewrite rsum_swap. apply rsum_ext.
  intros c' Hc. rewrite <- (P1 p c' Hp Hc). rewrite <- rsum_mul_r. apply rsum_ext. intros r Hr. rewrite HO by auto. ring.
Qed.

(** The root block, with exact arithmetic, is [rest] on the skeleton. *)
Lemma root_block_rest r c' : 1 <= h_kdim h -> undone sh nl (pt (nthz (js (root h)) (c' / h_kdim h))) ->
  root_block kern pkern (h_kdim h) nl (fun k => pt (nthz (js (root h)) k)) sh r c' = rest kern h pt pkern nl sh (skel_row h js (root h) r) (skel_row h js (root h) c').
Proof.
  intros Hk He. unfold root_block, rest, pentry, kshift, skel_row.
  assert (D : forall x y, ((h_kdim h * y + x mod h_kdim h) / h_kdim h = y /\ (h_kdim h * y + x mod h_kdim h) mod h_kdim h = x mod h_kdim h)%Z).
  { intros x y. pose proof (Z.mod_pos_bound x (h_kdim h) ltac:(lia)). rewrite (Z.mul_comm _ y), Z.add_comm, Z.div_add, Z.mod_add, Z.div_small, Z.mod_mod by lia. split; lia. }
  destruct (D r (nthz (js (root h)) (r / h_kdim h))) as [-> ->]. destruct (D c' (nthz (js (root h)) (c' / h_kdim h))) as [-> ->]. f_equal. apply rsum_ext. intros l Hl. rewrite (drift_exact sh nl) by (auto; lia). reflexivity.
Qed.
End Exact.

(** Over the reals: blocks known up to an error. *)
Section Error.
Context {F : num}.
Variables kern pkern : list F -> list F -> Z -> Z -> R.
Variable h : h2rep F Rring.
Hypothesis R_ok : rep_ok h.
Variables (pt : Z -> list F) (js : Z -> list Z) (ta ti : list (Z * Z * Z)) (sh : Z -> Z -> F) (O : Z -> Z -> R) (nl l0 : Z).
Notation adm := (map fst ta).
Notation inadm := (map fst ti).
Notation sB := (fun k => sh (lattice_of ta k)).
Notation sD := (fun k => sh (lattice_of ti k)).
Hypothesis Hta : forall k n0 n1 l, getz ta k = Some (n0, n1, l) -> 0 <= n0 < h_nnode h /\ 0 <= n1 < h_nnode h /\ 0 <= l < nl.
Hypothesis Hti : forall k n0 n1 l, getz ti k = Some (n0, n1, l) -> 0 <= n0 < h_nnode h /\ 0 <= n1 < h_nnode h /\ 0 <= l < nl.
Hypothesis Cov : covered_per h nl l0 ta ti.
Hypothesis H0 : 0 <= l0 < nl /\ forall d, sh l0 d = nlit 0%Q.

Theorem Hper_error p q e ef : 0 <= p < h_kms h -> 0 <= q < h_kms h -> (0 <= e)%R ->
  (forall k n0 n1 l, getz ta k = Some (n0, n1, l) -> inside h n0 p = true -> inside h n1 q = true ->
     (Rabs (@per_adm F Rring kern h pt js adm sB k p q - @kshift F Rring kern h pt (sh l) p q) <= e)%R) ->
  (Rabs (@per_far F Rring h O p q - @rest F Rring kern h pt pkern nl sh p q) <= ef)%R ->
  (Rabs (@Hper F Rring kern h pt js adm inadm sB sD O p q - @pentry F Rring h pt pkern p q) <= IZR nl * e + ef)%R.
Proof.
  intros Hp Hq He Hk Hf. rewrite (@Hper_dev F Rring kern pkern h R_ok pt js ta ti sh O nl l0 Hta Hti Cov H0 p q Hp Hq). cbn [cadd Rring].
  set (D := rsum (K := Rring) 0 (zlen ta) (fun k => @dev F Rring kern h pt js ta sh k p q)).
  assert (HD : (Rabs D <= IZR nl * e)%R).
  { unfold D. eapply Rle_trans; [apply sumR_abs|].
    assert (E1 : (sumR 0 (zlen ta) (fun k => Rabs (@dev F Rring kern h pt js ta sh k p q)) <= lsum (K := Rring) (fun '(n0, n1, l) => if inside h n0 p && inside h n1 q then e else 0%R) ta)%R).
    { rewrite <- (rsum_list (K := Rring) ta (fun k => match getz ta k with Some (n0, n1, l) => if inside h n0 p && inside h n1 q then e else 0%R | None => 0%R end)).
      - apply sumR_le. intros k Hkk. unfold dev. destruct (getz_in ta k Hkk) as [[[n0 n1] l] G]. rewrite G.
        destruct (inside h n0 p) eqn:E0; cbn [andb]; [|cbn [c0 Rring]; rewrite Rabs_R0; lra]. destruct (inside h n1 q) eqn:E1; [|cbn [c0 Rring]; rewrite Rabs_R0; lra]. apply (Hk k n0 n1 l G E0 E1).
      - intros k [[n0 n1] l] ->. reflexivity. }
    eapply Rle_trans; [exact E1|]. pose proof (@by_lattice F Rring h R_ok nl ta (fun _ => e) p q Hta) as BL. cbn [c0 Rring] in BL. rewrite BL. clear BL.
    replace (IZR nl * e)%R with (sumR 0 nl (fun _ => e)).
    2:{ destruct H0 as [[A B] _]. assert (Hn : 0 <= nl) by lia. clear - Hn. replace nl with (Z.of_nat (Z.to_nat nl)) by lia. induction (Z.to_nat nl) as [|n IH]; [rewrite sumR_empty by lia; change (0 = 0 * e)%R; ring|].
        rewrite Nat2Z.inj_succ. unfold Z.succ. rewrite sumR_snoc, IH, plus_IZR by lia. match goal with |- ?a = ?b => change (@eq R a b) end. ring. }
    apply sumR_le. intros l Hl.
    assert (HP : forall x, 0 <= x < h_kms h -> 0 <= x / h_kdim h < h_npoint h).
    { intros x Hx. destruct (ro_dims _ R_ok) as (_ & D2 & _ & _ & Dk & _). split; [apply Z.div_pos; lia|apply Z.div_lt_upper_bound; lia]. }
    specialize (Cov l _ _ Hl (HP p Hp) (HP q Hq)). unfold covers in Cov.
    match type of Cov with context [zcount ?f ta] => set (f1 := f) in * end.
    pose proof (zcount_nonneg f1 ta). pose proof (zcount_nonneg f1 ti).
    destruct (lsum_count (K := Rring) f1 e ta) as [X Y]. cbn [c0 Rring] in X, Y.
    assert (zcount f1 ta = 0 \/ zcount f1 ta = 1) as [Z1|Z1] by (destruct Cov as [(_ & _ & ? & _)|(_ & ?)]; lia).
    - specialize (X Z1). eapply Rle_trans; [apply Req_le|exact He]. etransitivity; [|exact X]. match goal with |- ?a = ?b => change (@eq (ccar Rring) a b) end; apply lsum_ext. intros [[? ?] ?] _. reflexivity.
    - specialize (Y Z1). apply Req_le. etransitivity; [|exact Y]. match goal with |- ?a = ?b => change (@eq (ccar Rring) a b) end; apply lsum_ext. intros [[? ?] ?] _. reflexivity. }
  match goal with |- (Rabs (?a + ?b + ?c - ?d) <= _)%R => replace (a + b + c - d)%R with (b + c)%R by ring end.
  eapply Rle_trans; [apply Rabs_triang|]. apply Rplus_le_compat; [exact HD|exact Hf].
Qed.
End Error.
