(** The periodic product against the periodic kernel matrix. *)
From Coq Require Import ZArith QArith List Lia Bool Permutation Reals Lra.
From Verif Require Import Base Mem Num CRing Conc Model_Utils Spec_Utils Proof_Utils Model_Dense Spec_Dense Proof_Dense Model_CSR Spec_CSR Model_Partition Spec_Tree Spec_Partition
  Model_Pairs Spec_Pairs Model_Matvec Spec_Matvec Model_Build Spec_Build Spec_Matmul Model_Matmul FNum Spec_ID Proof_IDMath Proof_Approx Model_Periodic Spec_Periodic Proof_PerBlock Proof_PerRoot Proof_PerExact Proof_PerUse.
Import ListNotations.
Open Scope Z_scope.

Section Exact.
Context {F : num} {K : cring}.
Add Ring Kring : (cth K).
Local Open Scope ring_K.
Variables kern pkern : list F -> list F -> Z -> Z -> K.
Variable h : h2rep F K.
Variables (pt : Z -> list F) (js : Z -> list Z) (ta ti : list (Z * Z * Z)) (sh : Z -> Z -> F) (O : Z -> Z -> K) (nl l0 : Z).
Hypothesis R : per_rep_ok h (map fst ta).
Hypothesis Hta : forall k n0 n1 l, getz ta k = Some (n0, n1, l) -> 0 <= n0 < h_nnode h /\ 0 <= n1 < h_nnode h /\ 0 <= l < nl.
Hypothesis Hti : forall k n0 n1 l, getz ti k = Some (n0, n1, l) -> 0 <= n0 < h_nnode h /\ 0 <= n1 < h_nnode h /\ 0 <= l < nl.
Hypothesis Cov : covered_per h nl l0 ta ti.
Hypothesis H0 : 0 <= l0 < nl /\ forall d, sh l0 d = nlit 0%Q.
Notation g := (strip h).

Theorem Hper_exact p q : pair_interpolates kern h pt js ta sh -> root_interpolates kern h pt js pkern nl sh ->
  (forall r c', 0 <= r < rank h (root h) -> 0 <= c' < rank h (root h) -> O r c' = rest kern h pt pkern nl sh (skel_row h js (root h) r) (skel_row h js (root h) c')) ->
  0 <= p < h_kms h -> 0 <= q < h_kms h ->
  Hper kern h pt js (map fst ta) (map fst ti) (fun k => sh (lattice_of ta k)) (fun k => sh (lattice_of ti k)) O p q = pentry h pt pkern p q.
Proof.
  intros PIn RIn HO Hp Hq. rewrite <- Hper_strip.
  assert (R' : rep_ok g) by exact (strip_ok h _ R).
  rewrite (Hper_dev kern pkern g R' pt js ta ti sh O nl l0 Hta Hti Cov H0 p q Hp Hq).
  rewrite (rsum_zero 0 (zlen ta)).
  2:{ intros k _. apply (dev_zero kern g pt js ta sh nl l0 H0). intros k' n0 n1 l G. destruct (PIn _ _ _ _ G) as [P1 P2]. split.
      - intros p' c' I C. etransitivity; [|exact (P1 p' c' I C)]. change (side_size g) with (side_size h). apply rsum_ext. intros r Hr. rewrite side_strip. reflexivity.
      - intros p' q' I1 I2. etransitivity; [|exact (P2 p' q' I1 I2)]. change (side_size g) with (side_size h). apply rsum_ext. intros c' Hc. rewrite side_strip. reflexivity. }
  rewrite (far_zero kern pkern g pt js sh O nl); auto; [change (pentry g) with (pentry h); ring|].
  destruct RIn as [P1 P2]. split.
  - intros p' c' I C. etransitivity; [|exact (P1 p' c' I C)]. change (rank g) with (rank h). apply rsum_ext. intros r Hr. rewrite basis_strip. reflexivity.
  - intros p' q' I1 I2. etransitivity; [|exact (P2 p' q' I1 I2)]. change (rank g) with (rank h). apply rsum_ext. intros c' Hc. rewrite basis_strip. reflexivity.
Qed.
End Exact.

Section Error.
Context {F : num}.
Variables kern pkern : list F -> list F -> Z -> Z -> R.
Variable h : h2rep F Rring.
Variables (pt : Z -> list F) (js : Z -> list Z) (ta ti : list (Z * Z * Z)) (sh : Z -> Z -> F) (O : Z -> Z -> R) (nl l0 : Z).
Hypothesis R_ok : per_rep_ok h (map fst ta).
Hypothesis Hta : forall k n0 n1 l, getz ta k = Some (n0, n1, l) -> 0 <= n0 < h_nnode h /\ 0 <= n1 < h_nnode h /\ 0 <= l < nl.
Hypothesis Hti : forall k n0 n1 l, getz ti k = Some (n0, n1, l) -> 0 <= n0 < h_nnode h /\ 0 <= n1 < h_nnode h /\ 0 <= l < nl.
Hypothesis Cov : covered_per h nl l0 ta ti.
Hypothesis H0 : 0 <= l0 < nl /\ forall d, sh l0 d = nlit 0%Q.
Notation g := (strip h).
Notation sB := (fun k => sh (lattice_of ta k)).
Notation sD := (fun k => sh (lattice_of ti k)).

Lemma per_adm_strip k p q : @per_adm F Rring kern g pt js (map fst ta) sB k p q = @per_adm F Rring kern h pt js (map fst ta) sB k p q.
Proof.
  unfold per_adm. destruct (getz (map fst ta) k) as [[n0 n1]|]; [|reflexivity]. change (side_size g) with (side_size h). apply rsum_ext. intros r _. apply rsum_ext. intros c' _. rewrite !side_strip. reflexivity.
Qed.
Lemma per_far_strip p q : @per_far F Rring g O p q = @per_far F Rring h O p q.
Proof. unfold per_far. change (root g) with (root h). change (rank g) with (rank h). apply rsum_ext. intros r _. apply rsum_ext. intros c' _. rewrite !basis_strip. reflexivity. Qed.

Theorem Hper_close p q e ef : 0 <= p < h_kms h -> 0 <= q < h_kms h -> (0 <= e)%R ->
  (forall k n0 n1 l, getz ta k = Some (n0, n1, l) -> inside h n0 p = true -> inside h n1 q = true ->
     (Rabs (@per_adm F Rring kern h pt js (map fst ta) sB k p q - @kshift F Rring kern h pt (sh l) p q) <= e)%R) ->
  (Rabs (@per_far F Rring h O p q - @rest F Rring kern h pt pkern nl sh p q) <= ef)%R ->
  (Rabs (@Hper F Rring kern h pt js (map fst ta) (map fst ti) sB sD O p q - @pentry F Rring h pt pkern p q) <= IZR nl * e + ef)%R.
Proof.
  intros Hp Hq He Hk Hf. rewrite <- (@Hper_strip F Rring). apply (Hper_error kern pkern g (strip_ok h _ R_ok) pt js ta ti sh O nl l0 Hta Hti Cov H0 p q e ef Hp Hq He).
  - intros k n0 n1 l G I1 I2. rewrite per_adm_strip. exact (Hk k n0 n1 l G I1 I2).
  - rewrite per_far_strip. exact Hf.
Qed.
End Error.
