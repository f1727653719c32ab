(** The FSAI factor for given neighbour lists, and for the exact search. *)
From Coq Require Import ZArith QArith List Lia Bool Permutation.
From Verif Require Import Base Mem Num CRing Spec_Utils Proof_Utils Proof_Build Spec_Lapack Model_FSAI Spec_FSAI Proof_FSAIKnn Proof_FSAICsr Proof_FSAIApply Proof_FSAIRow.
Import ListNotations.
Open Scope Z_scope.

Section Top.
Context {F : num} {K : cring}.
Add Ring Kring : (cth K).
Local Open Scope ring_K.
Variable kern : list F -> list F -> Z -> Z -> K.
Variable la : lapack K.
Variable rsq : K -> option K.
Hypothesis LA : lapack_ok la.
Hypothesis Hrsq : forall t s, rsq t = Some s -> s * s * t = c1.
Variables (m n dim : Z) (coord : mem F) (co ldc : Z) (X : Z -> Z -> F) (n1 : Z) (P : mem K) (Pf : Z -> Z -> K) (mu : K).
Hypothesis Hn : 1 <= n.
Hypothesis Hdim : 0 <= dim.
Hypothesis HX : coords_at coord co ldc n dim X.
Hypothesis Hn1 : 0 <= n1.
Hypothesis HP : forall r l, 0 <= r < n -> 0 <= l < n1 -> ld P (r * n1 + l) = Some (Pf r l).
Hypothesis Hsym : forall r c, 0 <= r < n -> 0 <= c < n -> kern (pt_of dim X r) (pt_of dim X c) 0%Z 0%Z = kern (pt_of dim X c) (pt_of dim X r) 0%Z 0%Z.
Let S := schur kern dim X n1 Pf mu.

(** The local systems are factorised without failure. *)
Definition local_ok (nb : Z -> list Z) : Prop := forall i, 0 <= i < n ->
  (forall A, (forall a b, 0 <= a < zlen (nb i) -> 0 <= b < zlen (nb i) -> A a b = S (nthz (nb i) a) (nthz (nb i) b)) -> fst (l_potrf la (zlen (nb i)) A) = 0%Z) /\
  (forall y, (forall a, 0 <= a < zlen (nb i) -> rsum 0 (zlen (nb i)) (fun b => S (nthz (nb i) a) (nthz (nb i) b) * y b) = delta a (zlen (nb i) - 1)) -> exists s, rsq (y (zlen (nb i) - 1)%Z) = Some s).

Lemma sp_row_sum cnt (nn : Z -> Z -> Z) (v : Z -> Z -> K) (f : Z -> K) i : (forall a, 0 <= a < cnt i -> 0 <= nn i a < n) ->
  rsum 0 n (fun j => f j * sp_entry cnt nn v i j) = rsum 0 (cnt i) (fun a => f (nn i a) * v i a).
Proof.
  intros H. unfold sp_entry. rewrite (rsum_ext 0 n _ (fun j => rsum 0 (cnt i) (fun a => if (j =? nn i a)%Z then f j * v i a else c0))).
  - rewrite (rsum_swap 0 n 0 (cnt i)). apply rsum_ext. intros a Ha. rewrite (rsum_delta 0 n (nn i a) (fun j => f j * v i a)).
    specialize (H a Ha). rewrite (proj2 (Z.leb_le _ _)), (proj2 (Z.ltb_lt _ _)) by lia. auto.
  - intros j Hj. rewrite <- rsum_mul_l. apply rsum_ext. intros a Ha. rewrite (Z.eqb_sym j). destruct (nn i a =? j)%Z; ring.
Qed.

Theorem FSAI_factor_spec nn_idx displs (nb : Z -> list Z) o : zlen displs = (n + 1)%Z -> ld displs 0 = Some 0%Z ->
  (forall i, 0 <= i < n -> row_is m nn_idx displs i (nb i) /\ nbr_list m i (nb i)) -> local_ok nb ->
  any_order n (fo_row o) -> any_order n (fo_cpy o) -> any_order n (fo_G o) -> any_order n (fo_GT o) ->
  exists g G, FSAI_factor kern la rsq m n dim coord co ldc n1 P mu nn_idx displs o = Some g /\
    csr_op n (G_rowptr g) (G_colidx g) (G_val g) G /\ csr_op n (GT_rowptr g) (GT_colidx g) (GT_val g) (fun i j => G j i) /\ fsai_rows n S nb G.
Proof.
  intros Zd Hd0 Hnb Hloc O1 O2 O3 O4. unfold FSAI_factor.
  set (cnt := fun i => zlen (nb i)). set (nn := fun i a => nthz (nb i) a).
  assert (Hm : 1 <= m) by (destruct (Hnb 0%Z ltac:(lia)) as (_ & B & _); lia).
  assert (Hc : forall i, 0 <= i < n -> 1 <= cnt i <= m) by (intros i Hi; destruct (Hnb i Hi) as (_ & B & _); exact B).
  assert (Hin : forall i a, 0 <= i < n -> 0 <= a < cnt i -> In (nn i a) (nb i)).
  { intros i a Hi Ha. unfold nn. eapply getz_In. apply getz_nthz. exact Ha. }
  assert (Hr : forall i a, 0 <= i < n -> 0 <= a < cnt i -> 0 <= nn i a < n).
  { intros i a Hi Ha. destruct (Hnb i Hi) as (_ & _ & _ & B & _). specialize (B _ (Hin i a Hi Ha)). lia. }
  assert (Inj : forall i a b, 0 <= i < n -> 0 <= a < cnt i -> 0 <= b < cnt i -> nn i a = nn i b -> a = b).
  { intros i a b Hi Ha Hb E. destruct (Hnb i Hi) as (_ & _ & Nd & _). eapply NoDup_getz; [exact Nd| |]; unfold nn in E.
    - apply getz_nthz. exact Ha.
    - rewrite E. apply getz_nthz. exact Hb. }
  assert (Hlast : forall i, 0 <= i < n -> nn i (cnt i - 1)%Z = i).
  { intros i Hi. destruct (Hnb i Hi) as (_ & _ & _ & _ & L). unfold nn, nthz, cnt. now rewrite L. }
  destruct (in_order_inv (fun done (s : mem Z * mem Z * mem K) => let '(row, col, val) := s in zlen row = (n * m)%Z /\ zlen col = (n * m)%Z /\ zlen val = (n * m)%Z /\
     exists v sc, forall k, In k done -> 0 <= k < n ->
       (forall a, 0 <= a < cnt k -> ld row (k * m + a) = Some k /\ ld col (k * m + a) = Some (nn k a) /\ ld val (k * m + a) = Some (v k a)) /\
       (forall a, 0 <= a < cnt k -> rsum 0 (cnt k) (fun b => S (nn k a) (nn k b) * v k b) = if (a =? cnt k - 1)%Z then sc k else c0) /\ v k (cnt k - 1)%Z * sc k = c1)
     (FSAI_row kern la rsq m dim coord co ldc n1 P mu nn_idx displs) (fo_row o) [] (alloc (n * m), alloc (n * m), alloc (n * m))) as (((row & col) & val) & done & E1 & (Z1 & Z2 & Z3 & v & sc & Hv) & Hdn).
  - eapply any_order_nodup; eauto.
  - intros i _ [].
  - rewrite !zlen_alloc by nia. do 3 (split; [auto|]). exists (fun _ _ => c0), (fun _ => c0). intros k [].
  - intros done i ((row & col) & val) Hi Hnd (Z1 & Z2 & Z3 & v & sc & Hv). apply (any_order_in n) in Hi; auto.
    destruct (Hnb i Hi) as ((R1 & R2) & _). destruct (Hloc i Hi) as (G1 & G2).
    destruct (FSAI_row_spec kern la rsq LA Hrsq m n dim coord co ldc X n1 P Pf mu Hdim HX Hn1 HP Hsym nn_idx displs i (cnt i) (nn i)) with (row := row) (col := col) (val := val)
      as (row' & col' & val' & vi & si & E & Zr' & Zc' & Zv' & Lr & Lc & Lv & Q1 & Q2); auto.
    { rewrite Z.add_comm. exact R1. }
    { intros a Ha. rewrite R2 by auto. apply getz_nthz. exact Ha. }
    { intros a b Ha Hb. apply Inj; auto. }
    exists (row', col', val'). split; [exact E|]. rewrite Zr', Zc', Zv'. do 3 (split; [auto|]).
    exists (fun k => if (k =? i)%Z then vi else v k), (fun k => if (k =? i)%Z then si else sc k). intros k Hk Hkn. destruct Hk as [<-|Hk].
    + rewrite Z.eqb_refl. split; [|split; auto]. intros a Ha. rewrite Lr, Lc, Lv. rewrite (proj2 (Z.leb_le _ _)), (proj2 (Z.ltb_lt _ _)) by lia. cbn [andb].
      replace (i * m + a - i * m)%Z with a by lia. auto.
    + destruct (Z.eqb_spec k i) as [->|Ne]; [contradiction|]. destruct (Hv k Hk Hkn) as (W1 & W2). split; auto. intros a Ha. rewrite Lr, Lc, Lv.
      pose proof (Hc k Hkn). pose proof (Hc i Hi).
      destruct (Z.leb_spec (i * m) (k * m + a)), (Z.ltb_spec (k * m + a) (i * m + cnt i)); cbn [andb]; try (apply W1; auto). exfalso. apply Ne. nia.
  - rewrite E1. cbn [bind]. assert (Hdn' : forall i, 0 <= i < n -> In i done) by (intros i Hi; apply Hdn; left; eapply any_order_in; eauto).
    destruct (FSAI_csr_spec n m cnt nn v Hn Hc Hr row col val displs) with (ordc := fo_cpy o) (ordG := fo_G o) (ordGT := fo_GT o) as (g & E2 & C1 & C2); auto.
    all: try (intros i a Hi Ha; destruct (Hv i (Hdn' i Hi) Hi) as (W1 & _); destruct (W1 a Ha) as (? & ? & ?); auto; fail).
    { intros i Hi. destruct (Hnb i Hi) as ((R1 & _) & _). exact R1. }
    exists g, (sp_entry cnt nn v). split; auto. split; auto. split; auto. intros i Hi. destruct (Hv i (Hdn' i Hi) Hi) as (_ & W2 & W3).
    split; [|split].
    + intros j Hj. unfold sp_entry. apply rsum_zero. intros a Ha. destruct (Z.eqb_spec (nn i a) j) as [<-|]; auto. destruct Hj. apply Hin; auto.
    + intros r Hr' Hne. rewrite sp_row_sum by (intros; apply Hr; auto). destruct (In_getz _ _ Hr') as (a & Ea). pose proof (getz_range _ _ _ Ea) as Ra.
      assert (EE : r = nn i a) by (unfold nn, nthz; now rewrite Ea). rewrite EE, W2 by auto. destruct (Z.eqb_spec a (cnt i - 1)) as [->|]; auto. destruct Hne. rewrite EE. apply Hlast; auto.
    + rewrite (rsum_ext 0 n _ (fun r => rsum 0 n (fun j => S r j * sp_entry cnt nn v i j) * sp_entry cnt nn v i r)) by (intros; ring).
      rewrite (sp_row_sum cnt nn v (fun r => rsum 0 n (fun j => S r j * sp_entry cnt nn v i j))) by (intros; apply Hr; auto).
      rewrite (rsum_only 0 (cnt i) _ (cnt i - 1)%Z).
      * rewrite sp_row_sum by (intros; apply Hr; auto). rewrite W2, Z.eqb_refl by (specialize (Hc i Hi); lia). rewrite <- W3. ring.
      * specialize (Hc i Hi). lia.
      * intros a Ha Hne. rewrite sp_row_sum by (intros; apply Hr; auto). rewrite W2 by auto. destruct (Z.eqb_spec a (cnt i - 1)); [lia|]. ring.
Qed.
End Top.
