(** Property C12. *)
From Coq Require Import ZArith List Lia Bool Permutation.
From Verif Require Import Base Mem Model_CSR Spec_CSR Proof_CSR.
Import ListNotations.
Open Scope Z_scope.

(** C12: the conversion succeeds in the allocated arrays, whatever the order in
    which the rows are sorted at the end, and row r of the result is exactly the
    entries of row r of the input, sorted by column. *)
Theorem C12_coo_to_csr : forall nrow nnz row col val, 1 <= nrow -> 1 <= nnz ->
  coo_ok nrow nnz row col val -> forall rp0 ci0 va0 ord,
  zlen rp0 = nrow + 1 -> nnz <= zlen ci0 -> nnz <= zlen va0 -> Permutation ord (zrange 0 nrow) ->
  exists rp ci va, coo_to_csr nrow nnz row col val rp0 ci0 va0 ord = Some (rp, ci, va) /\
    is_csr nrow nnz row col val rp ci va.
Proof. intros nrow nnz row col val H1 H2 (L1 & L2 & L3 & R). apply coo_to_csr_spec; auto. Qed.
Print Assumptions C12_coo_to_csr.

(** C12: looking up a stored coordinate gives its value; any other coordinate
    gives 0. *)
Theorem C12_get : forall nrow nnz row col val rp ci va,
  coo_ok nrow nnz row col val -> coords_distinct nnz row col -> is_csr nrow nnz row col val rp ci va ->
  (forall k, 0 <= k < nnz -> csr_get rp ci va (nthz row k) (nthz col k) = Some (nthz val k)) /\
  (forall r c, 0 <= r < nrow -> (forall k, 0 <= k < nnz -> ~ (nthz row k = r /\ nthz col k = c)) ->
     csr_get rp ci va r c = Some 0).
Proof.
  intros nrow nnz row col val rp ci va (L1 & L2 & L3 & R) Hd Hc. split.
  - intros k Hk. destruct (csr_get_spec nrow nnz row col val rp ci va L2 L3 Hc (nthz row k) (nthz col k) (R k Hk)) as (v & -> & [(k' & K1 & K2 & K3 & ->)|[Hn _]]).
    + now rewrite (Hd k' k K1 Hk K2 K3).
    + exfalso. apply (Hn k Hk (R k Hk)); auto.
  - intros r c Hr Hn. destruct (csr_get_spec nrow nnz row col val rp ci va L2 L3 Hc r c Hr) as (v & -> & [(k' & K1 & K2 & K3 & ->)|[_ ->]]); auto.
    exfalso. apply (Hn k' K1); auto.
Qed.
Print Assumptions C12_get.

(** C12: setting a stored coordinate replaces exactly that entry. *)
Theorem C12_set : forall nrow nnz row col val rp ci va k0 new,
  coo_ok nrow nnz row col val -> coords_distinct nnz row col -> is_csr nrow nnz row col val rp ci va ->
  nnz <= zlen va -> 0 <= k0 < nnz ->
  exists va', csr_set rp ci va (nthz row k0) (nthz col k0) new = Some va' /\
    csr_get rp ci va' (nthz row k0) (nthz col k0) = Some new /\
    (forall k, 0 <= k < nnz -> k <> k0 -> csr_get rp ci va' (nthz row k) (nthz col k) = Some (nthz val k)).
Proof.
  intros nrow nnz row col val rp ci va k0 new Hok Hd Hc Hz Hk. pose proof Hok as (L1 & L2 & L3 & R).
  destruct (csr_set_spec nrow nnz row col val rp ci va L2 L3 Hc k0 new Hd Hk (R k0 Hk) R Hz) as (va' & E & Hc').
  exists va'. split; auto.
  assert (Hok' : coo_ok nrow nnz row col (upd val (Z.to_nat k0) new)) by (split; auto; split; auto; split; auto; rewrite zlen_upd; auto).
  destruct (C12_get _ _ _ _ _ _ _ _ Hok' Hd Hc') as [G _]. split.
  - rewrite (G k0 Hk). f_equal. apply nthz_eq. rewrite getz_upd by lia. now rewrite Z.eqb_refl.
  - intros k H1 H2. rewrite (G k H1). f_equal. unfold nthz. rewrite getz_upd by lia. destruct (Z.eqb_spec k0 k); congruence.
Qed.
Print Assumptions C12_set.

(** C12, the empty matrix: sorting an empty row reads a key, so with no entries
    at all the conversion reads outside the (empty) arrays. *)
Theorem C12_empty_matrix_refuted : exists nrow rp0, 1 <= nrow /\ coo_ok nrow 0 [] [] [] /\ zlen rp0 = nrow + 1 /\
  coo_to_csr (A := Z) nrow 0 [] [] [] rp0 [] [] [0] = None.
Proof.
  exists 1, [None; None]. split; [lia|]. split; [|split; reflexivity].
  repeat split; intros; lia.
Qed.
Print Assumptions C12_empty_matrix_refuted.

Example ex_coo : coo_ok 3 4 [2; 0; 2; 0] [5; 3; 1; 0] [10; 20; 30; 40] /\ coords_distinct 4 [2; 0; 2; 0] [5; 3; 1; 0] /\
  coo_to_csr 3 4 [2; 0; 2; 0] [5; 3; 1; 0] [10; 20; 30; 40] (alloc 4) (alloc 4) (alloc 4) [1; 2; 0]
  = Some (full [0; 2; 2; 4], full [0; 3; 1; 5], full [40; 20; 30; 10]).
Proof.
  split; [|split; [|reflexivity]].
  - repeat split; try reflexivity;
    assert (k = 0 \/ k = 1 \/ k = 2 \/ k = 3) as [->|[->|[->| ->]]] by lia; cbv; congruence.
  - intros k k' Hk Hk'. assert (k = 0 \/ k = 1 \/ k = 2 \/ k = 3) as [->|[->|[->| ->]]] by lia;
    assert (k' = 0 \/ k' = 1 \/ k' = 2 \/ k' = 3) as [->|[->|[->| ->]]] by lia; cbv; congruence.
Qed.
