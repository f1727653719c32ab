(** CSRP_partition_multithread: the blocks cut the nonzeros, and each block starts and
    ends in the right rows. *)
From Coq Require Import ZArith List Lia Bool.
From Verif Require Import Base Mem Proof_BJLeaf Model_CSRP Spec_CSRP.
Import ListNotations.
Open Scope Z_scope.

Lemma up_ind (i : Z) (P : Z -> Prop) : P i -> (forall j, i <= j -> P j -> P (j + 1)) -> forall j, i <= j -> P j.
Proof.
  intros H0 Hs j Hj. replace j with (i + (j - i)) by lia.
  apply (natlike_ind (fun k => P (i + k))); [now rewrite Z.add_0_r| |lia].
  intros k Hk IH. rewrite Z.add_succ_r. unfold Z.succ. apply Hs; auto. lia.
Qed.

Lemma csr_mono rp n p : csr_rows rp n p -> forall i j, 0 <= i <= j -> j <= n -> p i <= p j.
Proof.
  intros (Hn0 & Z1 & G & P0 & M) i j Hi Hj. destruct Hi as [Hi Hij]. revert Hj. revert j Hij.
  apply (up_ind i (fun j => j <= n -> p i <= p j)); [lia|].
  intros j Hij IH Hj. specialize (M j ltac:(lia)). lia.
Qed.

(** Where the blocks are cut. *)
Lemma displs_spec len nblk : 1 <= nblk <= len ->
  exists d D, block_displs len nblk = Some d /\ (forall i, 0 <= i <= nblk -> ld d i = Some (D i)) /\
    D 0 = 0 /\ D nblk = len /\ forall i, 0 <= i < nblk -> D i < D (i + 1).
Proof.
  intros [Hb Hl]. unfold block_displs. destruct (Z.eqb_spec nblk 0); [lia|].
  set (q := Z.quot len nblk). set (r := Z.rem len nblk).
  assert (Hq : len = nblk * q + r) by apply Z.quot_rem'.
  assert (Hr : 0 <= r < nblk) by (apply Z.rem_bound_pos; lia).
  clearbody q r. assert (Hq1 : 1 <= q) by nia.
  set (b1 := if 0 <? r then q + 1 else q).
  set (D := fun i => i * q + Z.min i r).
  destruct (st_Some (@alloc Z (nblk + 1)) 0 0) as [d0 E0]. { rewrite zlen_alloc; lia. }
  rewrite E0. cbn [bind].
  assert (Z0 : zlen d0 = nblk + 1) by (rewrite (st_zlen _ _ _ _ E0), zlen_alloc; lia).
  destruct (zfor_inv (fun k (d : mem Z) => zlen d = nblk + 1 /\ forall i, 0 <= i <= k -> ld d i = Some (D i)) 0 r
    (fun i d => v <- ld d i; st d (i + 1) (v + b1)) d0) as (d1 & E1 & Z1 & L1); try lia.
  { split; auto. intros i Hi. assert (i = 0) by lia. subst i. rewrite (ld_st _ _ _ _ 0 E0), Z.eqb_refl. f_equal. unfold D. lia. }
  { intros k d Hk (Zd & Ld). rewrite (Ld k) by lia. cbn [bind].
    destruct (st_Some d (k + 1) (D k + b1)) as [d' E']; [lia|]. exists d'. split; auto.
    split. { now rewrite (st_zlen _ _ _ _ E'). }
    intros i Hi. rewrite (ld_st _ _ _ _ i E'). destruct (Z.eqb_spec (k + 1) i).
    - subst i. f_equal. unfold D, b1. rewrite ?Z.mul_add_distr_r, ?Z.mul_1_l. destruct (Z.ltb_spec 0 r); lia.
    - apply Ld. lia. }
  rewrite E1. cbn [bind].
  destruct (zfor_inv (fun k (d : mem Z) => zlen d = nblk + 1 /\ forall i, 0 <= i <= k -> ld d i = Some (D i)) r nblk
    (fun i d => v <- ld d i; st d (i + 1) (v + q)) d1) as (d2 & E2 & Z2 & L2); try lia; auto.
  { intros k d Hk (Zd & Ld). rewrite (Ld k) by lia. cbn [bind].
    destruct (st_Some d (k + 1) (D k + q)) as [d' E']; [lia|]. exists d'. split; auto.
    split. { now rewrite (st_zlen _ _ _ _ E'). }
    intros i Hi. rewrite (ld_st _ _ _ _ i E'). destruct (Z.eqb_spec (k + 1) i).
    - subst i. f_equal. unfold D. rewrite ?Z.mul_add_distr_r, ?Z.mul_1_l. lia.
    - apply Ld. lia. }
  exists d2, D. split; [exact E2|]. split; [exact L2|]. split; [unfold D; lia|]. split; [unfold D; lia|].
  intros i Hi. unfold D. rewrite ?Z.mul_add_distr_r, ?Z.mul_1_l. lia.
Qed.

Section Rows.
Variables (rp : list Z) (n : Z) (p : Z -> Z).
Hypothesis (HP : csr_rows rp n p).
Let G : forall i, 0 <= i <= n -> getz rp i = Some (p i). Proof. apply HP. Qed.
Let P0 : p 0 = 0. Proof. apply HP. Qed.
Let M : forall i j, 0 <= i <= j -> j <= n -> p i <= p j. Proof. exact (csr_mono rp n p HP). Qed.

Lemma lower_bound_spec x : forall fuel l h, 0 <= l <= h -> h <= n + 1 -> h - l <= Z.of_nat fuel ->
  (forall k, 0 <= k < l -> p k < x) -> (forall k, h <= k <= n -> x <= p k) ->
  exists r, lower_bound fuel rp x l h = Some r /\ 0 <= r <= n + 1 /\ (forall k, 0 <= k < r -> p k < x) /\ (forall k, r <= k <= n -> x <= p k).
Proof.
  induction fuel as [|fuel IH]; intros l h Hl Hh Hf A B; cbn [lower_bound]; (destruct (Z.ltb_spec l h); [|exists l; split; auto; split; [lia|]; split; auto; intros; apply B; lia]).
  - lia.
  - assert (Hm : 0 <= Z.quot (h - l) 2 < h - l) by (split; [apply Z.quot_pos; lia|apply Z.quot_lt; lia]).
    set (mid := l + Z.quot (h - l) 2) in *. rewrite (G mid) by lia. cbn [bind].
    destruct (Z.leb_spec x (p mid)).
    + apply IH; try lia; auto. intros k Hk. pose proof (M mid k). lia.
    + apply IH; try lia; auto. intros k Hk. pose proof (M k mid). lia.
Qed.

Lemma skip_spec x : x < p n -> forall fuel e, 0 <= e <= n -> n - e <= Z.of_nat fuel -> p e <= x -> (p e = x \/ x < p (e + 1)) ->
  exists r, skip_empty fuel rp e = Some r /\ 0 <= r < n /\ p r <= x /\ x < p (r + 1).
Proof.
  intros Hx. induction fuel as [|fuel IH]; intros e He Hf A B; cbn [skip_empty];
    (assert (e <> n) by (intros ->; lia)); [lia|].
  rewrite (G e), (G (e + 1)) by lia. cbn [bind]. destruct (Z.eqb_spec (p e) (p (e + 1))).
  - apply IH; try lia.
  - exists e. split; auto. pose proof (M e (e + 1)). lia.
Qed.

(** What the description of the block of the nonzeros from s to e says: f and l are
    the rows of the first and the last nonzero; the empty rows just before the
    first nonzero belong to the block when that nonzero starts its row. *)
Definition blk_ok (s e : Z) (b : csrp_blk) : Prop :=
  b_spos b = s /\ b_epos b = e /\
  0 <= b_first b <= b_last b /\ b_last b < n /\
  p (b_first b) <= s /\ (p (b_first b) = s \/ s < p (b_first b + 1)) /\ (forall k, 0 <= k < b_first b -> p k < s) /\
  p (b_last b) <= e < p (b_last b + 1) /\
  (if b_first b <? b_last b then b_fri b = (if s =? p (b_first b) then 1 else 0) /\ b_lri b = (if e =? p (b_last b + 1) - 1 then 1 else 0)
   else b_fri b = 0 /\ b_lri b = -1).

Lemma part_block_spec d i s e : ld d i = Some s -> ld d (i + 1) = Some (e + 1) -> 0 <= s <= e -> e < p n ->
  exists b, part_block n rp d i = Some b /\ blk_ok s e b.
Proof.
  intros Es Ee Hs He. unfold part_block. rewrite Es, Ee. cbn [bind]. replace (e + 1 - 1) with e by lia.
  assert (Hn : 0 <= n) by apply HP.
  destruct (lower_bound_spec s (Z.to_nat (n + 1)) 0 (n + 1)) as (f & E1 & F1 & F2 & F3); try lia.
  destruct (lower_bound_spec e (Z.to_nat (n + 1)) 0 (n + 1)) as (l & E2 & L1 & L2 & L3); try lia.
  rewrite E1. cbn [bind]. rewrite E2. cbn [bind].
  assert (f <= n). { destruct (Z.le_gt_cases f n); auto. specialize (F2 n). lia. }
  assert (l <= n). { destruct (Z.le_gt_cases l n); auto. specialize (L2 n). lia. }
  rewrite (G f), (G l) by lia. cbn [bind].
  set (f' := if s <? p f then f - 1 else f). set (l' := if e <? p l then l - 1 else l).
  assert (Hf' : 0 <= f' <= n /\ p f' <= s /\ (p f' = s \/ s < p (f' + 1)) /\ (forall k, 0 <= k < f' -> p k < s)).
  { unfold f'. specialize (F3 f). destruct (Z.ltb_spec s (p f)).
    - assert (f <> 0) by (intros ->; lia). replace (f - 1 + 1) with f by lia. specialize (F2 (f - 1)) as Q.
      split; [lia|]. split; [lia|]. split; [auto|]. intros k Hk. apply F2. lia.
    - repeat split; auto; lia. }
  assert (Hl' : 0 <= l' <= n /\ p l' <= e /\ (p l' = e \/ e < p (l' + 1))).
  { unfold l'. specialize (L3 l). destruct (Z.ltb_spec e (p l)).
    - assert (l <> 0) by (intros ->; lia). replace (l - 1 + 1) with l by lia. specialize (L2 (l - 1)). split; [lia|]. split; [lia|auto].
    - repeat split; auto; lia. }
  destruct (skip_spec e He (Z.to_nat n) l') as (r & E3 & R1 & R2 & R3); try tauto; try lia.
  rewrite E3. cbn [bind].
  assert (f' <= r). { destruct (Z.le_gt_cases f' r); auto. pose proof (M (r + 1) f'). lia. }
  assert (f' < n). { destruct Hf' as (? & ? & _). destruct (Z.eq_dec f' n) as [Q|]; [rewrite Q in *; lia|lia]. }
  destruct Hf' as (A1 & A2 & A3 & A4).
  destruct (Z.leb_spec 1 (r - f')).
  - rewrite (G f'), (G (r + 1)) by lia. cbn [bind]. eexists. split; [reflexivity|].
    unfold blk_ok. cbn [b_spos b_epos b_first b_last b_fri b_lri].
    destruct (Z.ltb_spec f' r); [|lia]. repeat split; auto; lia.
  - eexists. split; [reflexivity|]. unfold blk_ok. cbn [b_spos b_epos b_first b_last b_fri b_lri].
    destruct (Z.ltb_spec f' r); [lia|]. repeat split; auto; lia.
Qed.

(** The description of the last block is widened to the end of the matrix. *)
Definition widen (nblk i : Z) (b : csrp_blk) : csrp_blk :=
  if i =? nblk - 1 then mkBlk (b_spos b) (p n - 1) (b_first b) (n - 1) (b_fri b) (b_lri b) else b.

Lemma partition_spec nblk : 1 <= nblk <= p n ->
  exists bs D B, csrp_partition n (p n) rp nblk = Some bs /\ zlen bs = nblk /\
    D 0 = 0 /\ D nblk = p n /\ (forall i, 0 <= i < nblk -> D i < D (i + 1)) /\
    forall i, 0 <= i < nblk -> ld bs i = Some (widen nblk i (B i)) /\ blk_ok (D i) (D (i + 1) - 1) (B i).
Proof.
  intros Hb. destruct (displs_spec (p n) nblk Hb) as (d & D & E & Ld & D0 & D1 & Ds).
  unfold csrp_partition. rewrite E. cbn [bind].
  assert (Dm : forall i j, 0 <= i <= j -> j <= nblk -> D i <= D j).
  { intros i j [Hi Hij]. revert j Hij. apply (up_ind i (fun j => j <= nblk -> D i <= D j)); [lia|].
    intros j Hij IH Hj. specialize (Ds j ltac:(lia)). lia. }
  set (Bf := fun i => match part_block n rp d i with Some b => b | None => mkBlk 0 0 0 0 0 0 end).
  assert (HB : forall i, 0 <= i < nblk -> part_block n rp d i = Some (Bf i) /\ blk_ok (D i) (D (i + 1) - 1) (Bf i)).
  { intros i Hi. destruct (part_block_spec d i (D i) (D (i + 1) - 1)) as (b & E1 & O); try (rewrite Ld by lia).
    - auto. - f_equal. lia.
    - pose proof (Dm 0 i). specialize (Ds i Hi). lia.
    - pose proof (Dm (i + 1) nblk). lia.
    - unfold Bf. rewrite E1. auto. }
  destruct (zfor_inv (fun k (bs : mem csrp_blk) => zlen bs = nblk /\ forall i, 0 <= i < k -> ld bs i = Some (Bf i)) 0 nblk
    (fun i bs => b <- part_block n rp d i; st bs i b) (alloc nblk)) as (bs & E1 & Z1 & L1); try lia.
  { split; [apply zlen_alloc; lia|]. intros; lia. }
  { intros k bs Hk (Zb & Lb). rewrite (proj1 (HB k Hk)). cbn [bind]. destruct (st_Some bs k (Bf k)) as [bs' E']; [lia|].
    exists bs'. split; auto. split. { now rewrite (st_zlen _ _ _ _ E'). }
    intros i Hi. rewrite (ld_st _ _ _ _ i E'). destruct (Z.eqb_spec k i); [now subst|apply Lb; lia]. }
  rewrite E1. cbn [bind]. rewrite (L1 (nblk - 1)) by lia. cbn [bind].
  assert (Hn : 0 <= n) by apply HP.
  rewrite (G n) by lia. cbn [bind].
  destruct (st_Some bs (nblk - 1) (mkBlk (b_spos (Bf (nblk - 1))) (p n - 1) (b_first (Bf (nblk - 1))) (n - 1) (b_fri (Bf (nblk - 1))) (b_lri (Bf (nblk - 1))))) as [bs' E']; [lia|].
  exists bs', D, Bf. split; [exact E'|]. split. { now rewrite (st_zlen _ _ _ _ E'). }
  split; auto. split; auto. split; auto. intros i Hi. split; [|apply HB; auto].
  rewrite (ld_st _ _ _ _ i E'). unfold widen. destruct (Z.eqb_spec (nblk - 1) i); destruct (Z.eqb_spec i (nblk - 1)); try lia.
  - now subst i.
  - apply L1. lia.
Qed.
End Rows.
