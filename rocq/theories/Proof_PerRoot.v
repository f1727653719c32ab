(** The root block of the periodic product. *)
From Coq Require Import ZArith QArith List Lia Bool Permutation.
From Verif Require Import Base Mem Num CRing Conc Model_Utils Spec_Utils Proof_Utils Model_Dense Spec_Dense Proof_Dense Model_Partition Spec_Tree Model_CSR Spec_CSR Model_Pairs Spec_Pairs Model_Matvec Spec_Matvec
  Model_Build Spec_Build Proof_Build Proof_BuildFill Proof_Gemv Proof_MvTree Proof_MvFwd Model_Matmul Proof_Gemm Model_Periodic Spec_Periodic Proof_PerBlock.
Import ListNotations.
Open Scope Z_scope.

Section Root.
Context {F : num} {K : cring}.
Add Ring Kring : (cth K).
Local Open Scope ring_K.
Variable kern pkern : list F -> list F -> Z -> Z -> K.
Variables (xdim dim kd n nl : Z) (jr : dmat F) (P : Z -> list F) (width : Z -> option F) (w : Z -> F) (lattices : mem F) (lat : Z -> Z -> F).
Hypothesis Hdim : 0 <= dim <= xdim /\ xdim <= 8 /\ 1 <= kd /\ 0 <= n /\ 0 <= nl.
Hypothesis HP : forall k, 0 <= k < n -> zlen (P k) = xdim.
Hypothesis Hjr : dm_holds jr xdim n (fun d k => nth (Z.to_nat d) (P k) (nlit 0%Q)).
Hypothesis Hw : forall j, 0 <= j < dim -> width j = Some (w j).
Hypothesis Hlat : forall l j, 0 <= l < nl -> 0 <= j < dim -> ld lattices (l * dim + j) = Some (lat l j).

Definition lshift (l d : Z) : F := if (0 <=? d) && (d <? dim) then nmul (w d) (lat l d) else nlit 0%Q.
Notation size := (n * kd)%Z.

Lemma zlen_moved (q : list F) s : zlen (moved q s) = zlen q.
Proof. unfold moved. pose proof (zlen_nonneg q). rewrite zlen_map, zlen_zrange; lia. Qed.
Lemma zlen_drift sh m (q : list F) : zlen (drift sh m q) = zlen q.
Proof. induction m as [|m IH]; auto. cbn [drift]. unfold moved_back. rewrite zlen_moved, IH, zlen_map, zlen_zrange; [lia|apply zlen_nonneg]. Qed.
Lemma nth_map_zrange (f : Z -> F) x d : 0 <= d < x -> nth (Z.to_nat d) (map f (zrange 0 x)) (nlit 0%Q) = f d.
Proof.
  intros Hd. assert (G : getz (map f (zrange 0 x)) d = Some (f d)) by (rewrite getz_map, getz_zrange by lia; now rewrite Z.add_0_l).
  unfold getz in G. destruct (0 <=? d); [|discriminate]. now apply nth_error_nth.
Qed.

(** The state after [l] lattices. *)
Definition root_inv (l : Z) (x : dmat F * dmat K * mem K) : Prop :=
  let '(js, kb, blk) := x in
  dm_holds js xdim n (fun d k => nth (Z.to_nat d) (drift lshift (Z.to_nat l) (P k)) (nlit 0%Q)) /\
  dm_ld kb = size /\ (size * size <= zlen (dm_data kb))%Z /\ zlen blk = (size * size)%Z /\
  forall r c, 0 <= r < size -> 0 <= c < size -> ld blk (r * size + c) = Some (root_block kern pkern kd l P lshift r c).

Lemma sub_loop m (d blk : mem K) (f g : Z -> K) : 0 <= m -> zlen blk = m -> (forall i, 0 <= i < m -> ld blk i = Some (f i)) -> (forall i, 0 <= i < m -> ld d i = Some (g i)) ->
  exists blk', zfor 0 m (fun i blk => a <- ld blk i; b <- ld d i; st blk i (a - b)) blk = Some blk' /\ zlen blk' = m /\ forall i, 0 <= i < m -> ld blk' i = Some (f i - g i).
Proof.
  intros Hm Hz Hf Hg.
  destruct (zfor_inv (fun k (b : mem K) => zlen b = m /\ forall i, 0 <= i < m -> ld b i = Some (if i <? k then f i - g i else f i)) 0 m
    (fun i blk => a <- ld blk i; b <- ld d i; st blk i (a - b)) blk) as (b & E & Zb & V); auto.
  - split; auto. intros i Hi. rewrite (proj2 (Z.ltb_ge i 0)) by lia. auto.
  - intros k b Hk (Zb & V). rewrite V, Hg by lia. cbn [bind]. rewrite Z.ltb_irrefl. destruct (st_Some b k (f k - g k)) as [b' E']; [lia|].
    exists b'. split; auto. split; [rewrite (st_zlen _ _ _ _ E'); auto|]. intros i Hi. rewrite (ld_st _ _ _ _ i E'). destruct (Z.eqb_spec k i) as [<-|Hne].
    + now rewrite (proj2 (Z.ltb_lt k (k + 1))) by lia.
    + rewrite V by auto. destruct (Z.ltb_spec i k); destruct (Z.ltb_spec i (k + 1)); auto; lia.
  - exists b. split; auto. split; auto. intros i Hi. rewrite V by auto. now rewrite (proj2 (Z.ltb_lt i m)) by lia.
Qed.

Lemma jr_point k : 0 <= k < n -> point xdim (dm_data jr) 0 (dm_ld jr) k = Some (P k).
Proof. intros Hk. rewrite (point_holds jr xdim n _ k Hjr Hk). f_equal. rewrite <- (HP k Hk). apply list_nth. Qed.

Lemma div_cell r c : 0 <= c < size -> ((r * size + c) / size = r /\ (r * size + c) mod size = c)%Z.
Proof. intros Hc. rewrite (Z.add_comm (r * _)), Z.div_add, Z.mod_add, (Z.div_small c), (Z.mod_small c) by lia. split; lia. Qed.

Lemma per_lattice_spec l x : 0 <= l < nl -> root_inv l x -> exists x', per_lattice kern xdim dim kd jr width lattices l x = Some x' /\ root_inv (l + 1) x'.
Proof.
  intros Hl. destruct x as [[js kb] blk]. intros (Hj & Hld & Hkb & Zb & Hv). unfold per_lattice. pose proof Hjr as (_ & _ & Hn & _). rewrite Hn.
  destruct (shift_fill dim (fun j => w <- width j; v <- ld lattices (l * dim + j)%Z; Some (nmul w v)) (lshift l)) as (sh & Es & Vs); [lia| | |].
  { intros d Hd. rewrite Hw, Hlat by lia. cbn [bind]. unfold lshift. now rewrite (proj2 (Z.leb_le 0 d)), (proj2 (Z.ltb_lt d dim)) by lia. }
  { intros d Hd. unfold lshift. now rewrite (proj2 (Z.ltb_ge d dim)), andb_false_r by lia. }
  rewrite (zfor_ext 0 dim _ (fun k sh => v <- (w0 <- width k; v <- ld lattices (l * dim + k)%Z; Some (nmul w0 v)); st sh k v)).
  2:{ intros k sh0 Hk. destruct (width k); cbn [bind]; auto. destruct (ld lattices (l * dim + k)%Z); auto. }
  rewrite Es. cbn [bind].
  destruct (shift_coord_spec js sh (nlit 1%Q) xdim n _ (lshift l) Hj) as (j1 & E1 & H1 & L1). { intros i Hi. apply Vs. lia. }
  rewrite E1. cbn [bind].
  set (Q := fun k => moved (drift lshift (Z.to_nat l) (P k)) (lshift l)).
  destruct (krnl_eval_spec kern xdim kd (dm_data jr) 0 (dm_ld jr) n (dm_data j1) 0 (dm_ld j1) n P Q (dm_data kb) 0) as (d & Ed & Zd & Vd); try lia.
  { apply jr_point. }
  { intros k Hk. rewrite (point_holds j1 xdim n _ k H1 Hk). f_equal. unfold Q, moved. now rewrite zlen_drift, HP by lia. }
  rewrite Hld, Ed. cbn [bind].
  set (g := fun i => kern (P (i / size / kd)%Z) (Q (i mod size / kd)%Z) ((i / size) mod kd)%Z ((i mod size) mod kd)%Z).
  destruct (sub_loop (size * size) d blk (fun i => root_block kern pkern kd l P lshift (i / size) (i mod size)) g) as (blk' & Eb & Zb' & Vb); auto; try nia.
  { intros i Hi. assert (0 < size) by nia. rewrite <- Hv. - f_equal. rewrite Z.mul_comm. apply Z.div_mod; lia. - split; [apply Z.div_pos; lia|apply Z.div_lt_upper_bound; lia]. - apply Z.mod_pos_bound; lia. }
  { intros i Hi. destruct (Vd i) as [(_ & V)|(V & _)]; [rewrite V, Z.sub_0_r; reflexivity|]. exfalso. apply V. unfold in_reg. lia. }
  rewrite Eb. cbn [bind].
  destruct (shift_coord_spec j1 sh (nlit (-1)%Q) xdim n _ (lshift l) H1) as (j2 & E2 & H2 & L2). { intros i Hi. apply Vs. lia. }
  rewrite E2. cbn [bind]. eexists. split; [reflexivity|]. unfold root_inv. cbn [dm_set_data dm_ld dm_data]. split; [|split; [auto|split; [lia|split; [auto|]]]].
  - destruct H2 as (A1 & A2 & A3 & A4 & A5). do 4 (split; [assumption|]). intros d0 k Hd Hk. rewrite (A5 d0 k Hd Hk). f_equal.
    replace (Z.to_nat (l + 1)) with (S (Z.to_nat l)) by lia. cbn [drift]. unfold moved_back. rewrite zlen_moved, zlen_drift, HP by lia. rewrite nth_map_zrange by lia.
    rewrite Z2Nat.id by lia. f_equal. unfold moved. rewrite zlen_drift, HP by lia. rewrite nth_map_zrange by lia. reflexivity.
  - intros r cc Hr Hc. rewrite Vb by nia. destruct (div_cell r cc Hc) as [D1 D2]. unfold g. rewrite D1, D2. f_equal. unfold root_block.
    replace (l + 1)%Z with (l + 1)%Z by lia. rewrite rsum_snoc by lia. unfold Q. ring.
Qed.

Theorem per_block_spec (m0 : dmat F) (m1 : dmat K) : dm_ok m0 -> dm_ok m1 ->
  exists blk, per_block kern pkern xdim dim kd nl jr width lattices m0 m1 = Some blk /\ zlen blk = (size * size)%Z /\
    forall r c, 0 <= r < size -> 0 <= c < size -> ld blk (r * size + c) = Some (root_block kern pkern kd nl P lshift r c).
Proof.
  intros O0 O1. unfold per_block. pose proof Hjr as (J1 & J2 & Hn & J4 & J5). rewrite Hn. cbv zeta.
  destruct (krnl_eval_spec pkern xdim kd (dm_data jr) 0 (dm_ld jr) n (dm_data jr) 0 (dm_ld jr) n P P (alloc (size * size)) 0) as (d & Ed & Zd & Vd); try lia; try apply jr_point.
  { rewrite zlen_alloc; nia. }
  rewrite Ed. cbn [bind].
  destruct (Proof_Dense.dm_resize_ok m1 size size O1 ltac:(nia) ltac:(nia)) as (R1 & R2 & R3 & R4 & R5).
  destruct (Proof_Dense.dm_resize_ok m0 xdim n O0 ltac:(lia) ltac:(lia)) as (S1 & S2 & S3 & S4 & S5).
  destruct (copy_matrix_spec xdim n (dm_data jr) 0 (dm_ld jr) (dm_data (dm_resize m0 xdim n)) 0 (dm_ld (dm_resize m0 xdim n))) as (jd & Ej & Zj & Vj & _); auto.
  { rewrite S4. apply fits_resized; lia. }
  rewrite Ej. cbn [bind].
  match goal with |- context [zfor 0 nl ?b ?z] => destruct (zfor_inv root_inv 0 nl b z) as [[[js' kb'] blk] [E (_ & _ & _ & Zb & Vb)]] end.
  - lia.
  - unfold root_inv. cbn [dm_set_data dm_ld dm_data]. split; [|split; [auto|split; [auto|split; [rewrite Zd; apply zlen_alloc; nia|]]]].
    + unfold dm_holds. cbn [dm_set_data dm_nrow dm_ncol dm_ld dm_data]. split; [apply dm_set_data_ok; auto|]. do 2 (split; [auto|]).
      split. { rewrite Zj, S4. apply fits_resized; lia. }
      intros i j Hi Hj. specialize (Vj i j Hi Hj). rewrite !Z.add_0_l in Vj. unfold ld. rewrite Vj. apply J5; auto.
    + intros r cc Hr Hc. destruct (Vd (r * size + cc)%Z) as [(_ & V)|(V & _)]; [|exfalso; apply V; unfold in_reg; nia].
      rewrite V, Z.sub_0_r. destruct (div_cell r cc Hc) as [D1 D2]. rewrite D1, D2. f_equal. unfold root_block. rewrite rsum_empty by lia. ring.
  - intros l x Hl Hx. apply per_lattice_spec; auto.
  - rewrite E. cbn [bind]. exists blk. auto.
Qed.
End Root.

(** With exact arithmetic nothing drifts. *)
Lemma drift_exact {F : num} (sh : Z -> Z -> F) n q : undone sh n q -> forall m, Z.of_nat m <= n -> drift sh m q = q.
Proof. intros He m. induction m as [|m IH]; intros Hm; auto. cbn [drift]. rewrite IH by lia. apply He. lia. Qed.
