(** Step 1 of a ULV factorisation assembles the matrices it should. *)
From Coq Require Import ZArith List Lia Bool Permutation.
From Verif Require Import Base Mem Num CRing Conc Model_Utils Spec_Utils Proof_Utils Model_Dense Spec_Dense Proof_Dense Model_Partition Spec_Tree Model_Pairs Model_Matvec Spec_Matvec Proof_MvTree Proof_MvFwd Proof_MvCor Model_Matmul Proof_Gemm Model_Build Spec_Build Spec_Lapack Blk Model_ULV Spec_ULV Proof_ULVMath Proof_ULVTree Proof_ULVMem.
Import ListNotations.
Open Scope Z_scope.

Definition ivok (v : int_vec) : Prop := iv_cap v = zlen (iv_data v) /\ 0 <= iv_len v <= iv_cap v.
Lemma ivok_set_capacity v c : ivok v -> exists v', iv_set_capacity v c = Some v' /\ ivok v' /\ c <= iv_cap v'.
Proof.
  intros (H1 & H2). unfold iv_set_capacity. destruct (Z.ltb_spec (iv_cap v) c).
  - destruct (mcpy_spec (alloc c) 0 (iv_data v) 0 (iv_len v)) as (nd & E & Z1 & _); rewrite ?zlen_alloc by lia; try lia.
    rewrite E. cbn [bind]. eexists. split; [reflexivity|]. unfold ivok. cbn. rewrite Z1, zlen_alloc by lia. lia.
  - exists v. repeat split; auto; lia.
Qed.

Section Asm.
Context {F : num} {K : cring}.
Add Ring Kring : (cth K).
Local Open Scope ring_K.
Variable h : h2rep F K.
Hypothesis R : rep_ok h.
Hypothesis HS : hss_ok h.
Notation nn := (h_nnode h).
Notation matrix := (Z -> Z -> K).

Definition bufok (b : @ubuf K) : Prop := ivok (ub_idx b) /\ dm_ok (ub_m0 b) /\ dm_ok (ub_m1 b) /\ dm_ok (ub_m2 b).

(** A matrix object holding an m x n matrix, tightly packed. *)
Definition mholds (A : dmat K) (m n : Z) (f : matrix) : Prop := dm_nrow A = m /\ dm_ncol A = n /\ dm_ld A = n /\ holds (dm_data A) 0 n m n f.

Lemma holds_sub0 (a : mem K) l M N f r0 c0 m n o : holds a 0 l M N f -> 0 <= r0 -> (r0 + m <= M)%Z -> 0 <= c0 -> (c0 + n <= N)%Z -> o = (r0 * l + c0)%Z ->
  holds a o l m n (fun i j => f (r0 + i)%Z (c0 + j)%Z).
Proof. intros. eapply holds_sub; eauto; lia. Qed.

(** Adding to the diagonal. *)
Lemma diag_add (d : mem K) n f s : 0 <= n -> holds d 0 n n n f ->
  exists d', zfor 0 n (fun k d => madd d (k * n + k)%Z s) d = Some d' /\ zlen d' = zlen d /\ holds d' 0 n n n (fun i j => f i j + s * delta i j).
Proof.
  intros Hn Hf.
  destruct (zfor_inv (fun k (e : mem K) => zlen e = zlen d /\ holds e 0 n n n (fun i j => f i j + (if (i =? j)%Z && (i <? k)%Z then s else c0))) 0 n (fun k d => madd d (k * n + k)%Z s) d) as (d' & E & Z1 & H1); auto.
  - split; auto. eapply holds_ext; [exact Hf|]. intros i j Hi Hj. destruct (Z.ltb_spec i 0); [lia|]. rewrite andb_false_r. ring.
  - intros k e Hk (Ze & He). pose proof (He k k Hk Hk) as Ek. replace (0 + (k * n + k))%Z with (k * n + k)%Z in Ek by lia.
    destruct (madd_getz e (k * n + k) s _ Ek) as (e' & E' & Ze' & G). exists e'. split; auto. split; [lia|].
    intros i j Hi Hj. unfold ld. rewrite G. destruct (Z.eqb_spec (0 + (i * n + j)) (k * n + k)) as [Eq|Ne].
    + assert (EE : (i * n + j = k * n + k)%Z) by lia. apply (region_inj n n) in EE; [|lia..]. destruct EE as [-> ->].
      rewrite Z.eqb_refl. destruct (Z.ltb_spec k k), (Z.ltb_spec k (k + 1)); try lia. cbn [andb]. f_equal. f_equal. ring.
    + fold (ld e (0 + (i * n + j))). rewrite He by auto. f_equal. destruct (Z.eqb_spec i j) as [->|]; cbn [andb]; auto.
      destruct (Z.ltb_spec j k), (Z.ltb_spec j (k + 1)); auto; try lia. exfalso. apply Ne. assert (j = k) by lia. subst. lia.
  - exists d'. split; auto. split; auto. eapply holds_ext; [exact H1|]. intros i j Hi Hj. unfold delta.
    destruct (Z.ltb_spec i n); [|lia]. rewrite andb_true_r. destruct (i =? j)%Z; ring.
Qed.

Variables getB getD : Z -> Z -> dmat K -> option (option (dmat K)).
Hypothesis HG : gets_ok h getB getD.
Variable shift : K.
Variable nf : Z -> @nfac K.

(** What the children have left. *)
Definition mid_ok (Um Dm : list (option (dmat K))) (c : Z) : Prop :=
  exists U D, geto Um c = Some U /\ geto Dm c = Some D /\ mholds U (rank h c) (rank h c) (f_R (nf c)) /\ mholds D (rank h c) (rank h c) (f_D (nf c)).

(** ** Leaves *)
Lemma asm_leaf_spec t b : 0 <= t < nn -> 1 <= level h t -> nchild h t = 0 -> bufok b ->
  exists b' Dh Uh, asm_leaf h getD shift t b = Some b' /\ bufok b' /\ ub_idx b' = ub_idx b /\
    mholds (ub_m0 b') (nrows h t) (rank h t) Uh /\ mholds (ub_m1 b') (nrows h t) (nrows h t) Dh /\ linkedm h shift nf Dh Uh t.
Proof.
  intros Ht Hlev Hnc (B1 & B2 & B3 & B4). unfold asm_leaf.
  destruct (U_at h R t Ht) as (U & EU & Ec & _ & HU). pose proof (hs_min h HS) as Hm. destruct (HU ltac:(lia)) as (Hrk & Er & GU). clear HU.
  destruct (ro_U _ R) as [_ HU]. destruct (HU t U EU) as [_ HU']. destruct (HU' ltac:(lia)) as (_ & _ & FU & _). clear HU HU'.
  rewrite EU. cbn [bind]. rewrite Hnc, Z.eqb_refl in Er. destruct (cluster_range h R t Ht) as (M1 & M2 & M3).
  assert (En : nrows h t = msize h t) by (unfold nrows; now rewrite Hnc). rewrite En.
  destruct (dm_resize_ok (ub_m0 b) (dm_nrow U) (dm_ncol U) B2) as (T1 & T2 & T3 & T4 & T5); [rewrite Er, Ec; nia|].
  set (tU := dm_resize (ub_m0 b) (dm_nrow U) (dm_ncol U)) in *.
  destruct (copy_upd (dm_nrow U) (dm_ncol U) (dm_data U) 0 (dm_ld U) (dm_data tU) 0 (dm_ld tU) (Uval h t)) as (d & E & D1 & D2 & D3); try (rewrite ?Er, ?Ec; lia).
  - destruct FU as (_ & _ & _ & F4 & _). lia.
  - intros i j Hi Hj. rewrite <- GU by lia; f_equal; lia.
  - rewrite T4. split; [lia|]. split; [lia|]. split; [lia|]. split; [lia|]. intros _ _. eapply Z.le_trans; [|exact T5]. apply Z.eq_le_incl. ring.
  - rewrite E. cbn [bind]. destruct HG as [_ HD]. destruct (leaf_list h R) as (ls & Zls & Gls & Nls & Ils).
    destruct (In_getz ls t (proj2 (Ils t) (conj Ht Hnc))) as (k0 & Gk). pose proof (getz_range _ _ _ Gk) as Hk0. rewrite Zls in Hk0. rewrite Gls in Gk by lia. injection Gk as Gk.
    destruct (HD k0 (ub_m1 b) ltac:(lia) B3) as (tD & ED & OD & V1 & V2 & V3 & V4). rewrite Gk in *. unfold fetch. rewrite ED. cbn [bind].
    assert (HDv : holds (dm_data tD) 0 (msize h t) (msize h t) (msize h t) (Dval h k0)) by (intros i j Hi Hj; rewrite <- V4 by lia; f_equal; lia).
    destruct (diag_add (dm_data tD) (msize h t) (Dval h k0) shift ltac:(lia) HDv) as (e & Ee & Ze & He).
    rewrite V1, V3, Ee. cbn [bind]. eexists _, _, _. split; [reflexivity|]. cbn [ub_idx ub_m0 ub_m1 ub_m2].
    split; [split; [exact B1|]; split; [apply dm_set_data_ok; auto; lia|]; split; [apply dm_set_data_ok; auto|auto]|]. split; [reflexivity|].
    split; [|split].
    + unfold mholds, dm_set_data. cbn. rewrite T2, T3, T4, Er, Ec. repeat split; auto. rewrite T4, Er, Ec in D2. exact D2.
    + unfold mholds, dm_set_data. cbn. rewrite V1, V2, V3. repeat split; auto. exact He.
    + split; try (intros; lia).
      * intros k i j Hk Et Hi Hj. assert (k = k0) as ->; [|reflexivity].
        assert (GG : getz ls k = getz ls k0) by (rewrite !Gls by lia; congruence). rewrite NoDup_nth_error in Nls. unfold getz in GG.
        destruct (Z.leb_spec 0 k), (Z.leb_spec 0 k0); try lia. assert (Z.to_nat k = Z.to_nat k0); [|lia]. apply Nls; auto. unfold zlen in *. lia.
      * reflexivity.
Qed.

(** ** Other nodes *)
Section Node.
Variable t : Z.
Hypothesis Ht : 0 <= t < nn.
Hypothesis Hnc : nchild h t <> 0.
Notation nc := (nchild h t).
Notation c_ k := (child h t k).
Notation rk k := (rank h (child h t k)).
Notation n := (choff h t nc).
Notation off k := (choff h t k).
Variables Um Dm : list (option (dmat K)).
Hypothesis Hmid : forall k, 0 <= k < nc -> mid_ok Um Dm (c_ k).

Lemma nc_pos : 0 < nc. Proof. pose proof (nchild_range h R t Ht). lia. Qed.
Lemma rk_pos k : 0 <= k < nc -> 1 <= rk k.
Proof.
  intros Hk. destruct (child_at h R t k Ht Hk) as (_ & Rc & _ & Lc). destruct (U_at h R _ Rc) as (U & _ & _ & _ & H). pose proof (hs_min h HS). pose proof (level_range h R t Ht). apply H. lia.
Qed.
Lemma off_next k l : 0 <= k < l -> l <= nc -> off k + rk k <= off l.
Proof.
  intros [Hk Hl] Hn. assert (H : 0 <= l - (k + 1)) by lia. replace l with (k + 1 + (l - (k + 1)))%Z in * by lia. revert Hn Hl. generalize dependent (l - (k + 1))%Z. clear l.
  intros d Hd. apply (natlike_ind (fun d => (k + 1 + d <= nc -> k < k + 1 + d -> off k + rk k <= off (k + 1 + d))%Z)); [| |lia].
  - intros _ _. replace (k + 1 + 0)%Z with (k + 1)%Z by lia. rewrite choff_step by lia. lia.
  - intros e He IH H1 H2. unfold Z.succ in *. replace (k + 1 + (e + 1))%Z with (k + 1 + e + 1)%Z by lia. rewrite (choff_step h t (k + 1 + e)) by lia.
    pose proof (rk_pos (k + 1 + e)%Z ltac:(lia)). specialize (IH ltac:(lia) ltac:(lia)). lia.
Qed.
Lemma off_nonneg k : 0 <= k <= nc -> 0 <= off k.
Proof. intros Hk. destruct (Z.eq_dec k 0) as [->|]; [rewrite choff_0; lia|]. pose proof (off_next 0 k ltac:(lia) ltac:(lia)). pose proof (rk_pos 0 ltac:(pose proof nc_pos; lia)). rewrite choff_0 in *. lia. Qed.

(** Offsets. *)
Definition offs_ok (o : mem Z) : Prop := forall k, 0 <= k <= nc -> ld o k = Some (off k).
Lemma asm_offsets_spec v : ivok v -> exists v', asm_offsets h Dm t nc v = Some (v', n) /\ ivok v' /\ offs_ok (iv_data v').
Proof.
  intros Hv. unfold asm_offsets. pose proof nc_pos as Hp. destruct (ivok_set_capacity v (nc + 1) Hv) as (v1 & E1 & (O1 & O2) & C1). rewrite E1. cbn [bind].
  destruct (st_Some (iv_data v1) 0 0%Z) as [o0 E0]; [lia|]. rewrite E0. cbn [bind].
  destruct (zfor_inv (fun k (s : mem Z * Z) => zlen (fst s) = zlen (iv_data v1) /\ (forall j, 0 <= j <= k -> ld (fst s) j = Some (off j)) /\ snd s = off k) 0 nc
    (fun k s => let '(o, n) := s in c <- ld (a_children (h_t h)) (t * h_maxchild h + k); Dc <- geto Dm c; ok <- ld o k; o <- st o (k + 1)%Z (ok + dm_nrow Dc)%Z; Some (o, n + dm_nrow Dc)%Z) (o0, 0%Z))
    as ([o n1] & E & Z1 & H1 & H2).
  - lia.
  - cbn [fst snd]. split; [rewrite (st_zlen _ _ _ _ E0); auto|]. split; [|now rewrite choff_0]. intros j Hj. assert (j = 0) as -> by lia. rewrite (ld_st _ _ _ _ 0 E0), choff_0. reflexivity.
  - intros k [o m] Hk (P1 & P2 & P3). cbn [fst snd] in *. destruct (child_at h R t k Ht Hk) as (Ec & _). rewrite Ec. cbn [bind].
    destruct (Hmid k Hk) as (U & D & _ & ED & _ & (D1 & _)). rewrite ED. cbn [bind]. rewrite (P2 k) by lia. cbn [bind].
    destruct (st_Some o (k + 1) (off k + dm_nrow D)%Z) as [o' Eo]; [lia|]. rewrite Eo. cbn [bind]. exists (o', (m + dm_nrow D)%Z). split; auto. cbn [fst snd].
    split; [rewrite (st_zlen _ _ _ _ Eo); auto|]. rewrite choff_step, D1 in * by lia. split; [|lia]. intros j Hj.
    rewrite (ld_st _ _ _ _ j Eo). destruct (Z.eqb_spec (k + 1) j) as [<-|]; [rewrite choff_step by lia; auto|apply P2; lia].
  - rewrite E. cbn [bind fst snd] in *. subst n1. eexists. split; [reflexivity|]. cbn. split; [|intros k Hk; apply H1; lia].
    unfold ivok. cbn. lia.
Qed.

(** One pair of off-diagonal blocks. *)
Definition offv (k l q : Z) (i j : Z) : K := rsum 0 (rk k) (fun a => f_R (nf (c_ k)) i a * rsum 0 (rk l) (fun b => Bval h q a b * f_R (nf (c_ l)) j b)).
Lemma asm_off_spec o k l q m0 m2 d g : offs_ok o -> 0 <= k < l -> l < nc -> getz (h_adm h) q = Some (c_ k, c_ l) -> dm_ok m0 -> dm_ok m2 -> holds d 0 n n n g ->
  exists m0' m2' d', asm_off h getB Um t o n k l (m0, m2, d) = Some (m0', m2', d') /\ dm_ok m0' /\ dm_ok m2' /\ zlen d' = zlen d /\
    holds d' 0 n n n (patch (off l) (off k) (rk l) (rk k) (fun j i => offv k l q i j) (patch (off k) (off l) (rk k) (rk l) (offv k l q) g)).
Proof.
  intros Ho Hk Hl Eq O0 O2 Hd. unfold asm_off.
  destruct (child_at h R t k Ht ltac:(lia)) as (-> & _). destruct (child_at h R t l Ht ltac:(lia)) as (-> & _). cbn [bind].
  rewrite !Ho by lia. cbn [bind].
  destruct HG as [HB _]. destruct (HB q _ _ m2 Eq O2) as (tB & EB & OB & V1 & V2 & V3 & V4). unfold fetch. rewrite EB. cbn [bind].
  destruct (pair_dims h R HS q _ _ Eq) as (_ & _ & _ & _ & Q1 & Q2). rewrite Q1, Q2 in *.
  destruct (Hmid k ltac:(lia)) as (Uk & _ & EUk & _ & (K1 & K2 & K3 & K4) & _). destruct (Hmid l ltac:(lia)) as (Ul & _ & EUl & _ & (L1 & L2 & L3 & L4) & _).
  rewrite EUl, EUk. cbn [bind]. pose proof (rk_pos k ltac:(lia)) as Rk. pose proof (rk_pos l ltac:(lia)) as Rl.
  destruct (dm_resize_ok m0 (dm_nrow tB) (dm_nrow Ul) O0) as (T1 & T2 & T3 & T4 & T5); [rewrite V1, L1; nia|].
  set (tM := dm_resize m0 (dm_nrow tB) (dm_nrow Ul)) in *. rewrite V1, L1 in *. rewrite T2, T3, T4, V2, V3, L3.
  destruct (gemm_upd false true (rk k) (rk l) (rk l) (dm_data tB) 0 (rk l) (dm_data Ul) 0 (rk l) (dm_data tM) 0 (rk l) (Bval h q) (fun p j => f_R (nf (c_ l)) j p)) as (e & Ee & Ze & He & _).
  { lia. } { split; [lia|]. split; [lia|]. split; [lia|]. split; [lia|]. nia. }
  { intros i j Hi Hj. rewrite <- V4 by lia. f_equal; lia. } { exact L4. }
  rewrite Ee. cbn [bind dm_data dm_set_data dm_nrow dm_ncol dm_ld]. rewrite T2, T3, T4, K1, K3.
  pose proof (off_next k l ltac:(lia) ltac:(lia)) as Okl. pose proof (off_next l nc ltac:(lia) ltac:(lia)) as Oln. pose proof (off_nonneg k ltac:(lia)).
  destruct (gemm_upd false false (rk k) (rk l) (rk k) (dm_data Uk) 0 (rk k) e 0 (rk l) d (off k * n + off l) n (f_R (nf (c_ k))) (fun a j => rsum 0 (rk l) (fun p => Bval h q a p * f_R (nf (c_ l)) j p))) as (d1 & E1 & U1).
  { lia. } { apply (fits_sub d n n n g (off k) (off l)); auto; lia. } { exact K4. } { exact He. }
  rewrite E1. cbn [bind].
  pose proof (updr_patch _ _ _ _ _ _ _ (off k) (off l) _ _ _ U1 Hd ltac:(lia) ltac:(lia) ltac:(lia) ltac:(lia) ltac:(lia) eq_refl) as Hd1.
  assert (Ek : (choff h t (k + 1) - choff h t k = rk k)%Z) by (rewrite choff_step by lia; lia).
  assert (El : (choff h t (l + 1) - choff h t l = rk l)%Z) by (rewrite choff_step by lia; lia).
  rewrite Ek, El.
  destruct (transpose_in_upd d1 n _ (off k) (rk k) (off l) (rk l) (off k * n + off l) (off l * n + off k) Hd1) as (d2 & E2 & U2); auto; try lia.
  rewrite E2. cbn [bind]. eexists _, _, _. split; [reflexivity|]. split; [apply dm_set_data_ok; auto; lia|]. split; auto.
  destruct U1 as (Z1 & _). pose proof U2 as (Z2 & _). split; [lia|].
  pose proof (updr_patch _ _ _ _ _ _ _ (off l) (off k) _ _ _ U2 Hd1 ltac:(lia) ltac:(lia) ltac:(lia) ltac:(lia) ltac:(lia) eq_refl) as Hd2.
  eapply holds_ext; [exact Hd2|]. intros i j Hi Hj. cbv beta.
  destruct (Z.leb_spec (off l) i), (Z.ltb_spec i (off l + rk l)), (Z.leb_spec (off k) j), (Z.ltb_spec j (off k + rk k)).
  1:{ rewrite !(patch_in (off l) (off k)) by lia. rewrite patch_in by lia. unfold offv.
      replace (off k + (j - off k) - off k)%Z with (j - off k)%Z by lia. replace (off l + (i - off l) - off l)%Z with (i - off l)%Z by lia. reflexivity. }
  all: rewrite !(patch_out (off l) (off k)) by lia; reflexivity.
Qed.

(** Overwriting one block changes that block only. *)
Lemma off_other k a i : 0 <= k < nc -> 0 <= a < nc -> k <> a -> 0 <= i < rk k -> ~ (off a <= off k + i < off a + rk a)%Z.
Proof.
  intros Hk Ha Hne Hi. destruct (Z.lt_ge_cases k a); [pose proof (off_next k a ltac:(lia) ltac:(lia))|pose proof (off_next a k ltac:(lia) ltac:(lia))]; lia.
Qed.
Lemma blk_same a b (f g : matrix) i j : 0 <= i < rk a -> 0 <= j < rk b -> patch (off a) (off b) (rk a) (rk b) f g (off a + i) (off b + j) = f i j.
Proof. intros Hi Hj. rewrite patch_in by lia. f_equal; lia. Qed.
Lemma blk_other a b k l (f g : matrix) i j : 0 <= a < nc -> 0 <= b < nc -> 0 <= k < nc -> 0 <= l < nc -> k <> a \/ l <> b -> 0 <= i < rk k -> 0 <= j < rk l ->
  patch (off a) (off b) (rk a) (rk b) f g (off k + i) (off l + j) = g (off k + i)%Z (off l + j)%Z.
Proof.
  intros Ha Hb Hk Hl Hne Hi Hj. apply patch_out. intros [H1 H2]. destruct Hne as [Hne|Hne].
  - apply (off_other k a i); auto; lia.
  - apply (off_other l b j); auto; lia.
Qed.

Definition diagr (g : matrix) k : Prop := forall i j, 0 <= i < rk k -> 0 <= j < rk k -> g (off k + i)%Z (off k + j)%Z = f_D (nf (c_ k)) i j.
Definition offr (g : matrix) k l : Prop := forall q, getz (h_adm h) q = Some (c_ k, c_ l) -> forall i j, 0 <= i < rk k -> 0 <= j < rk l ->
  g (off k + i)%Z (off l + j)%Z = offv k l q i j /\ g (off l + j)%Z (off k + i)%Z = offv k l q i j.

Lemma asm_D_spec o b : offs_ok o -> bufok b ->
  exists b' Dh, asm_D h getB Um Dm t nc n o b = Some b' /\ bufok b' /\ ub_idx b' = ub_idx b /\ mholds (ub_m1 b') n n Dh /\
    (forall k, 0 <= k < nc -> diagr Dh k) /\ forall k l, 0 <= k < l -> l < nc -> offr Dh k l.
Proof.
  intros Ho (B1 & B2 & B3 & B4). unfold asm_D. pose proof nc_pos as Hp. pose proof (off_nonneg nc ltac:(lia)) as Hn.
  destruct (dm_resize_ok (ub_m1 b) n n B3) as (T1 & T2 & T3 & T4 & T5); [nia|]. set (tD := dm_resize (ub_m1 b) n n) in *.
  destruct (mset0_square (dm_data tD) n Hn T5) as (d0 & E0 & Z0 & H0). rewrite E0. cbn [bind]. rewrite T4.
  match goal with |- context [zfor 0 nc ?bd ?s0] => set (body := bd); set (s_0 := s0) end.
  destruct (zfor_inv (fun k0 (s : dmat K * dmat K * mem K) => dm_ok (fst (fst s)) /\ dm_ok (snd (fst s)) /\ zlen (snd s) = zlen (dm_data tD) /\
      exists g, holds (snd s) 0 n n n g /\ (forall k, 0 <= k < k0 -> diagr g k) /\ forall k l, 0 <= k < k0 -> k < l < nc -> offr g k l) 0 nc body s_0)
    as ([[m0 m2] d] & E & O0 & O2 & Zd & g & Hg & Gd & Go).
  - lia.
  - unfold s_0. cbn [fst snd]. repeat (split; [auto; lia|]). exists (fun _ _ => c0). split; auto. split; intros; lia.
  - intros k0 [[m0 m2] d] Hk (O0 & O2 & Zd & g & Hg & Gd & Go). cbn [fst snd] in *. unfold body.
    destruct (child_at h R t k0 Ht Hk) as (Ec & _). rewrite Ec. cbn [bind]. rewrite Ho by lia. cbn [bind].
    destruct (Hmid k0 Hk) as (_ & Dk & _ & ED & _ & (D1 & D2 & D3 & D4)). rewrite ED. cbn [bind]. rewrite D1, D2, D3.
    pose proof (rk_pos k0 Hk) as Rk. pose proof (off_next k0 nc ltac:(lia) ltac:(lia)) as On. pose proof (off_nonneg k0 ltac:(lia)).
    destruct (copy_upd (rk k0) (rk k0) (dm_data Dk) 0 (rk k0) d (off k0 * (n + 1)) n (f_D (nf (c_ k0)))) as (d1 & E1 & U1); auto; try lia.
    { apply (fits_sub d n n n g (off k0) (off k0)); auto; lia. }
    rewrite E1. cbn [bind].
    pose proof (updr_patch _ _ _ _ _ _ _ (off k0) (off k0) _ _ _ U1 Hg ltac:(lia) ltac:(lia) ltac:(lia) ltac:(lia) ltac:(lia) ltac:(lia)) as Hd1.
    destruct (zfor_inv (fun l0 (s : dmat K * dmat K * mem K) => dm_ok (fst (fst s)) /\ dm_ok (snd (fst s)) /\ zlen (snd s) = zlen (dm_data tD) /\
      exists g, holds (snd s) 0 n n n g /\ (forall k, 0 <= k <= k0 -> diagr g k) /\ forall k l, 0 <= k <= k0 -> k < l < nc -> (k < k0 \/ l < l0) -> offr g k l)
      (k0 + 1) nc (fun l s => asm_off h getB Um t o n k0 l s) (m0, m2, d1)) as ([[m0' m2'] d'] & E' & O0' & O2' & Zd' & g' & Hg' & Gd' & Go').
    + lia.
    + cbn [fst snd]. split; auto. split; auto. split; [destruct U1; lia|].
      exists (patch (off k0) (off k0) (rk k0) (rk k0) (f_D (nf (c_ k0))) g). split; auto. split.
      * intros k Hk'. destruct (Z.eq_dec k k0) as [->|Hne]; [intros i j Hi Hj; now apply blk_same|].
        intros i j Hi Hj. rewrite blk_other by (auto; lia). apply Gd; auto; lia.
      * intros k l Hk' Hl Hor q Eq i j Hi Hj. rewrite !blk_other by (auto; lia). apply Go; auto; lia.
    + intros l0 [[m0' m2'] d'] Hl (O0' & O2' & Zd' & g' & Hg' & Gd' & Go'). cbn [fst snd] in *.
      destruct (hs_all h HS t k0 l0 Ht ltac:(lia) ltac:(lia)) as (q0 & Eq0).
      destruct (asm_off_spec o k0 l0 q0 m0' m2' d' g' Ho ltac:(lia) ltac:(lia) Eq0 O0' O2' Hg') as (m0'' & m2'' & d'' & E'' & O0'' & O2'' & Zd'' & Hg'').
      exists (m0'', m2'', d''). split; auto. cbn [fst snd]. split; auto. split; auto. split; [lia|]. eexists. split; [exact Hg''|]. split.
      * intros k Hk' i j Hi Hj. rewrite !blk_other by (auto; lia). apply Gd'; auto.
      * intros k l Hk' Hl' Hor q Eq i j Hi Hj. destruct (Z.eq_dec k k0) as [->|Hne].
        -- destruct (Z.eq_dec l l0) as [->|Hne].
           ++ rewrite (adm_inj h HS q q0 _ Eq Eq0). split.
              ** rewrite (blk_other l0 k0) by (auto; lia). now apply blk_same.
              ** now apply (blk_same l0 k0 (fun j i => offv k0 l0 q0 i j)).
           ++ rewrite !(blk_other l0 k0) by (auto; lia). rewrite !(blk_other k0 l0) by (auto; lia). apply Go'; auto; lia.
        -- rewrite !(blk_other l0 k0) by (auto; lia). rewrite !(blk_other k0 l0) by (auto; lia). apply Go'; auto; lia.
    + exists (m0', m2', d'). split; auto. cbn [fst snd]. split; auto. split; auto. split; auto. exists g'. split; auto. split.
      * intros k Hk'. apply Gd'. lia.
      * intros k l Hk' Hl. apply Go'; lia.
  - rewrite E. cbn [bind fst snd] in *. eexists _, g. split; [reflexivity|]. cbn [ub_idx ub_m0 ub_m1 ub_m2].
    split; [split; [exact B1|]; split; [exact O0|]; split; [apply dm_set_data_ok; auto|exact O2]|]. split; [reflexivity|].
    split; [unfold mholds, dm_set_data; cbn; rewrite T2, T3, T4; repeat split; auto|]. split; [auto|]. intros; apply Go; lia.
Qed.

Lemma asm_U_spec o b Dh : offs_ok o -> bufok b -> mholds (ub_m1 b) n n Dh -> n = nrows h t ->
  exists b' Uh, asm_U h Um t nc n (level h t) o b = Some b' /\ bufok b' /\ mholds (ub_m1 b') n n Dh /\ dm_nrow (ub_m0 b') = n /\
    (if 0 <? level h t then mholds (ub_m0 b') n (rank h t) Uh else dm_ncol (ub_m0 b') = n) /\
    forall k i c, 0 <= k < nc -> 0 <= i < rk k -> 0 <= c < rank h t -> Uh (off k + i)%Z c = rsum 0 (rk k) (fun d => f_R (nf (c_ k)) i d * Uval h t (off k + d) c).
Proof.
  intros Ho (B1 & B2 & B3 & B4) HD En. unfold asm_U. pose proof nc_pos as Hp. pose proof (off_nonneg nc ltac:(lia)) as Hn.
  destruct (dm_resize_ok (ub_m0 b) n n B2) as (T1 & T2 & T3 & T4 & T5); [nia|]. set (tU := dm_resize (ub_m0 b) n n) in *.
  destruct (mset0_square (dm_data tU) n Hn T5) as (d0 & E0 & Z0 & H0). rewrite E0. cbn [bind]. rewrite T4.
  match goal with |- context [zfor 0 nc ?bd ?s0] => set (body := bd) end.
  destruct (zfor_inv (fun k0 (s : mem K) => zlen s = zlen (dm_data tU) /\ exists g, holds s 0 n n n g /\
      forall k l i j, 0 <= k < nc -> 0 <= l < nc -> 0 <= i < rk k -> 0 <= j < rk l -> g (off k + i)%Z (off l + j)%Z = if (k =? l)%Z && (k <? k0)%Z then f_R (nf (c_ k)) i j else c0) 0 nc body d0)
    as (d & E & Zd & g & Hg & Gg).
  - lia.
  - split; auto. exists (fun _ _ => c0). split; auto. intros k l i j Hk Hl Hi Hj. destruct (Z.ltb_spec k 0); [lia|]. now rewrite andb_false_r.
  - intros k0 d Hk (Zd & g & Hg & Gg). unfold body. destruct (child_at h R t k0 Ht Hk) as (Ec & _). rewrite Ec. cbn [bind]. rewrite Ho by lia. cbn [bind].
    destruct (Hmid k0 Hk) as (Uk & _ & EU & _ & (D1 & D2 & D3 & D4) & _). rewrite EU. cbn [bind]. rewrite D1, D2, D3.
    pose proof (rk_pos k0 Hk) as Rk. pose proof (off_next k0 nc ltac:(lia) ltac:(lia)) as On. pose proof (off_nonneg k0 ltac:(lia)).
    destruct (copy_upd (rk k0) (rk k0) (dm_data Uk) 0 (rk k0) d (off k0 * (n + 1)) n (f_R (nf (c_ k0)))) as (d1 & E1 & U1); auto; try lia.
    { apply (fits_sub d n n n g (off k0) (off k0)); auto; lia. }
    exists d1. split; auto. split; [destruct U1; lia|]. eexists. split; [apply (updr_patch _ _ _ _ _ _ _ (off k0) (off k0) _ _ _ U1 Hg); lia|].
    intros k l i j Hk' Hl Hi Hj. destruct (Z.eq_dec k k0) as [->|Hne].
    + destruct (Z.eq_dec l k0) as [->|Hne].
      * rewrite blk_same by auto. rewrite Z.eqb_refl. destruct (Z.ltb_spec k0 (k0 + 1)); [|lia]. reflexivity.
      * rewrite blk_other by (auto; lia). rewrite Gg by auto. destruct (Z.eqb_spec k0 l); [congruence|]. reflexivity.
    + rewrite blk_other by (auto; lia). rewrite Gg by auto. destruct (Z.eqb_spec k l); cbn [andb]; auto. destruct (Z.ltb_spec k k0), (Z.ltb_spec k (k0 + 1)); auto; lia.
  - rewrite E. cbn [bind].
    assert (Ou : dm_ok (dm_set_data tU d)) by (apply dm_set_data_ok; auto).
    set (Uh := fun a c => rsum 0 n (fun p => g a p * Uval h t p c)).
    assert (HU : forall k i c, 0 <= k < nc -> 0 <= i < rk k -> 0 <= c < rank h t -> Uh (off k + i)%Z c = rsum 0 (rk k) (fun d => f_R (nf (c_ k)) i d * Uval h t (off k + d) c)).
    { intros k i c Hk Hi Hc. unfold Uh. rewrite (rsum_choff h R t) by (auto; lia). rewrite (rsum_only 0 nc _ k Hk).
      - apply rsum_ext. intros d1 Hd1. rewrite Gg by auto. rewrite Z.eqb_refl. destruct (Z.ltb_spec k nc); [reflexivity|lia].
      - intros l Hl Hne. apply rsum_zero. intros d1 Hd1. rewrite Gg by auto. destruct (Z.eqb_spec k l); [congruence|]. cbn [andb]. ring. }
    destruct (Z.ltb_spec 0 (level h t)) as [Hlv|Hlv].
    + destruct (U_at h R t Ht) as (U & EU & Ec & _ & HUt). pose proof (hs_min h HS) as Hm. destruct (HUt ltac:(lia)) as (Hrk & Er & GU). clear HUt.
      destruct (Z.eqb_spec nc 0) as [|_]; [contradiction|]. rewrite EU. cbn [bind dm_set_data dm_nrow dm_ncol dm_ld dm_data]. rewrite T2, T3, T4, Ec.
      destruct (dm_resize_ok (ub_m2 b) n (rank h t) B4) as (S1 & S2 & S3 & S4 & S5); [nia|]. set (tB := dm_resize (ub_m2 b) n (rank h t)) in *. rewrite S2, S3, S4.
      destruct (gemm_upd false false n (rank h t) n d 0 n (dm_data U) 0 (dm_ld U) (dm_data tB) 0 (rank h t) g (Uval h t)) as (e & Ee & Ze & He & _); auto.
      { split; [lia|]. split; [lia|]. split; [lia|]. split; [lia|]. nia. }
      { intros i j Hi Hj. rewrite <- GU by lia; f_equal; lia. }
      rewrite Ee. cbn [bind].
      assert (Ob : dm_ok (dm_set_data tB e)) by (apply dm_set_data_ok; auto).
      destruct (dm_resize_ok (dm_set_data tU d) n (rank h t) Ou) as (V1 & V2 & V3 & V4 & V5); [nia|].
      set (tU' := dm_resize (dm_set_data tU d) n (rank h t)) in *.
      destruct (copy_upd n (rank h t) e 0 (rank h t) (dm_data tU') 0 (rank h t) Uh) as (d2 & E2 & Z2 & H2 & _); auto; try lia.
      { split; [lia|]. split; [lia|]. split; [lia|]. split; [lia|]. nia. }
      rewrite V4, E2. cbn [bind]. eexists _, Uh. split; [reflexivity|]. cbn [ub_idx ub_m0 ub_m1 ub_m2].
      split; [split; [exact B1|]; split; [apply dm_set_data_ok; auto|]; split; [exact B3|exact Ob]|]. split; [exact HD|].
      split; [exact V2|]. split; [|exact HU].
      unfold mholds, dm_set_data; cbn [dm_nrow dm_ncol dm_ld dm_data]. split; [exact V2|]. split; [exact V3|]. split; [exact V4|exact H2].
    + eexists _, Uh. split; [reflexivity|]. cbn [ub_idx ub_m0 ub_m1 ub_m2]. split; [split; [exact B1|]; split; [exact Ou|]; split; [exact B3|exact B4]|].
      split; [exact HD|]. split; [exact T2|]. split; [exact T3|exact HU].
Qed.
End Node.

Lemma assemble_spec t Um Dm b : 0 <= t < nn -> (level h t = 0 -> nchild h t <> 0) -> bufok b -> (forall k, 0 <= k < nchild h t -> mid_ok Um Dm (child h t k)) ->
  exists b' Dh Uh, assemble h getB getD shift (level h t) t Um Dm b = Some b' /\ bufok b' /\ dm_nrow (ub_m0 b') = nrows h t /\
    (if (0 <? level h t)%Z then mholds (ub_m0 b') (nrows h t) (rank h t) Uh else dm_ncol (ub_m0 b') = nrows h t) /\
    mholds (ub_m1 b') (nrows h t) (nrows h t) Dh /\ linkedm h shift nf Dh Uh t.
Proof.
  intros Ht Hroot Hb Hmid. unfold assemble. rewrite (ld_nchild h R t Ht). cbn [bind]. pose proof (level_range h R t Ht) as Hlv.
  assert (Hr : 1 <= level h t -> rank h t <= nrows h t) by (intros; now apply (hs_rank h HS)).
  destruct (Z.eqb_spec (nchild h t) 0) as [Hnc|Hnc].
  - assert (L1 : 1 <= level h t) by (destruct (Z.eq_dec (level h t) 0) as [E0|]; [specialize (Hroot E0); contradiction|lia]).
    destruct (asm_leaf_spec t b Ht L1 Hnc Hb) as (b' & Dh & Uh & E & Ob & _ & M0 & M1 & Lk). rewrite E. cbn [bind].
    pose proof M0 as (N1 & N2 & _). rewrite N1, N2. destruct (Z.ltb_spec (nrows h t) (rank h t)); [lia|].
    exists b', Dh, Uh. destruct (Z.ltb_spec 0 (level h t)); [|lia]. auto 10.
  - destruct Hb as (B1 & B2 & B3 & B4).
    destruct (asm_offsets_spec t Ht Hnc Um Dm Hmid (ub_idx b) B1) as (v & E & Ov & Oo). rewrite E. cbn [bind].
    destruct (asm_D_spec t Ht Hnc Um Dm Hmid (iv_data v) (UBuf v (ub_m0 b) (ub_m1 b) (ub_m2 b)) Oo) as (b1 & Dh & E1 & Ob1 & Ei & M1 & Gd & Go).
    { split; [exact Ov|]. split; [exact B2|]. split; [exact B3|exact B4]. }
    rewrite E1. cbn [bind].
    assert (En : choff h t (nchild h t) = nrows h t) by (unfold nrows; destruct (Z.eqb_spec (nchild h t) 0); [contradiction|reflexivity]).
    destruct (asm_U_spec t Ht Hnc Um Dm Hmid (iv_data v) b1 Dh Oo Ob1 M1 En) as (b2 & Uh & E2 & Ob2 & M1' & Nr & Nc & HU). rewrite E2. cbn [bind]. rewrite En in *.
    assert (Hlt : (dm_nrow (ub_m0 b2) <? dm_ncol (ub_m0 b2)) = false).
    { apply Z.ltb_ge. destruct (Z.ltb_spec 0 (level h t)); [destruct Nc as (_ & -> & _); rewrite Nr; apply Hr; lia|lia]. }
    rewrite Hlt. exists b2, Dh, Uh. split; [reflexivity|]. split; [exact Ob2|]. split; [exact Nr|]. split; [exact Nc|]. split; [exact M1'|].
    split.
    + intros k i j Hk Et. destruct (leaf_list h R) as (ls & Zls & Gls & _ & Ils). exfalso. apply Hnc. apply (proj1 (Ils t)). rewrite Et. apply (getz_In _ k). apply Gls. lia.
    + intros; contradiction.
    + intros k i j Hk Hi Hj. now apply Gd.
    + intros q k l i j Hk Hl Eq Hi Hj v0. now apply Go.
    + exact HU.
Qed.
End Asm.
