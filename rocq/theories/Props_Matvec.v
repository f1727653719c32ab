(** Properties C19, C20, C22, C30, C32: the matvec with stored blocks. *)
From Coq Require Import ZArith QArith List Lia Bool Permutation Ring.
From Verif Require Import Base Mem Num CRing Conc Model_Utils Spec_Utils Model_Dense Spec_Dense Model_Partition Spec_Tree Spec_Partition Model_Pairs Spec_Pairs
  Model_Matvec Spec_Matvec Proof_MvFwd Proof_MvTop Proof_MvCor Ex_Matvec Ex_MatvecZ.
Import ListNotations.
Open Scope Z_scope.

(** ** C19: the result is the H2 matrix described by the stored blocks times x.
    [Hmat] is in H2Pack's ordering; bwd[i] is the position of the user's row i
    there.  No element of y beyond the result is touched. *)
Theorem C19_matvec_applies_the_operator :
  forall (F : num) (K : cring) (h : h2rep F K) sc s (x y : mem K) (xf : Z -> K),
    rep_ok h -> schedule_ok h sc -> state_ok h s ->
    (forall j, 0 <= j < h_kms h -> ld x j = Some (xf j)) -> h_kms h <= zlen y ->
    exists s' y', matvec h sc s x y = Some (s', y') /\
      (forall i, 0 <= i < h_kms h ->
        ld y' i = Some (rsum 0 (h_kms h) (fun j => cmul (Hmat h (nthz (h_bwd h) i) (nthz (h_bwd h) j)) (xf j)))) /\
      (forall i, h_kms h <= i -> getz y' i = getz y i).
Proof.
  intros F K h sc s x y xf R Hs Hst Hx Hy. destruct (matvec_spec h R sc s x y xf Hs Hst Hx Hy) as (s' & y' & E & _ & _ & G & U). eauto.
Qed.
Print Assumptions C19_matvec_applies_the_operator.

(** ** C20: the result does not depend on the schedule, nor on the number of
    threads and the work blocks (BD_JIT == 0). *)
Definition with_threads {F K} (h : h2rep F K) (n : Z) (bblk d0blk d1blk : int_vec) : h2rep F K :=
  H2Rep (h_ptdim h) (h_npoint h) (h_kdim h) n (h_nnode h) (h_maxchild h) (h_nleaf h) (h_maxlevel h) (h_minlevel h) (h_kms h)
    (h_t h) (h_mcl h) (h_U h) (h_adm h) (h_inadm h) (h_nr h)
    (h_Bnrow h) (h_Bncol h) (h_Bptr h) (h_Bdata h) (h_Dnrow h) (h_Dncol h) (h_Dptr h) (h_Ddata h)
    bblk d0blk d1blk (h_fwd h) (h_bwd h).

Lemma basis_n_threads {F K} (h : h2rep F K) n b d0 d1 m : forall i p c,
  basis_n (with_threads h n b d0 d1) m i p c = basis_n h m i p c.
Proof.
  induction m as [|m IH]; intros i p c; [reflexivity|]. cbn [basis_n]. change (nchild (with_threads h n b d0 d1) i) with (nchild h i).
  destruct (nchild h i =? 0); [reflexivity|]. apply rsum_ext. intros k Hk. apply rsum_ext. intros d Hd.
  change (child (with_threads h n b d0 d1) i k) with (child h i k). now rewrite IH.
Qed.
Lemma Hmat_threads {F K} (h : h2rep F K) n b d0 d1 p q : Hmat (with_threads h n b d0 d1) p q = Hmat h p q.
Proof.
  unfold Hmat. f_equal. apply rsum_ext. intros k Hk. change (h_adm (with_threads h n b d0 d1)) with (h_adm h) in *.
  assert (A : forall p q, adm_block (with_threads h n b d0 d1) k p q = adm_block h k p q); [|now rewrite !A].
  clear. intros p q. unfold adm_block. change (h_adm (with_threads h n b d0 d1)) with (h_adm h). destruct (getz (h_adm h) k) as [[n0 n1]|]; auto.
  apply rsum_ext. intros r Hr. apply rsum_ext. intros c Hc. unfold side, basis. rewrite !basis_n_threads. reflexivity.
Qed.

Theorem C20_matvec_schedule_independent :
  forall (F : num) (K : cring) (h : h2rep F K) n bblk d0blk d1blk sc1 sc2 s1 s2 (x y1 y2 : mem K),
    rep_ok h -> rep_ok (with_threads h n bblk d0blk d1blk) ->
    schedule_ok h sc1 -> state_ok h s1 ->
    schedule_ok (with_threads h n bblk d0blk d1blk) sc2 -> state_ok (with_threads h n bblk d0blk d1blk) s2 ->
    (forall j, 0 <= j < h_kms h -> exists v, ld x j = Some v) -> h_kms h <= zlen y1 -> h_kms h <= zlen y2 ->
    exists s1' y1' s2' y2',
      matvec h sc1 s1 x y1 = Some (s1', y1') /\ matvec (with_threads h n bblk d0blk d1blk) sc2 s2 x y2 = Some (s2', y2') /\
      forall i, 0 <= i < h_kms h -> exists v, ld y1' i = Some v /\ ld y2' i = Some v.
Proof.
  intros F K h n b d0 d1 sc1 sc2 s1 s2 x y1 y2 R1 R2 H1 T1 H2 T2 Hx Y1 Y2.
  assert (Hx' : forall j, 0 <= j < h_kms h -> ld x j = Some (val c0 (ld x j))).
  { intros j Hj. destruct (Hx j Hj) as (v & ->). reflexivity. }
  destruct (matvec_spec h R1 sc1 s1 x y1 _ H1 T1 Hx' Y1) as (s1' & y1' & E1 & _ & _ & G1 & _).
  destruct (matvec_spec _ R2 sc2 s2 x y2 _ H2 T2 Hx' Y2) as (s2' & y2' & E2 & _ & _ & G2 & _).
  exists s1', y1', s2', y2'. split; auto. split; auto. intros i Hi. eexists. split; [apply G1; auto|].
  rewrite (G2 i Hi). f_equal. apply rsum_ext. intros j Hj. now rewrite Hmat_threads.
Qed.
Print Assumptions C20_matvec_schedule_independent.

(** ** C22: if every block is stored exactly and the kernel matrix is symmetric,
    the result is the kernel matrix times x, both in the user's ordering. *)
Theorem C22_exact_blocks_give_the_kernel_product :
  forall (F : num) (K : cring) (h : h2rep F K) (KM : Z -> Z -> K) sc s (x y : mem K) (xf : Z -> K),
    rep_ok h -> covered_once h -> blocks_exact h KM -> (forall i j, KM i j = KM j i) ->
    schedule_ok h sc -> state_ok h s ->
    (forall j, 0 <= j < h_kms h -> ld x j = Some (xf j)) -> h_kms h <= zlen y ->
    exists s' y', matvec h sc s x y = Some (s', y') /\
      forall i, 0 <= i < h_kms h -> ld y' i = Some (rsum 0 (h_kms h) (fun j => cmul (KM i j) (xf j))).
Proof.
  intros F K h KM sc s x y xf R Cov Ex Sym Hs Hst Hx Hy.
  destruct (matvec_spec h R sc s x y xf Hs Hst Hx Hy) as (s' & y' & E & _ & _ & G & _). exists s', y'. split; auto.
  intros i Hi. rewrite (G i Hi). f_equal. apply rsum_ext. intros j Hj. f_equal.
  destruct (ro_pmt _ R) as (_ & _ & P). destruct (P i Hi) as (_ & Pi & _ & Qi). destruct (P j Hj) as (_ & Pj & _ & Qj).
  rewrite (exact_Hmat h R KM) by auto. unfold KMp. now rewrite Qi, Qj.
Qed.
Print Assumptions C22_exact_blocks_give_the_kernel_product.

(** ** C30: the result does not depend on earlier calls. *)

(** A handle after some calls of H2P_matvec, each with its own vectors and
    schedule: at first y0 and y1 are NULL and the other buffers are allocated,
    with whatever contents. *)
Inductive after_calls {F K} (h : h2rep F K) : mvst K -> Prop :=
| calls_none s : s_y0 s = None -> s_y1 s = None ->
    zlen (s_ty s) = h_nthread h -> Forall (fun y => zlen y = h_kms h) (s_ty s) ->
    zlen (s_m0 s) = h_nthread h -> Forall dm_ok (s_m0 s) ->
    zlen (s_px s) = h_kms h -> zlen (s_py s) = h_kms h -> zlen (s_yT s) = h_kms h ->
    after_calls h s
| calls_more s sc x y s' y' : after_calls h s -> schedule_ok h sc ->
    (forall j, 0 <= j < h_kms h -> exists v, ld x j = Some v) -> h_kms h <= zlen y ->
    matvec h sc s x y = Some (s', y') -> after_calls h s'.

Lemma after_calls_ok {F K} (h : h2rep F K) s : rep_ok h -> after_calls h s -> state_ok h s.
Proof.
  intros R A. induction A as [s A1 A2 A3 A4 A5 A6 A7 A8 A9|s sc x y s' y' A IH Hs Hx Hy E].
  - constructor; auto; try lia; [rewrite A1|rewrite A2]; exact I.
  - assert (Hx' : forall j, 0 <= j < h_kms h -> ld x j = Some (val c0 (ld x j))).
    { intros j Hj. destruct (Hx j Hj) as (v & ->). reflexivity. }
    destruct (matvec_spec h R sc s x y _ Hs IH Hx' Hy) as (s2 & y2 & E2 & S2 & _). rewrite E in E2. now injection E2 as <- <-.
Qed.

Theorem C30_matvec_independent_of_history :
  forall (F : num) (K : cring) (h : h2rep F K) s1 s2 sc1 sc2 (x y1 y2 : mem K),
    rep_ok h -> after_calls h s1 -> after_calls h s2 -> schedule_ok h sc1 -> schedule_ok h sc2 ->
    (forall j, 0 <= j < h_kms h -> exists v, ld x j = Some v) -> h_kms h <= zlen y1 -> h_kms h <= zlen y2 ->
    exists s1' y1' s2' y2', matvec h sc1 s1 x y1 = Some (s1', y1') /\ matvec h sc2 s2 x y2 = Some (s2', y2') /\
      forall i, 0 <= i < h_kms h -> exists v, ld y1' i = Some v /\ ld y2' i = Some v.
Proof.
  intros F K h s1 s2 sc1 sc2 x y1 y2 R A1 A2 H1 H2 Hx Y1 Y2.
  apply (after_calls_ok h _ R) in A1. apply (after_calls_ok h _ R) in A2.
  assert (Hx' : forall j, 0 <= j < h_kms h -> ld x j = Some (val c0 (ld x j))).
  { intros j Hj. destruct (Hx j Hj) as (v & ->). reflexivity. }
  destruct (matvec_spec h R sc1 s1 x y1 _ H1 A1 Hx' Y1) as (s1' & y1' & E1 & _ & _ & G1 & _).
  destruct (matvec_spec h R sc2 s2 x y2 _ H2 A2 Hx' Y2) as (s2' & y2' & E2 & _ & _ & G2 & _).
  exists s1', y1', s2', y2'. split; auto. split; auto. intros i Hi. eexists. split; [apply G1; auto|]. exact (G2 i Hi).
Qed.
Print Assumptions C30_matvec_independent_of_history.

(** ** C32: linearity and symmetry *)
Section Linear.
Context {F : num} {K : cring}.
Local Open Scope ring_K.
Add Ring Kring : (cth K).

Lemma lin_sum (h : h2rep F K) i a b (uf vf : Z -> K) :
  rsum 0 (h_kms h) (fun j => Hmat h i (nthz (h_bwd h) j) * (a * uf j + b * vf j)) =
  a * rsum 0 (h_kms h) (fun j => Hmat h i (nthz (h_bwd h) j) * uf j) + b * rsum 0 (h_kms h) (fun j => Hmat h i (nthz (h_bwd h) j) * vf j).
Proof.
  rewrite <- !rsum_mul_l, <- rsum_add. apply rsum_ext. intros j Hj. ring.
Qed.
End Linear.

Theorem C32_matvec_linear :
  forall (F : num) (K : cring) (h : h2rep F K) sc1 sc2 sc3 s1 s2 s3 (u v w y1 y2 y3 : mem K) (uf vf : Z -> K) (a b : K),
    rep_ok h -> schedule_ok h sc1 -> schedule_ok h sc2 -> schedule_ok h sc3 ->
    state_ok h s1 -> state_ok h s2 -> state_ok h s3 ->
    (forall j, 0 <= j < h_kms h -> ld u j = Some (uf j)) ->
    (forall j, 0 <= j < h_kms h -> ld v j = Some (vf j)) ->
    (forall j, 0 <= j < h_kms h -> ld w j = Some (cadd (cmul a (uf j)) (cmul b (vf j)))) ->
    h_kms h <= zlen y1 -> h_kms h <= zlen y2 -> h_kms h <= zlen y3 ->
    exists s1' y1' s2' y2' s3' y3',
      matvec h sc1 s1 u y1 = Some (s1', y1') /\ matvec h sc2 s2 v y2 = Some (s2', y2') /\ matvec h sc3 s3 w y3 = Some (s3', y3') /\
      forall i, 0 <= i < h_kms h -> exists p q, ld y1' i = Some p /\ ld y2' i = Some q /\
        ld y3' i = Some (cadd (cmul a p) (cmul b q)).
Proof.
  intros F K h sc1 sc2 sc3 s1 s2 s3 u v w y1 y2 y3 uf vf a b R H1 H2 H3 T1 T2 T3 Hu Hv Hw Y1 Y2 Y3.
  destruct (matvec_spec h R sc1 s1 u y1 _ H1 T1 Hu Y1) as (s1' & y1' & E1 & _ & _ & G1 & _).
  destruct (matvec_spec h R sc2 s2 v y2 _ H2 T2 Hv Y2) as (s2' & y2' & E2 & _ & _ & G2 & _).
  destruct (matvec_spec h R sc3 s3 w y3 (fun j => cadd (cmul a (uf j)) (cmul b (vf j))) H3 T3 Hw Y3) as (s3' & y3' & E3 & _ & _ & G3 & _).
  exists s1', y1', s2', y2', s3', y3'. split; auto. split; auto. split; auto. intros i Hi. eexists _, _. split; [now apply G1|]. split; [now apply G2|].
  rewrite (G3 i Hi). f_equal. apply lin_sum.
Qed.
Print Assumptions C32_matvec_linear.

(** The diagonal blocks are symmetric. *)
Definition diag_symmetric {F K} (h : h2rep F K) : Prop := forall k r c, 0 <= k < h_nleaf h ->
  0 <= r < msize h (leaf h k) -> 0 <= c < msize h (leaf h k) -> Dval h k r c = Dval h k c r.

Theorem C32_matvec_symmetric :
  forall (F : num) (K : cring) (h : h2rep F K) sc1 sc2 s1 s2 (u v y1 y2 : mem K) (uf vf : Z -> K),
    rep_ok h -> diag_symmetric h -> schedule_ok h sc1 -> schedule_ok h sc2 -> state_ok h s1 -> state_ok h s2 ->
    (forall j, 0 <= j < h_kms h -> ld u j = Some (uf j)) ->
    (forall j, 0 <= j < h_kms h -> ld v j = Some (vf j)) ->
    h_kms h <= zlen y1 -> h_kms h <= zlen y2 ->
    exists s1' y1' s2' y2' (Hu Hv : Z -> K),
      matvec h sc1 s1 u y1 = Some (s1', y1') /\ matvec h sc2 s2 v y2 = Some (s2', y2') /\
      (forall i, 0 <= i < h_kms h -> ld y1' i = Some (Hu i) /\ ld y2' i = Some (Hv i)) /\
      rsum 0 (h_kms h) (fun i => cmul (uf i) (Hv i)) = rsum 0 (h_kms h) (fun i => cmul (Hu i) (vf i)).
Proof.
  intros F K h sc1 sc2 s1 s2 u v y1 y2 uf vf R DS H1 H2 T1 T2 Xu Xv Y1 Y2.
  destruct (matvec_spec h R sc1 s1 u y1 _ H1 T1 Xu Y1) as (s1' & y1' & E1 & _ & _ & G1 & _).
  destruct (matvec_spec h R sc2 s2 v y2 _ H2 T2 Xv Y2) as (s2' & y2' & E2 & _ & _ & G2 & _).
  exists s1', y1', s2', y2'. eexists _, _. split; [exact E1|]. split; [exact E2|]. split; [intros i Hi; split; [apply G1|apply G2]; auto|].
  cbv beta.
  rewrite (rsum_ext 0 (h_kms h) (fun i => cmul (uf i) (rsum 0 (h_kms h) (fun j => cmul (Hmat h (nthz (h_bwd h) i) (nthz (h_bwd h) j)) (vf j))))
    (fun i => rsum 0 (h_kms h) (fun j => cmul (uf i) (cmul (Hmat h (nthz (h_bwd h) i) (nthz (h_bwd h) j)) (vf j)))))
    by (intros; now rewrite rsum_mul_l).
  rewrite rsum_swap. apply rsum_ext. intros j Hj. rewrite <- rsum_mul_r. apply rsum_ext. intros i Hi.
  rewrite (Hmat_sym h (nthz (h_bwd h) i)) by auto.
  pose proof (cth K) as [_ _ _ _ Mc Ma _ _ _]. rewrite Ma. f_equal. apply Mc.
Qed.
Print Assumptions C32_matvec_symmetric.

(** ** The hypotheses can be met *)

Definition x5 : mem Zring := map Some [1; -2; 3; 5; 7].
Lemma x5_val j : 0 <= j < h_kms rep5 -> ld x5 j = Some (nthz [1; -2; 3; 5; 7] j : Zring).
Proof. intros Hj. change (h_kms rep5) with 5 in Hj. cases_below 5%nat Hj; reflexivity. Qed.

(** Two threads, the first call, an unordered schedule: the kernel matrix times x. *)
Example C22_instance : exists s' y', matvec rep5 sched5 fresh5 x5 (alloc 5) = Some (s', y') /\
  forall i, 0 <= i < 5 -> ld y' i = Some (rsum 0 5 (fun j => cmul (KM5 i j) (nthz [1; -2; 3; 5; 7] j)) : Zring).
Proof.
  exact (C22_exact_blocks_give_the_kernel_product Qred_num Zring rep5 KM5 sched5 fresh5 x5 (alloc 5) _
    rep5_ok covered5 exact5 KM5_sym sched5_ok fresh5_ok x5_val ltac:(vm_compute; discriminate)).
Qed.
Definition vals {A} (o : option (mvst Zring * A)) : option A := match o with Some (_, y) => Some y | None => None end.
Example C19_result : vals (matvec rep5 sched5 fresh5 x5 (alloc 7)) = Some (map Some [116; 58; 290; 174; 232] ++ [None; None]).
Proof. vm_compute. reflexivity. Qed.
(** The same rows by hand: u = (2, 1, 5, 3, 4) in the user's ordering, u.x = 2 - 2 + 15 + 15 + 28. *)
Example C19_result_is_product : map (fun i => rsum 0 5 (fun j => cmul (KM5 i j) (nthz [1; -2; 3; 5; 7] j)) : Zring) (zrange 0 5) = map (Z.mul 58) [2; 1; 5; 3; 4].
Proof. vm_compute. reflexivity. Qed.

(** One thread instead of two. *)
Definition rep5s : h2rep Qred_num Zring := with_threads rep5 1 (iv1 [0; 5]) (iv1 [0; 5]) (iv1 [0; 4]).
Definition fresh5s : mvst Zring := MvSt None None [alloc 5] [dm_init 0 0] (alloc 5) (alloc 5) (alloc 5).
Definition levq5 (i : Z) : list (Z * Z) := if i =? 2 then [(0, 0); (0, 1); (0, 2); (0, 3)] else [(0, 0); (0, 1)].
Definition sched5s : schedule := {|
  sc_fwd := levq5; sc_team := [0]; sc_mid := map (fun i => (0, i)) (zrange 0 5); sc_sum := map (fun i => (0, i)) (zrange 0 9);
  sc_bwd := levq5; sc_den := map (fun i => (0, (false, i))) (zrange 0 5) ++ map (fun i => (0, (true, i))) (zrange 0 4); sc_red := [0] |}.
Lemma rep5s_ok : rep_ok rep5s.
Proof.
  destruct rep5_ok as [(A1 & A2 & A3 & A4) B C D E G H I J L M N O P]. constructor.
  - split; [exact A1|]. split; [exact A2|]. split; [cbn; lia|exact A4].
  - exact B. - exact C. - exact D. - exact E. - exact G. - exact H.
  - apply blocks1; try reflexivity. vm_compute. congruence.
  - exact J. - exact L. - exact M.
  - apply blocks1; try reflexivity. vm_compute. congruence.
  - apply blocks1; try reflexivity. vm_compute. congruence.
  - exact P.
Qed.
Lemma sched5s_ok : schedule_ok rep5s sched5s.
Proof.
  constructor.
  - intros i n Hi En. change (h_minlevel rep5s) with 2 in Hi. change (h_maxlevel rep5s) with 3 in Hi. assert (i = 2 \/ i = 3) as [-> | ->] by lia; vm_compute in En; injection En as <-; apply omp_for_check; reflexivity.
  - apply zperm_ok. reflexivity.
  - exists [[0]]. split; [reflexivity|]. apply (weave_inter [0; 0; 0; 0; 0]%nat). reflexivity.
  - apply omp_for_check. reflexivity.
  - intros i n Hi En. change (h_minlevel rep5s) with 2 in Hi. change (h_maxlevel rep5s) with 3 in Hi. assert (i = 2 \/ i = 3) as [-> | ->] by lia; vm_compute in En; injection En as <-; apply omp_for_check; reflexivity.
  - exists [[0]], [[0]]. split; [reflexivity|]. split; [reflexivity|]. apply (weave_inter [0; 0; 0; 0; 0; 0; 0; 0; 0]%nat). reflexivity.
  - apply zperm_ok. reflexivity.
Qed.
Lemma fresh5s_ok : state_ok rep5s fresh5s.
Proof. constructor; cbn; try (vm_compute; discriminate); auto; split; auto; repeat constructor. Qed.
Example C20_instance : exists s1' y1' s2' y2',
  matvec rep5 sched5 fresh5 x5 (alloc 5) = Some (s1', y1') /\ matvec rep5s sched5s fresh5s x5 (alloc 5) = Some (s2', y2') /\
  forall i, 0 <= i < 5 -> exists v, ld y1' i = Some v /\ ld y2' i = Some v.
Proof.
  refine (C20_matvec_schedule_independent Qred_num Zring rep5 1 (iv1 [0; 5]) (iv1 [0; 5]) (iv1 [0; 4]) sched5 sched5s fresh5 fresh5s x5 (alloc 5) (alloc 5)
    rep5_ok rep5s_ok sched5_ok fresh5_ok sched5s_ok fresh5s_ok _ _ _); try (vm_compute; discriminate).
  intros j Hj. eexists. now apply x5_val.
Qed.

Lemma fresh5_calls : after_calls rep5 fresh5.
Proof. apply calls_none; try reflexivity; repeat constructor. Qed.
(** Buffers left by an earlier call with another vector and schedule. *)
Example C30_instance : exists s1, after_calls rep5 s1 /\ s_y0 s1 <> None /\
  vals (matvec rep5 sched5 s1 x5 (alloc 5)) = vals (matvec rep5 sched5 fresh5 x5 (alloc 5)).
Proof.
  destruct (matvec rep5 sched5' fresh5 (map Some [9; 9; 4; -3; 2]) (alloc 5)) as [[s1 y1]|] eqn:E; [|vm_compute in E; discriminate].
  exists s1. split; [|split].
  - eapply calls_more; [exact fresh5_calls|exact sched5'_ok| | |exact E]; [|vm_compute; discriminate].
    intros j Hj. change (h_kms rep5) with 5 in Hj. cases_below 5%nat Hj; eexists; reflexivity.
  - vm_compute in E. injection E as <- _. discriminate.
  - vm_compute in E. injection E as <- _. vm_compute. reflexivity.
Qed.

Example C32_instance : diag_symmetric rep5.
Proof.
  intros k r c Hk Hr Hc. change (h_nleaf rep5) with 5 in Hk.
  cases_below 5%nat Hk; vm_compute in Hr; vm_compute in Hc; destruct Hr as [Hr1 Hr2], Hc as [Hc1 Hc2];
    destruct r as [|r|r], c as [|c|c]; try reflexivity; try (destruct r; discriminate); try (destruct c; discriminate); exfalso; auto.
Qed.

(** ** Defects *)

(** The region in init_y1 uses OpenMP's current default number of threads, not
    the number given to the handle: with fewer threads uninitialised cells are
    read, with more, cells outside the array are written.  (Every other choice is
    as required.) *)
Definition with_team (sc : schedule) (team : list Z) : schedule :=
  Sched (sc_fwd sc) team (sc_mid sc) (sc_sum sc) (sc_bwd sc) (sc_den sc) (sc_red sc).
Theorem C20_default_team_refuted :
  exists (h : h2rep Qred_num Zring) sc s x, rep_ok h /\ schedule_ok h sc /\ state_ok h s /\
    (forall j, 0 <= j < h_kms h -> exists v, ld x j = Some v) /\
    matvec h (with_team sc (zrange 0 (h_nthread h - 1))) s x (alloc (h_kms h)) = None /\
    matvec h (with_team sc (zrange 0 (h_nthread h + 1))) s x (alloc (h_kms h)) = None.
Proof.
  exists rep5, sched5, fresh5, x5. split; [exact rep5_ok|]. split; [exact sched5_ok|]. split; [exact fresh5_ok|].
  split; [intros j Hj; eexists; now apply x5_val|]. split; vm_compute; reflexivity.
Qed.
Print Assumptions C20_default_team_refuted.

(** A node of rank zero (empty skeleton): the first call reads uninitialised
    memory, because gemv with a zero dimension leaves its output as it is even
    with beta = 0 ... *)
Lemma sched5z_ok : schedule_ok rep5z sched5.
Proof.
  constructor.
  - exact (so_fwd _ _ sched5_ok). - exact (so_team _ _ sched5_ok). - exact (so_mid _ _ sched5_ok). - exact (so_sum _ _ sched5_ok).
  - exact (so_bwd _ _ sched5_ok). - exact (so_den _ _ sched5_ok). - exact (so_red _ _ sched5_ok).
Qed.
Lemma fresh5z_ok : state_ok rep5z fresh5.
Proof. constructor; cbn; try (vm_compute; discriminate); auto; split; auto; repeat constructor. Qed.
Theorem C19_rank_zero_refuted :
  exists (h : h2rep Qred_num Zring) sc s x, rep_ok_rank 0 h /\ schedule_ok h sc /\ state_ok h s /\
    s_y0 s = None /\ s_y1 s = None /\
    (forall j, 0 <= j < h_kms h -> exists v, ld x j = Some v) /\
    matvec h sc s x (alloc (h_kms h)) = None.
Proof.
  exists rep5z, sched5, fresh5, x5. split; [exact rep5z_ok|]. split; [exact sched5z_ok|]. split; [exact fresh5z_ok|].
  split; [reflexivity|]. split; [reflexivity|]. split; [intros j Hj; eexists; now apply x5_val|]. vm_compute. reflexivity.
Qed.
Print Assumptions C19_rank_zero_refuted.

(** ... and if the memory happens to hold numbers, a second identical call gives a
    different result. *)
Definition warm5 : mvst Zring := MvSt (Some (map (fun _ => mkDM 1 1 1 2 [Some 0; Some 0] : dmat Zring) (zrange 0 9))) None [alloc 5; alloc 5] [dm_init 0 0; dm_init 0 0] (alloc 5) (alloc 5) (alloc 5).
Lemma warm5_ok : state_ok rep5z warm5.
Proof. constructor; cbn; try (vm_compute; discriminate); auto; try (split; auto; repeat constructor). Qed.
Theorem C30_rank_zero_refuted :
  exists (h : h2rep Qred_num Zring) sc s x s1 y1 s2 y2, rep_ok_rank 0 h /\ schedule_ok h sc /\ state_ok h s /\
    (forall j, 0 <= j < h_kms h -> exists v, ld x j = Some v) /\
    matvec h sc s x (alloc (h_kms h)) = Some (s1, y1) /\ matvec h sc s1 x (alloc (h_kms h)) = Some (s2, y2) /\ ld y1 1 <> ld y2 1.
Proof.
  destruct (matvec rep5z sched5 warm5 x5 (alloc 5)) as [[s1 y1]|] eqn:E1; [|vm_compute in E1; discriminate].
  destruct (matvec rep5z sched5 s1 x5 (alloc 5)) as [[s2 y2]|] eqn:E2.
  - exists rep5z, sched5, warm5, x5, s1, y1, s2, y2. split; [exact rep5z_ok|]. split; [exact sched5z_ok|]. split; [exact warm5_ok|].
    split; [intros j Hj; eexists; now apply x5_val|]. split; [exact E1|]. split; [exact E2|].
    vm_compute in E1. injection E1 as <- <-. vm_compute in E2. injection E2 as _ <-. vm_compute. congruence.
  - vm_compute in E1. injection E1 as <- <-. vm_compute in E2. discriminate.
Qed.
Print Assumptions C30_rank_zero_refuted.
