(** Every parallel phase has a schedule: the hypotheses [schedule_ok] and
    [build_sched_ok] can always be met. *)
From Coq Require Import ZArith QArith List Lia Bool Permutation.
From Verif Require Import Base Mem Num CRing Conc Model_Utils Spec_Utils Model_Dense Spec_Dense Model_Partition Spec_Tree
  Model_Pairs Spec_Pairs Model_Matvec Spec_Matvec Model_Build Spec_Build.
Import ListNotations.
Open Scope Z_scope.

Lemma inter_concat_pre {A} (ths : list (list A)) : forall pre, Forall (fun t => t = []) pre -> inter (pre ++ ths) (concat ths).
Proof.
  induction ths as [|t ths IH]; intros pre Hp; cbn [concat]; [rewrite app_nil_r; now constructor|].
  induction t as [|a t IHt]; cbn [app].
  - specialize (IH (pre ++ [[]])). rewrite <- app_assoc in IH. apply IH. apply Forall_app. split; auto.
  - constructor. exact IHt.
Qed.
Lemma inter_concat {A} (ths : list (list A)) : inter ths (concat ths).
Proof. apply (inter_concat_pre ths []). constructor. Qed.

Lemma omp_for_exists nth n : (0 < n -> 1 <= nth) -> omp_for nth n (map (fun i => (0, i)) (zrange 0 n)).
Proof.
  intros H. split.
  - apply Forall_forall. intros ev He. apply in_map_iff in He as (i & <- & Hi). apply In_zrange in Hi. cbn [fst]. lia.
  - rewrite map_map. cbn [snd]. rewrite map_id. apply Permutation_refl.
Qed.

Lemma block_assignment_exists nth nblk : 1 <= nth -> exists a, block_assignment nth nblk a.
Proof.
  intros H. unfold block_assignment. destruct (nblk <=? nth); [eexists; reflexivity|].
  exists (zrange 0 nblk :: map (fun _ => []) (zrange 1 nth)). split.
  - unfold zlen. cbn [length]. rewrite map_length. pose proof (zlen_zrange 1 nth H) as Q. unfold zlen in Q. lia.
  - cbn [concat]. rewrite concat_nils; [now rewrite app_nil_r|]. apply Forall_forall. intros l Hl. apply in_map_iff in Hl as (i & <- & _). reflexivity.
Qed.

Theorem schedule_exists {F : num} {K : cring} (h : h2rep F K) : 1 <= h_nthread h -> exists sc, schedule_ok h sc.
Proof.
  intros Ht.
  destruct (block_assignment_exists (h_nthread h) (iv_len (h_Bblk h) - 1) Ht) as (aB & HB).
  destruct (block_assignment_exists (h_nthread h) (iv_len (h_D0blk h) - 1) Ht) as (a0 & H0).
  destruct (block_assignment_exists (h_nthread h) (iv_len (h_D1blk h) - 1) Ht) as (a1 & H1).
  set (lv := fun i => map (fun k => (0, k)) (zrange 0 (val 0 (ld (a_level_n (h_t h)) i)))).
  assert (L : forall i n, ld (a_level_n (h_t h)) i = Some n -> omp_for (Z.min n (h_nthread h)) n (lv i)).
  { intros i n E. unfold lv. rewrite E. cbn [val]. apply omp_for_exists. lia. }
  eexists {| sc_fwd := lv; sc_team := zrange 0 (h_nthread h); sc_mid := _; sc_sum := map (fun i => (0, i)) (zrange 0 (h_nnode h)); sc_bwd := lv; sc_den := _; sc_red := zrange 0 (h_nthread h) |}.
  constructor; cbn [sc_fwd sc_team sc_mid sc_sum sc_bwd sc_den sc_red].
  - intros. now apply L.
  - apply Permutation_refl.
  - exists aB. split; [exact HB|apply inter_concat].
  - apply omp_for_exists. lia.
  - intros. now apply L.
  - exists a0, a1. split; [exact H0|]. split; [exact H1|apply inter_concat].
  - apply Permutation_refl.
Qed.

Theorem state_exists {F : num} {K : cring} (h : h2rep F K) : 0 <= h_nthread h -> 0 <= h_kms h -> exists s, state_ok h s.
Proof.
  intros Ht Hk. exists (MvSt None None (arr (h_nthread h) (alloc (h_kms h))) (arr (h_nthread h) (dm_init 0 0)) (alloc (h_kms h)) (alloc (h_kms h)) (alloc (h_kms h))).
  assert (FA : forall A (x : A) n, Forall (fun y => y = x) (arr n x)) by (intros; apply Forall_forall; intros y Hy; unfold arr in Hy; apply repeat_spec in Hy; auto).
  constructor; cbn [s_y0 s_y1 s_ty s_m0 s_px s_py s_yT mats_ok mats_mok]; auto; try (rewrite zlen_alloc; lia).
  - split; [apply zlen_arr; lia|]. eapply Forall_impl; [|apply FA]. intros y ->. apply zlen_alloc; lia.
  - split; [apply zlen_arr; lia|]. eapply Forall_impl; [|apply FA]. intros y ->. reflexivity.
Qed.

Theorem build_sched_exists {F : num} kdim n_thread (t : tree_result F) (ps : pairs) J blkB blkD0 blkD1 :
  exists sc, build_sched_ok kdim n_thread t ps J blkB blkD0 blkD1 sc.
Proof.
  set (o := zrange 0 (r_n_node t)).
  set (B := gen_B_metadata kdim (r_n_node t) n_thread 1 false (a_level (r_arrays t)) (a_cluster (r_arrays t)) J (ps_adm ps) o blkB).
  set (D := gen_D_metadata kdim (r_n_node t) (r_n_leaf t) n_thread 1 false (a_height_nodes (r_arrays t)) (a_cluster (r_arrays t)) (ps_inadm ps) o blkD0 blkD1).
  exists (BSched o o
    (match B with Some (_, _, v) => concat (thread_items v (map (own_block (iv_len v - 1)) (zrange 0 n_thread))) | None => [] end)
    (match D with Some (_, v0, v1) => concat (map (fun '(l0, l1) => map (fun '(t, i) => (t, (false, i))) l0 ++ map (fun '(t, i) => (t, (true, i))) l1)
           (combine (thread_items v0 (map (own_block (iv_len v0 - 1)) (zrange 0 n_thread)))
                    (thread_items v1 (map (own_block (iv_len v1 - 1)) (zrange 0 n_thread))))) | None => [] end)).
  constructor; cbn [bs_ordB bs_ordD bs_evB bs_evD]; try apply Permutation_refl.
  - intros m nr v E. unfold B. rewrite E. apply inter_concat.
  - intros m v0 v1 E. unfold D. rewrite E. apply inter_concat.
Qed.
