(** Inputs on which storing or reading goes wrong. *)
From Coq Require Import ZArith QArith List Lia Bool Permutation Sorted.
From Verif Require Import Base Mem Num CRing Conc Model_Utils Spec_Utils Proof_Utils Model_Dense Spec_Dense Model_Partition Spec_Tree Spec_Partition
  Model_Pairs Model_Matvec Spec_Matvec Proof_MvTree Model_Build Spec_Build Proof_Build Model_FileIO Proof_FileIO Proof_FileRead Proof_FileRead2 Proof_FileRead3 Proof_FileUse.
Import ListNotations.
Open Scope Z_scope.

Lemma zfor_none {St} lo hi (body : Z -> St -> option St) s k : lo <= k < hi -> (forall t, body k t = None) -> zfor lo hi body s = None.
Proof.
  intros Hk Hb. rewrite (zfor_split lo k hi) by lia. destruct (zfor lo k body s) as [s1|]; cbn [bind]; auto. rewrite zfor_step by lia. now rewrite Hb.
Qed.
Lemma push_len v x v' : iv_push_back v x = Some v' -> iv_len v' = iv_len v + 1.
Proof.
  unfold iv_push_back. intros H. destruct (if _ : bool then _ else _) as [v1|] eqn:E1; [cbn [bind] in H|discriminate]. destruct (st _ _ _); [cbn [bind] in H|discriminate]. injection H as <-. cbn [iv_len].
  destruct (iv_cap v =? iv_len v); [|injection E1 as <-; reflexivity]. unfold iv_set_capacity in E1.
  destruct (iv_cap v <? iv_cap v * 2); [|injection E1 as <-; reflexivity].
  destruct (mcpy _ _ _ _ _); [cbn [bind] in E1|discriminate]. injection E1 as <-. reflexivity.
Qed.

Section Bad.
Context {F : num} {K : cring}.

Lemma box_size dim npoint (coord : mem F) box : 0 <= dim -> calc_enclosing_box dim npoint coord = Some box -> zlen box = 2 * dim.
Proof.
  intros Hd H. unfold calc_enclosing_box in H. destruct (mapz _ _ _) as [ce|]; [cbn [bind] in H|discriminate]. destruct (zfor 0 dim _ (nlit 0%Q)) as [ra|]; [cbn [bind] in H|discriminate].
  apply (zfor_inv_partial (fun _ (b : mem F) => zlen b = 2 * dim)) in H; auto; [rewrite zlen_alloc; lia|].
  intros k b b' Hk Hz E. destruct (getz ce k); [cbn [bind] in E|discriminate]. destruct (st b k _) as [b1|] eqn:E1; [cbn [bind] in E|discriminate]. apply st_zlen in E, E1. congruence.
Qed.
Lemma check_outside (box : mem F) o0 o1 dim alpha : 1 <= dim -> zlen box = 2 * dim -> 2 * dim <= o0 -> check_box_admissible box o0 box o1 dim alpha = None.
Proof.
  intros Hd Hz Ho. unfold check_box_admissible. rewrite zfor_step by lia.
  assert (E : ld box (o0 + (dim + 0)) = None) by (destruct (ld box (o0 + (dim + 0))) eqn:G; auto; apply ld_range in G; lia). rewrite E. reflexivity.
Qed.

Lemma inadm_lists_outside dim nnode nleaf maxlevel (leaves level ln lns : mem Z) (box : mem F) n : 1 <= dim -> zlen box = 2 * dim -> 1 <= n ->
  (exists l m k, 0 <= l <= maxlevel /\ ld ln l = Some m /\ 0 <= k < m /\ ld lns (l * nleaf + k) = Some n) ->
  calc_node_inadm_lists dim nnode nleaf maxlevel 0 leaves level ln lns box = None.
Proof.
  intros Hd Hz Hn (l & m & k & Hl & Em & Hk & En). unfold calc_node_inadm_lists. destruct (zfor 0 nnode _ _) as [cnt|]; [cbn [bind]|reflexivity].
  match goal with |- context [zfor 0 (maxlevel - 0 + 1) ?b ?s] => rewrite (zfor_none 0 (maxlevel - 0 + 1) b s (maxlevel - l)); [reflexivity|lia|] end.
  intros ((tl & ls) & ct). replace (maxlevel - (maxlevel - l)) with l by lia. rewrite Em. cbn [bind].
  destruct (zfor 0 m _ (mkIV (iv_cap tl) 0 (iv_data tl))) as [t1|] eqn:E1; [cbn [bind]|reflexivity].
  apply (zfor_inv_partial (fun j (v : int_vec) => iv_len v = j)) in E1; [|lia|reflexivity|intros j v v' Hj Hv E; destruct (ld lns (l * nleaf + j)); [cbn [bind] in E|discriminate]; apply push_len in E; lia].
  destruct (zfor 0 nleaf _ t1) as [t2|] eqn:E2; [cbn [bind]|reflexivity].
  assert (H2 : m <= iv_len t2).
  { destruct (Z.le_gt_cases 0 nleaf) as [Hnl|Hnl]; [|rewrite zfor_empty in E2 by lia; injection E2 as <-; lia].
    apply (zfor_inv_partial (fun _ (v : int_vec) => m <= iv_len v)) in E2; auto; [lia|]. intros j v v' Hj Hv E. destruct (ld leaves j) as [lf|]; [cbn [bind] in E|discriminate]. destruct (ld level lf) as [lv|]; [cbn [bind] in E|discriminate].
    destruct (lv <? l); [apply push_len in E; lia|injection E as <-; auto]. }
  match goal with |- context [zfor 0 m ?b ?s] => rewrite (zfor_none 0 m b s k); [reflexivity|lia|] end.
  intros (ls' & ct'). rewrite En. cbn [bind]. rewrite zfor_step by lia. destruct (ld (iv_data t2) 0); [cbn [bind]|reflexivity]. rewrite check_outside; auto. nia.
Qed.

(** Step 13 fails whenever the tree has two nodes. *)
Lemma step_13_fails (h : h2rep F K) f js uc pi nth r tol : rep_ok h -> contents h f js uc pi nth r tol -> 2 <= h_nnode h -> read_step_13 r = None.
Proof.
  intros R C Hn. destruct (c_dims _ _ _ _ _ _ _ _ C) as (E1 & E2 & E3 & E4 & E5 & E6 & E7 & E8 & E9 & E10). destruct (c_scal _ _ _ _ _ _ _ _ C) as (S1 & _). destruct (ro_dims _ R) as (D1 & _).
  unfold read_step_13. rewrite S1, E1, E2, E5, E7, E8. destruct (calc_enclosing_box (h_ptdim h) (h_npoint h) (rf_coord r)) as [box|] eqn:Eb; [cbn [bind]|reflexivity]. apply box_size in Eb; [|lia]. change (0 =? 0) with true. cbv iota.
  rewrite (inadm_lists_outside _ _ _ _ _ _ _ _ box 1); auto; [lia|].
  destruct (level_range h R 1 ltac:(lia)) as (L1 & L2). destruct (c_levels _ _ _ _ _ _ _ _ C (level h 1) ltac:(lia)) as (ns & N1 & N2 & N3 & N4 & _).
  destruct (cells h f js uc pi R nth r tol C 1 ltac:(lia)) as (_ & _ & Q & _). change (a_level (tfix h r)) with (a_level (h_t (rf_h r))) in Q.
  assert (Hin : In 1 ns) by (apply N4; split; [lia|]; rewrite Q; apply ld_level; auto; lia). apply In_getz in Hin as (k & Hk). exists (level h 1), (zlen ns), k. pose proof (getz_range _ _ _ Hk). rewrite N1, N3 by auto. repeat split; auto; lia.
Qed.

End Bad.
