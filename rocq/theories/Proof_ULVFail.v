(** After a factorisation that cleared the flag, the row indices of the root are
    not there (NULL), and every solve dereferences them. *)
From Coq Require Import ZArith List Lia Bool Permutation.
From Verif Require Import Base Mem Num CRing Conc Model_Utils Model_Dense Model_Partition Spec_Tree Model_Matvec Spec_Matvec Proof_MvTree Spec_Lapack Model_ULV Spec_ULV Proof_ULVTree Proof_ULVMain.
Import ListNotations.
Open Scope Z_scope.

Section Fail.
Context {F : num} {K : cring}.
Variable la : lapack K.
Variable h : h2rep F K.
Hypothesis RO : rep_ok h.
Notation nn := (h_nnode h).

Ltac ib H :=
  match type of H with
  | bind ?e _ = Some _ => let E := fresh "E" in destruct e eqn:E; [cbn [bind] in H|discriminate H]
  | (if ?b then _ else _) = Some _ => let E := fresh "E" in destruct b eqn:E
  | (match ?p with pair _ _ => _ end) = Some _ => let E := fresh "E" in destruct p eqn:E
  end.

Lemma node_idx_kept chol getB getD shift lev tid node (s s' : @ulv K) : ulv_node la chol h getB getD shift lev tid node s = Some s' ->
  (u_ok s' = false -> u_idx s' = u_idx s) /\ forall j, j <> node -> getz (u_idx s') j = getz (u_idx s) j.
Proof.
  unfold ulv_node. intros H. destruct (u_ok s) eqn:Eo; cbn [negb] in H; [|injection H as <-; auto].
  ib H. ib H. ib H. ib H. rename u0 into b'. 
  assert (X : u_idx u1 = u_idx s).
  { clear H. rename E2 into H. repeat ib H; injection H as <-; reflexivity. }
  ib H; [injection H as <-; rewrite X; auto|]. repeat ib H. injection H as <-. cbn [u_ok u_idx]. split.
  - intros Hf. rewrite Hf in E3. discriminate E3.
  - intros j Hj. match goal with Hs : setz _ node _ = Some _ |- _ => rewrite (getz_setz _ _ _ _ j Hs) end. rewrite X. destruct (Z.eqb_spec node j); [congruence|reflexivity].
Qed.

Lemma run_partial {St} (P : St -> Prop) (l : list (act St)) : (forall a s s', In a l -> P s -> a s = Some s' -> P s') -> forall s s', P s -> run l s = Some s' -> P s'.
Proof.
  induction l as [|a l IH]; intros H s s' Ps E; cbn [run] in E.
  - injection E as <-. exact Ps.
  - destruct (a s) as [s1|] eqn:Ea; [|discriminate E]. cbn [bind] in E. apply (IH ltac:(intros b t t' Hb; apply H; right; exact Hb) s1 s'); auto. apply (H a s s1); auto. now left.
Qed.
Lemma run_dead {St} (a : act St) (l : list (act St)) : In a l -> (forall s, a s = None) -> forall s, run l s = None.
Proof.
  intros Hin Ha. induction l as [|b l IH]; [destruct Hin|]. intros s. cbn [run]. destruct Hin as [<-|Hin]; [rewrite Ha; reflexivity|].
  destruct (b s); cbn [bind]; auto.
Qed.

Lemma level0_one : ld (a_level_n (h_t h)) 0 = Some 1.
Proof.
  destruct (root_level h RO) as [Hr Hl]. pose proof (level_range h RO _ Hr). destruct (level_list h RO 0) as (ns & C & L & Nd & In_); [lia|]. rewrite C. f_equal.
  assert (A : forall x, In x ns -> x = nn - 1). { intros x Hx. apply In_ in Hx as [X1 X2]. now apply (level0_root h RO). }
  assert (Hin : In (nn - 1) ns) by (apply In_; auto). destruct ns as [|a ns]; [destruct Hin|]. inversion Nd; subst. destruct ns as [|b ns]; [reflexivity|].
  exfalso. apply H2. rewrite (A a) by now left. rewrite (A b) by (right; now left). now left.
Qed.
Lemma sched0 sched : sweep_ok h sched -> exists tid, sched 0 = [(tid, 0)].
Proof.
  intros Hs. destruct (root_level h RO) as [Hr Hl]. pose proof (level_range h RO _ Hr). destruct (Hs 0 1 ltac:(lia) level0_one) as [_ P].
  change (zrange 0 1) with [0] in P. pose proof (Permutation_length P) as Hlen. destruct (sched 0) as [|[tid j] [|]]; try discriminate Hlen.
  apply Permutation_sym, Permutation_length_1_inv in P. injection P as ->. eauto.
Qed.

Theorem failed_root chol getB getD shift sched tb u : sweep_ok h sched ->
  ulv_factorize la chol h getB getD shift sched tb = Some u -> u_ok u = false -> geto (u_idx u) (nn - 1) = None.
Proof.
  intros Hs E Hf. destruct (root_level h RO) as [Hr Hl]. pose proof (level_range h RO _ Hr) as Hm. unfold ulv_factorize in E. rewrite zfor_last in E by lia.
  pose (P := fun s : @ulv K => getz (u_idx s) (nn - 1) = Some None).
  assert (P0 : P (ulv_fresh h tb)). { unfold P, ulv_fresh. cbn [u_idx]. rewrite getz_arr by lia. reflexivity. }
  destruct (zfor 0 (h_maxlevel h) _ _) as [s1|] eqn:E1; [|discriminate E]. cbn [bind] in E.
  assert (P1 : P s1).
  { apply (zfor_inv_partial (fun _ => P) _ _ _ _ _ E1); auto; [lia|]. intros k s s' Hk Ps X. destruct (negb (u_ok s)); [injection X as <-; exact Ps|].
    unfold node_sweep in X. revert X. apply run_partial; auto. intros a t t' Ha Pt Ea. apply in_map_iff in Ha as ([tid j] & <- & Hj). cbn beta iota in Ea.
    destruct (ld (a_level_nodes (h_t h)) _) as [node|] eqn:En; [|discriminate Ea]. cbn [bind] in Ea. destruct (node_idx_kept _ _ _ _ _ _ _ _ _ Ea) as [_ Ko]. unfold P in *. rewrite Ko; auto.
    intros Heq. destruct (level_list h RO (h_maxlevel h - k)) as (ns & C & L & Nd & In_); [lia|]. destruct (Hs (h_maxlevel h - k) _ ltac:(lia) C) as [_ Pm].
    assert (Hjr : 0 <= j < zlen ns). { apply In_zrange. eapply Permutation_in; [exact Pm|]. apply in_map_iff. exists (tid, j). auto. }
    rewrite L in En by auto. apply getz_In in En. apply In_ in En as [_ Lv]. rewrite <- Heq, Hl in Lv. lia. }
  destruct (u_ok s1) eqn:O1; cbn [negb] in E.
  - unfold node_sweep in E. rewrite Z.sub_diag in E. destruct (sched0 sched Hs) as [tid Et]. rewrite Et in E. cbn [map run] in E. change (0 * h_nleaf h + 0) with 0 in E. rewrite (root_at h RO) in E. cbn [bind] in E.
    destruct (ulv_node _ _ _ _ _ _ _ _ _ _) as [s2|] eqn:En; [|discriminate E]. cbn [bind] in E. injection E as <-. destruct (node_idx_kept _ _ _ _ _ _ _ _ _ En) as [Ko _]. unfold geto. rewrite Ko by auto. unfold P in P1. rewrite P1. reflexivity.
  - injection E as <-. unfold geto. unfold P in P1. rewrite P1. reflexivity.
Qed.

Theorem solve_dead chol (u : @ulv K) op su sd px m0s b x : geto (u_idx u) (nn - 1) = None -> sweep_ok h su -> sweep_ok h sd -> 1 <= op <= 3 ->
  ulv_solve la chol h true (Some u) op su sd px m0s b x = None.
Proof.
  intros Hn Hu Hd Hop. destruct (root_level h RO) as [Hr Hl]. pose proof (level_range h RO _ Hr) as Hm.
  assert (Swp : forall sched (item : Z -> Z -> @svst K -> option (@svst K)), sweep_ok h sched -> (forall tid s, item tid (nn - 1) s = None) -> forall s, node_sweep h item (sched 0) 0 s = None).
  { intros sched item Hs Hi s. unfold node_sweep. destruct (sched0 sched Hs) as [tid Et]. rewrite Et. cbn [map run]. change (0 * h_nleaf h + 0) with 0. rewrite (root_at h RO). cbn [bind]. rewrite Hi. reflexivity. }
  assert (Up : forall s, (if chol then ch_up la h u su s else lu_up la h u su s) = None).
  { intros s. destruct chol.
    - unfold ch_up. destruct (zfor _ _ _ s) as [[p m]|]; [|reflexivity]. cbn [bind]. rewrite (root_at h RO). cbn [bind]. unfold ch_root_node. rewrite Hn. reflexivity.
    - unfold lu_up. rewrite zfor_last by lia. destruct (zfor _ _ _ s) as [s1|]; [|reflexivity]. cbn [bind]. rewrite Z.sub_diag. apply (Swp su); auto. intros tid [p m]. unfold lu_up_node. rewrite Hn. reflexivity. }
  assert (Down : forall s, (if chol then ch_down la h u sd s else lu_down la h u sd s) = None).
  { intros s. destruct chol.
    - unfold ch_down. rewrite (root_at h RO). cbn [bind]. destruct s as [p m]. unfold ch_root_node. rewrite Hn. reflexivity.
    - unfold lu_down. rewrite zfor_step by lia. rewrite (Swp sd); auto. intros tid [p m]. unfold lu_down_node. rewrite Hn. reflexivity. }
  unfold ulv_solve. cbn [negb]. destruct (Z.ltb_spec op 1), (Z.ltb_spec 3 op); try lia. cbn [orb]. destruct (gather_vector_elements _ _ _ _ _ _) as [p0|]; [|reflexivity]. cbn [bind].
  destruct (Z.land op 1 =? 0) eqn:E1.
  - cbn [bind]. destruct (Z.land op 2 =? 0) eqn:E2; [|now rewrite Down]. exfalso. assert (op = 1 \/ op = 2 \/ op = 3) as [->|[->| ->]] by lia; discriminate.
  - rewrite Up. reflexivity.
Qed.
End Fail.
