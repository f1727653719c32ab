(** A concrete representation, used to show that the hypotheses of the matvec
    theorems can be met: five points on a line, tree and pairs as computed by
    the model of the partitioning, three levels, pairs on equal and on different
    levels, a transfer matrix, two threads.  The kernel matrix has rank one, so
    that the compression is exact. *)
From Coq Require Import ZArith QArith List Lia Bool Permutation.
From Verif Require Import Base Mem Num CRing Conc Model_Utils Spec_Utils Model_Dense Spec_Dense Model_Partition Spec_Tree Spec_Partition Model_Pairs Spec_Pairs Proof_PairsTop Props_Pairs Model_Matvec Spec_Matvec.
Import ListNotations.
Open Scope Z_scope.

Definition pts5 : mem Qred_num := map Some ([0; 3#8; 5#8; 13#16; 1])%Q.
Definition tree5 : tree_result Qred_num :=
  Eval vm_compute in match build_tree 6 (fun _ => (1#3)%Q : Qred_num) 1 1 5 pts5 1 (0%Q : Qred_num) None with
                     | Some (Some t) => t
                     | _ => TRes [] [] 0 0 0 (TArr [] [] [] [] [] [] [] [] [] [] []) end.
Lemma tree5_built : build_tree 6 (fun _ => (1#3)%Q : Qred_num) 1 1 5 pts5 1 (0%Q : Qred_num) None = Some (Some tree5).
Proof. vm_compute. reflexivity. Qed.
Lemma pts5_ok : points_ok 1 1 5 pts5 None.
Proof.
  split; [lia|]. split; [lia|]. split; [|exact I]. split; [reflexivity|]. intros k Hk.
  assert (k = 0 \/ k = 1 \/ k = 2 \/ k = 3 \/ k = 4) by lia.
  repeat (destruct H as [->|H]; [eexists; reflexivity|]). subst. eexists; reflexivity.
Qed.
Lemma pairs5 : calc_reduced_adm_pairs 18 1 ALPHA_H2 0 (r_n_node tree5) (r_max_level tree5) (r_arrays tree5) =
  Some (Pairs [(3, 6); (0, 5); (0, 6); (1, 4); (1, 6)] [(0, 1); (3, 4); (4, 6); (1, 3)] 2).
Proof. vm_compute. reflexivity. Qed.

Definition dm1 (r c : Z) (l : list Z) : dmat Zring := mkDM r c c (zlen l) (map Some l : mem Zring).
Definition iv1 (l : list Z) : int_vec := mkIV (zlen l) (zlen l) (map Some l).
Definition rep5 : h2rep Qred_num Zring := {|
  h_ptdim := 1; h_npoint := 5; h_kdim := 1; h_nthread := 2; h_nnode := 9; h_maxchild := 2; h_nleaf := 5;
  h_maxlevel := 3; h_minlevel := 2; h_kms := 5;
  h_t := r_arrays tree5;
  h_mcl := map Some [0;0; 1;1; 0;1; 2;2; 3;3; 2;3; 4;4; 2;4; 0;4];
  h_U := [dm1 1 1 [1]; dm1 1 1 [2]; dm1 0 0 []; dm1 1 1 [3]; dm1 1 1 [4]; dm1 2 1 [1;1]; dm1 1 1 [5]; dm1 0 0 []; dm1 0 0 []];
  h_adm := [(3, 6); (0, 5); (0, 6); (1, 4); (1, 6)]; h_inadm := [(0, 1); (3, 4); (4, 6); (1, 3)];
  h_nr := map Some [2; 2; 0; 1; 1; 1; 3; 0; 0];
  h_Bnrow := map Some [1;1;1;1;1]; h_Bncol := map Some [1;1;1;1;1]; h_Bptr := map Some [0;1;2;3;4;5];
  h_Bdata := (map Some [5;1;1;2;1] : mem Zring);
  h_Dnrow := map Some [1;1;1;1;1;1;1;1;1]; h_Dncol := map Some [1;1;1;1;1;1;1;1;1]; h_Dptr := map Some [0;1;2;3;4;5;6;7;8;9];
  h_Ddata := (map Some [1;4;9;16;25;2;12;20;6] : mem Zring);
  h_Bblk := iv1 [0;3;5]; h_D0blk := iv1 [0;3;5]; h_D1blk := iv1 [0;2;4];
  h_fwd := [1;0;3;4;2]; h_bwd := [1;0;4;2;3]
|}.

Ltac cases_below n H :=
  match n with
  | O => exfalso; lia
  | S ?m => let H' := fresh in
      lazymatch type of H with ?a <= ?i < _ =>
        destruct (Z.eq_dec i (Z.of_nat m)) as [H'|H']; [rewrite H' in *; clear H'; cbn [Z.of_nat Pos.of_succ_nat Pos.succ] in *|
          let H2 := fresh in assert (H2 : 0 <= i < Z.of_nat m) by (cbn in H; cbn; lia); clear H H'; rename H2 into H; cases_below m H] end
  end.
(** All cases of an index found in a list. *)
Lemma getz_cases {A} (l : list A) k x : getz l k = Some x -> exists n, k = Z.of_nat n /\ nth_error l n = Some x.
Proof. intros H. pose proof (getz_range _ _ _ H). exists (Z.to_nat k). split; [lia|]. unfold getz in H. destruct (Z.leb_spec 0 k); [auto|lia]. Qed.
Ltac getz_split H :=
  let n := fresh "n" in let E := fresh in
  apply getz_cases in H as (n & -> & E);
  repeat (destruct n as [|n]; [injection E; clear E; intros; subst|cbn [nth_error h_adm h_inadm h_U rep5] in E]); try (destruct n; discriminate E).

Lemma iv1_holds l : iv_holds (iv1 l) l.
Proof.
  unfold iv_holds, iv1. cbn. rewrite zlen_map. repeat split; try lia. intros k Hk. unfold ld. rewrite getz_map. now destruct (getz l k).
Qed.
Lemma blocks1 l n size : 1 <= zlen l -> getz l 0 = Some 0 -> forallb (fun k => nthz l k <=? nthz l (k + 1)) (zrange 0 (zlen l - 1)) = true ->
  nthz l (zlen l - 1) = n -> blocks_ok (iv1 l) n size.
Proof.
  intros H1 H0 Hi Hl. exists l. split; [apply iv1_holds|]. split; auto. split; auto. split; [|split; [lia|intros; lia]].
  intros k Hk1 Hk2. rewrite forallb_forall in Hi. apply Z.leb_le. apply Hi. apply In_zrange. lia.
Qed.

Theorem rep5_ok : rep_ok rep5.
Proof.
  constructor.
  - cbn. lia.
  - exact (proj1 (boxes_of_tree _ _ _ _ _ _ _ _ _ _ pts5_ok tree5_built)).
  - intros i s e Hi Es Ee. cbn [h_nnode rep5] in Hi. cases_below 9%nat Hi; vm_compute in Es; vm_compute in Ee; injection Es as <-; injection Ee as <-; split; reflexivity.
  - split; [reflexivity|]. intros i U HU. cbn [h_U rep5] in HU.
    getz_split HU; (split; [intros HH; try reflexivity; vm_compute in HH; discriminate HH|]); intros HH;
      try (exfalso; vm_compute in HH; apply HH; reflexivity);
      (split; [vm_compute; discriminate|]);
      (split; [vm_compute; reflexivity|]); (split; [unfold fits; cbn; zlia|]); intros r c Hr Hc; cbn in Hr, Hc;
      assert (c = 0) by lia; subst c;
      (assert (r = 0 \/ r = 1) as [-> | ->] by lia; [eexists; vm_compute; reflexivity|]); try (exfalso; lia); eexists; vm_compute; reflexivity.
  - intros k n0 n1 Hk. cbn [h_adm rep5] in Hk. getz_split Hk; vm_compute; repeat split; congruence.
  - split; [reflexivity|]. intros i Hi. cbn [h_nnode rep5] in Hi.
    cases_below 9%nat Hi; eexists; (split; [reflexivity|]); intros (k & n0 & n1 & Hk & Hor) Hz; try discriminate Hz;
      cbn [h_adm rep5] in Hk; getz_split Hk; lia.
  - intros k n0 n1 Hk. cbn [h_adm rep5] in Hk.
    getz_split Hk; eexists _, _, _; (split; [reflexivity|]); (split; [reflexivity|]); (split; [reflexivity|]);
      (split; [vm_compute; reflexivity|]); (split; [vm_compute; reflexivity|]); (split; [lia|]); intros j Hj; assert (j = 0) by lia; subst j; eexists; reflexivity.
  - apply blocks1; try reflexivity. vm_compute. congruence.
  - intros k n0 n1 Hk. cbn [h_inadm rep5] in Hk. getz_split Hk; vm_compute; repeat split; congruence.
  - intros k n0 n1 Hk. cbn [h_inadm rep5] in Hk.
    getz_split Hk; eexists; (split; [reflexivity|]); (split; [reflexivity|]); (split; [reflexivity|]);
      (split; [lia|]); intros j Hj; vm_compute in Hj; assert (j = 0) by (destruct Hj as [Hj1 Hj2]; destruct j; auto; try discriminate Hj2; try destruct p; try discriminate Hj2; exfalso; apply Hj1; reflexivity); subst j; eexists; reflexivity.
  - intros k Hk. cbn [h_nleaf rep5] in Hk.
    cases_below 5%nat Hk; eexists; (split; [reflexivity|]); (split; [reflexivity|]); (split; [reflexivity|]);
      split; try lia; intros j Hj; vm_compute in Hj; assert (j = 0) by (destruct Hj as [Hj1 Hj2]; destruct j; auto; try discriminate Hj2; try destruct p; try discriminate Hj2; exfalso; apply Hj1; reflexivity); subst j; eexists; reflexivity.
  - apply blocks1; try reflexivity. vm_compute. congruence.
  - apply blocks1; try reflexivity. vm_compute. congruence.
  - split; [reflexivity|]. split; [reflexivity|]. intros i Hi. cbn [h_kms rep5] in Hi.
    cases_below 5%nat Hi; vm_compute; repeat split; congruence.
Qed.

(** ** Buffers, a schedule, coverage, exactness *)

(** As after H2P_build and before the first matvec: nothing set. *)
Definition fresh5 : mvst Zring := MvSt None None [alloc 5; alloc 5] [dm_init 0 0; dm_init 0 0] (alloc 5) (alloc 5) (alloc 5).
Lemma fresh5_ok : state_ok rep5 fresh5.
Proof. constructor; cbn; try (vm_compute; discriminate); auto; split; auto; repeat constructor. Qed.

(** Interleaving of the threads' lists in the order given: the k-th element is
    the next one of the thread named. *)
Fixpoint take_head {A} (ths : list (list A)) (t : nat) : option (A * list (list A)) :=
  match ths, t with
  | (a :: l) :: r, O => Some (a, l :: r)
  | l :: r, S t => match take_head r t with Some (a, r') => Some (a, l :: r') | None => None end
  | _, _ => None
  end.
Fixpoint weave {A} (ths : list (list A)) (who : list nat) : option (list A) :=
  match who with
  | [] => if forallb (fun l => match l with [] => true | _ => false end) ths then Some [] else None
  | t :: who => match take_head ths t with Some (a, ths') => match weave ths' who with Some l => Some (a :: l) | None => None end | None => None end
  end.
Lemma take_head_spec {A} t : forall (ths : list (list A)) a ths', take_head ths t = Some (a, ths') ->
  exists pre l post, ths = pre ++ (a :: l) :: post /\ ths' = pre ++ l :: post.
Proof.
  induction t as [|t IH]; intros [|[|b l] ths] a ths' H; cbn in H; try discriminate.
  - injection H as <- <-. now exists [], l, ths.
  - destruct (take_head ths t) as [[c r]|] eqn:E; [|discriminate]. injection H as <- <-.
    apply IH in E as (pre & l' & post & -> & ->). now exists ([] :: pre), l', post.
  - destruct (take_head ths t) as [[c r]|] eqn:E; [|discriminate]. injection H as <- <-.
    apply IH in E as (pre & l' & post & -> & ->). now exists ((b :: l) :: pre), l', post.
Qed.
Lemma weave_inter {A} who : forall (ths : list (list A)) l, weave ths who = Some l -> inter ths l.
Proof.
  induction who as [|t who IH]; intros ths l H; cbn [weave] in H.
  - destruct (forallb _ ths) eqn:E; [|discriminate]. injection H as <-. apply inter_nil. apply Forall_forall. intros x Hx.
    rewrite forallb_forall in E. specialize (E x Hx). now destruct x.
  - destruct (take_head ths t) as [[a ths']|] eqn:E; [|discriminate]. destruct (weave ths' who) eqn:E2; [|discriminate]. injection H as <-.
    apply take_head_spec in E as (pre & l' & post & -> & ->). apply inter_step. auto.
Qed.

Definition lev5 (i : Z) : list (Z * Z) := if i =? 2 then [(1, 3); (0, 0); (1, 2); (0, 1)] else [(1, 1); (0, 0)].
Definition sched5 : schedule := {|
  sc_fwd := lev5; sc_team := [1; 0];
  sc_mid := [(1, 3); (0, 0); (0, 1); (1, 4); (0, 2)];
  sc_sum := [(0, 8); (1, 0); (0, 1); (0, 2); (1, 5); (1, 4); (0, 3); (0, 6); (1, 7)];
  sc_bwd := lev5;
  sc_den := [(1, (false, 3)); (0, (false, 0)); (0, (false, 1)); (1, (false, 4)); (1, (true, 2)); (0, (false, 2)); (0, (true, 0)); (1, (true, 3)); (0, (true, 1))];
  sc_red := [1; 0]
|}.
(** Another one: everything in order. *)
Definition levs5 (i : Z) : list (Z * Z) := if i =? 2 then [(0, 0); (0, 1); (1, 2); (1, 3)] else [(0, 0); (1, 1)].
Definition sched5' : schedule := {|
  sc_fwd := levs5; sc_team := [0; 1];
  sc_mid := [(0, 0); (0, 1); (0, 2); (1, 3); (1, 4)];
  sc_sum := [(0, 0); (0, 1); (0, 2); (0, 3); (0, 4); (1, 5); (1, 6); (1, 7); (1, 8)];
  sc_bwd := levs5;
  sc_den := [(0, (false, 0)); (0, (false, 1)); (0, (false, 2)); (0, (true, 0)); (0, (true, 1)); (1, (false, 3)); (1, (false, 4)); (1, (true, 2)); (1, (true, 3))];
  sc_red := [0; 1]
|}.

(** Permutations of small lists of integers, by removing one element at a time. *)
Fixpoint zremove (x : Z) (l : list Z) : option (list Z) :=
  match l with [] => None | y :: l => if x =? y then Some l else match zremove x l with Some l' => Some (y :: l') | None => None end end.
Fixpoint zperm (l l' : list Z) : bool :=
  match l with [] => match l' with [] => true | _ => false end | x :: l => match zremove x l' with Some l'' => zperm l l'' | None => false end end.
Lemma zremove_perm x : forall l l', zremove x l = Some l' -> Permutation l (x :: l').
Proof.
  induction l as [|y l IH]; intros l' H; cbn in H; [discriminate|]. destruct (Z.eqb_spec x y) as [->|]; [injection H as <-; auto|].
  destruct (zremove x l) eqn:E; [|discriminate]. injection H as <-. rewrite (IH _ eq_refl). apply perm_swap.
Qed.
Lemma zperm_ok : forall l l', zperm l l' = true -> Permutation l l'.
Proof.
  induction l as [|x l IH]; intros l' H; cbn in H; [destruct l'; [auto|discriminate]|].
  destruct (zremove x l') eqn:E; [|discriminate]. rewrite (zremove_perm _ _ _ E). auto.
Qed.
Lemma omp_for_check n m l : forallb (fun ev => (0 <=? fst ev) && (fst ev <? n)) l && zperm (map snd l) (zrange 0 m) = true -> omp_for n m l.
Proof.
  intros H. apply andb_true_iff in H as [H1 H2]. split; [|now apply zperm_ok]. apply Forall_forall. intros e He.
  rewrite forallb_forall in H1. specialize (H1 e He). apply andb_true_iff in H1 as [A B]. lia.
Qed.

Lemma sched5_ok : schedule_ok rep5 sched5.
Proof.
  constructor.
  - intros i n Hi En. cbn [h_minlevel h_maxlevel rep5] in Hi. assert (i = 2 \/ i = 3) as [-> | ->] by lia; vm_compute in En; injection En as <-; apply omp_for_check; reflexivity.
  - apply zperm_ok. reflexivity.
  - exists [[0]; [1]]. split; [reflexivity|]. apply (weave_inter [1; 0; 0; 1; 0]%nat). reflexivity.
  - apply omp_for_check. reflexivity.
  - intros i n Hi En. cbn [h_minlevel h_maxlevel rep5] in Hi. assert (i = 2 \/ i = 3) as [-> | ->] by lia; vm_compute in En; injection En as <-; apply omp_for_check; reflexivity.
  - exists [[0]; [1]], [[0]; [1]]. split; [reflexivity|]. split; [reflexivity|]. apply (weave_inter [1; 0; 0; 1; 1; 0; 0; 1; 0]%nat). reflexivity.
  - apply zperm_ok. reflexivity.
Qed.
Lemma sched5'_ok : schedule_ok rep5 sched5'.
Proof.
  constructor.
  - intros i n Hi En. cbn [h_minlevel h_maxlevel rep5] in Hi. assert (i = 2 \/ i = 3) as [-> | ->] by lia; vm_compute in En; injection En as <-; apply omp_for_check; reflexivity.
  - apply zperm_ok. reflexivity.
  - exists [[0]; [1]]. split; [reflexivity|]. apply (weave_inter [0; 0; 0; 1; 1]%nat). reflexivity.
  - apply omp_for_check. reflexivity.
  - intros i n Hi En. cbn [h_minlevel h_maxlevel rep5] in Hi. assert (i = 2 \/ i = 3) as [-> | ->] by lia; vm_compute in En; injection En as <-; apply omp_for_check; reflexivity.
  - exists [[0]; [1]], [[0]; [1]]. split; [reflexivity|]. split; [reflexivity|]. apply (weave_inter [0; 0; 0; 0; 0; 1; 1; 1; 1]%nat). reflexivity.
  - apply zperm_ok. reflexivity.
Qed.

Lemma covered5 : covered_once rep5.
Proof.
  destruct (C17_every_entry_covered_once Qred_num _ _ _ _ _ _ _ _ _ _ ALPHA_H2 18 pts5_ok tree5_built) as (ps & E & H); [vm_compute; discriminate|].
  rewrite pairs5 in E. injection E as <-. exact H.
Qed.

(** The kernel matrix, in the user's ordering: rank one. *)
Definition uval5 (p : Z) : Z := p + 1.
Definition KM5 (i j : Z) : Zring := uval5 (nthz [1;0;4;2;3] i) * uval5 (nthz [1;0;4;2;3] j).
Lemma KM5_sym i j : KM5 i j = KM5 j i.
Proof. unfold KM5. apply Z.mul_comm. Qed.
Lemma KMp5 p q : 0 <= p < 5 -> 0 <= q < 5 -> KMp rep5 KM5 p q = uval5 p * uval5 q.
Proof. intros Hp Hq. cases_below 5%nat Hp; cases_below 5%nat Hq; reflexivity. Qed.
Lemma inside5 i p : 0 <= i < 9 -> inside rep5 i p = true -> 0 <= p < 5.
Proof.
  intros Hi H. unfold inside in H. apply andb_true_iff in H as [H1 H2].
  assert (X : forallb (fun i => (0 <=? mfirst rep5 i) && (mlast rep5 i <? 5)) (zrange 0 9) = true) by reflexivity.
  rewrite forallb_forall in X. specialize (X i ltac:(apply In_zrange; lia)). apply andb_true_iff in X as [X1 X2]. lia.
Qed.
Lemma exact5 : blocks_exact rep5 KM5.
Proof.
  split; [|split].
  - intros k p q Hk Ip Iq. change (h_nleaf rep5) with 5 in Hk.
    assert (L : 0 <= leaf rep5 k < 9) by (cases_below 5%nat Hk; vm_compute; split; congruence).
    pose proof (inside5 _ _ L Ip) as Hp. pose proof (inside5 _ _ L Iq) as Hq. rewrite KMp5 by auto.
    cases_below 5%nat Hk; cases_below 5%nat Hp; try discriminate Ip; cases_below 5%nat Hq; try discriminate Iq; reflexivity.
  - intros k n0 n1 p q E Ip Iq. destruct (ro_inadm _ rep5_ok _ _ _ E) as (N0 & N1).
    pose proof (inside5 _ _ N0 Ip) as Hp. pose proof (inside5 _ _ N1 Iq) as Hq. rewrite KMp5 by auto.
    cbn [h_inadm rep5] in E. getz_split E; cases_below 5%nat Hp; try discriminate Ip; cases_below 5%nat Hq; try discriminate Iq; reflexivity.
  - intros k n0 n1 p q E Ip Iq. destruct (ro_adm _ rep5_ok _ _ _ E) as (N0 & N1 & _).
    pose proof (inside5 _ _ N0 Ip) as Hp. pose proof (inside5 _ _ N1 Iq) as Hq. rewrite KMp5 by auto.
    cbn [h_adm rep5] in E. getz_split E; cases_below 5%nat Hp; try discriminate Ip; cases_below 5%nat Hq; try discriminate Iq; vm_compute; reflexivity.
Qed.
