(** A concrete input of H2P_build: five unsorted points, a matrix-valued kernel. *)
From Coq Require Import ZArith QArith List Lia Bool Permutation.
From Verif Require Import Base Mem Num CRing Conc Model_Utils Spec_Utils Proof_Utils Model_Dense Spec_Dense Model_Partition Spec_Tree Spec_Partition
  Model_Pairs Spec_Pairs Props_Pairs Model_Matvec Spec_Matvec Model_Build Spec_Build Ex_Matvec.
Import ListNotations.
Open Scope Z_scope.

(** ** The hypotheses can be met: five points, a rank-two matrix-valued kernel. *)
Definition pts5b : mem Qred_num := map Some ([3#8; 0; 1; 5#8; 13#16])%Q.
Definition tree5b : tree_result Qred_num :=
  Eval vm_compute in match build_tree 6 (fun _ => (1#3)%Q : Qred_num) 1 1 5 pts5b 1 (0%Q : Qred_num) None with
                     | Some (Some t) => t
                     | _ => TRes [] [] 0 0 0 (TArr [] [] [] [] [] [] [] [] [] [] []) end.
Lemma tree5b_built : build_tree 6 (fun _ => (1#3)%Q : Qred_num) 1 1 5 pts5b 1 (0%Q : Qred_num) None = Some (Some tree5b).
Proof. vm_compute. reflexivity. Qed.
Lemma pts5b_ok : points_ok 1 1 5 pts5b None.
Proof.
  split; [lia|]. split; [lia|]. split; [|exact I]. split; [reflexivity|]. intros k Hk.
  assert (k = 0 \/ k = 1 \/ k = 2 \/ k = 3 \/ k = 4) by lia.
  repeat (destruct H as [->|H]; [eexists; reflexivity|]). subst. eexists; reflexivity.
Qed.
Definition ps5 : pairs := Pairs [(3, 6); (0, 5); (0, 6); (1, 4); (1, 6)] [(0, 1); (3, 4); (4, 6); (1, 3)] 2.
Lemma pairs5b : calc_reduced_adm_pairs 18 1 ALPHA_H2 0 (r_n_node tree5b) (r_max_level tree5b) (r_arrays tree5b) = Some ps5.
Proof. vm_compute. reflexivity. Qed.

(** Kernel values: a sign for each point times a fixed symmetric matrix. *)
Definition sgn5 (p : list Qred_num) : Z := if existsb (fun x => Qeq_bool x (3#8) || Qeq_bool x (13#16)) p then -1 else 1.
Definition kern5 (p q : list Qred_num) (a b : Z) : Zring := sgn5 p * sgn5 q * (if a =? b then a + 2 else 1).
Definition js5 (i : Z) : list Z := match i with 0 => [0] | 1 => [1] | 3 => [2] | 4 => [3] | 5 => [2] | 6 => [4] | _ => [] end.
Definition J5 : list int_vec := map (fun i => iv1 (js5 i)) (zrange 0 9).
Definition Jc5 : list (dmat Qred_num) := map (fun i => mkDM 1 (zlen (js5 i)) (zlen (js5 i)) (zlen (js5 i)) (map (fun p => ld (r_coord tree5b) p) (js5 i))) (zrange 0 9).
Definition U5 : list (dmat Zring) :=
  let id := dm1 2 2 [1; 0; 0; 1] in
  [id; id; dm1 0 0 []; id; id; dm1 4 2 [1; 0; 0; 1; -1; 0; 0; -1]; id; dm1 0 0 []; dm1 0 0 []].
Definition bsched5 : build_sched := {|
  bs_ordB := [8; 7; 6; 5; 4; 3; 2; 1; 0]; bs_ordD := [0; 2; 4; 6; 8; 1; 3; 5; 7];
  bs_evB := [(1, 3); (0, 0); (1, 4); (0, 1); (0, 2)];
  bs_evD := [(1, (false, 3)); (0, (false, 0)); (0, (false, 1)); (1, (false, 4)); (1, (true, 3)); (0, (false, 2)); (0, (true, 0)); (0, (true, 1)); (0, (true, 2))]
|}.

Lemma skel5 : skeletons_ok 1 1 2 5 9 2 (r_coord tree5b) (r_arrays tree5b) U5 J5 Jc5 js5.
Proof.
  constructor.
  - repeat split; reflexivity.
  - intros i v H. assert (Hi : 0 <= i < 9) by (apply getz_range in H; exact H).
    cases_below 9%nat Hi; vm_compute in H; injection H as <-; match goal with |- iv_holds _ ?l => exact (iv1_holds l) end.
  - intros i m H. assert (Hi : 0 <= i < 9) by (apply getz_range in H; exact H).
    cases_below 9%nat Hi; vm_compute in H; injection H as <-; (split; [reflexivity|]); intros d k p Hd Hk;
      assert (d = 0) by lia; subst d; cbn [js5] in Hk; getz_split Hk; reflexivity.
  - intros i p Hi Hl Hp. cases_below 9%nat Hi; try (exfalso; apply Hl; reflexivity); vm_compute in Hp; destruct Hp as [<-|[]]; reflexivity.
  - intros i V H. assert (Hi : 0 <= i < 9) by (apply getz_range in H; exact H).
    cases_below 9%nat Hi; vm_compute in H; injection H as <-; (split; [intros HH; try reflexivity; vm_compute in HH; discriminate HH|]); intros HH;
      try (exfalso; apply HH; reflexivity);
      (split; [vm_compute; discriminate|]); (split; [vm_compute; reflexivity|]); (split; [vm_compute; reflexivity|]); (split; [unfold fits; cbn; zlia|]);
      intros r c Hr Hc; cbn [dm_nrow dm_ncol] in Hr, Hc; first [cases_below 2%nat Hr | cases_below 4%nat Hr]; cases_below 2%nat Hc; eexists; reflexivity.
Qed.
Lemma bsched5_ok : build_sched_ok 2 2 tree5b ps5 J5 (iv1 []) (iv1 []) (iv1 []) bsched5.
Proof.
  constructor.
  - apply zperm_ok. reflexivity.
  - apply zperm_ok. reflexivity.
  - intros m nr v H. assert (E : v = mkIV 3 3 (map Some [0; 3; 5])) by (vm_compute in H; injection H as _ _ <-; reflexivity).
    subst v. unfold B_AOT_schedule. apply (weave_inter [1; 0; 1; 0; 0]%nat). reflexivity.
  - intros m v0 v1 H. assert (E : v0 = mkIV 3 3 (map Some [0; 3; 5]) /\ v1 = mkIV 3 3 (map Some [0; 3; 4])) by (vm_compute in H; injection H as _ <- <-; split; reflexivity).
    destruct E as [-> ->]. unfold D_AOT_schedule. apply (weave_inter [1; 0; 0; 1; 1; 0; 0; 0; 0]%nat). reflexivity.
Qed.
Theorem inputs5 : build_inputs 6 (fun _ => (1#3)%Q : Qred_num) 1 1 2 5 2 pts5b 1 (0%Q : Qred_num) None ALPHA_H2 18 tree5b ps5 U5 J5 Jc5 js5 (iv1 []) (iv1 []) (iv1 []) bsched5.
Proof.
  constructor.
  - lia.
  - exact pts5b_ok.
  - exact tree5b_built.
  - vm_compute. congruence.
  - exact pairs5b.
  - discriminate.
  - exact skel5.
  - split; [|split]; exists []; apply iv1_holds.
  - exact bsched5_ok.
Qed.

(** What it gives: the representation, and the two block tables. *)
Definition built5 : h2rep Qred_num Zring * bmeta * bmeta :=
  Eval vm_compute in match h2_build kern5 1 1 2 5 2 tree5b ps5 U5 J5 Jc5 (iv1 []) (iv1 []) (iv1 []) bsched5 with
                     | Some x => x
                     | None => (rep5, BMeta [] [] [] 0 [] [] [], BMeta [] [] [] 0 [] [] []) end.
Definition h5 : h2rep Qred_num Zring := Eval cbv [built5 fst] in fst (fst built5).
Lemma built5_eq : h2_build kern5 1 1 2 5 2 tree5b ps5 U5 J5 Jc5 (iv1 []) (iv1 []) (iv1 []) bsched5 = Some built5.
Proof. vm_compute. reflexivity. Qed.
Lemma kern5_sym p q a b : kern5 p q a b = kern5 q p b a.
Proof. unfold kern5. rewrite (Z.mul_comm (sgn5 p)). f_equal. rewrite (Z.eqb_sym b a). destruct (Z.eqb_spec a b); subst; reflexivity. Qed.

Definition KM5b : Z -> Z -> Zring := kernel_matrix kern5 2 (coords_of 1 5 pts5b).
Definition range (n : Z) (P : Z -> bool) : bool := forallb P (zrange 0 n).
Lemma range_spec n P : range n P = true -> forall i, 0 <= i < n -> P i = true.
Proof. unfold range. rewrite forallb_forall. intros H i Hi. apply H. apply In_zrange. lia. Qed.
Definition check_interp : bool :=
  range 9 (fun i => negb (h_minlevel h5 <=? level h5 i) || range 10 (fun q =>
    (negb (nchild h5 i =? 0) || range (msize h5 i) (fun r =>
      (KMp h5 KM5b (mfirst h5 i + r) q : Z) =? rsum 0 (rank h5 i) (fun c => @cmul Zring (Uval h5 i r c) (KMp h5 KM5b (skel_row h5 js5 i c) q)))) &&
    range (nchild h5 i) (fun k => range (rank h5 (child h5 i k)) (fun d =>
      (KMp h5 KM5b (skel_row h5 js5 (child h5 i k) d) q : Z) =?
       rsum 0 (rank h5 i) (fun c => @cmul Zring (Uval h5 i (choff h5 i k + d) c) (KMp h5 KM5b (skel_row h5 js5 i c) q)))))).
Lemma check_interp_ok : check_interp = true.
Proof. vm_compute. reflexivity. Qed.
Lemma adm5_nodes : forall n m, In (n, m) (h_adm h5) -> 0 <= n < 9 /\ 0 <= m < 9.
Proof.
  assert (X : forallb (fun '(n, m) => (0 <=? n) && (n <? 9) && (0 <=? m) && (m <? 9)) (h_adm h5) = true) by reflexivity.
  rewrite forallb_forall in X. intros n m H. specialize (X _ H). cbn beta iota in X. rewrite !andb_true_iff in X. lia.
Qed.
Theorem interp5 : interpolates h5 js5 KM5b.
Proof.
  intros i q Hi Hl (n & m & Hor & _ & Iq & _). change (h_nnode h5) with 9 in Hi.
  assert (Hm : 0 <= m < 9) by (destruct Hor as [H|H]; apply adm5_nodes in H; lia).
  assert (Hq : 0 <= q < 10).
  { pose proof (range_spec 9 (fun m => (0 <=? mfirst h5 m) && (mlast h5 m <? 10)) eq_refl m Hm) as B. cbn beta in B.
    unfold inside in Iq. apply andb_true_iff in Iq as [I1 I2]. apply andb_true_iff in B as [B1 B2]. lia. }
  pose proof (range_spec _ _ check_interp_ok i Hi) as C. cbn beta in C. apply orb_true_iff in C as [C|C]; [apply negb_true_iff in C; lia|].
  pose proof (range_spec _ _ C q Hq) as C'. cbn beta in C'. apply andb_true_iff in C' as [C1 C2]. split.
  - intros Hc r Hr. rewrite Hc in C1. cbn [Z.eqb negb orb] in C1. pose proof (range_spec _ _ C1 r Hr) as E. now apply Z.eqb_eq in E.
  - intros k d Hk Hd. pose proof (range_spec _ _ C2 k Hk) as C3. pose proof (range_spec _ _ C3 d Hd) as E. now apply Z.eqb_eq in E.
Qed.
