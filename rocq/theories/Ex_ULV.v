(** A concrete HSS matrix over the reals: the five points of Ex_Build in HSS
    mode, with a rank-one kernel, built by the model of H2P_build.  Leaves have full
    rank, the nodes above them do not. *)
From Coq Require Import ZArith QArith List Lia Bool Permutation Reals Lra.
From Verif Require Import Base Mem Num CRing FNum Conc Model_Utils Spec_Utils Proof_Utils Model_Dense Spec_Dense Model_Partition Spec_Tree Spec_Partition
  Model_Pairs Spec_Pairs Props_Pairs Model_Matvec Spec_Matvec Model_Build Spec_Build Ex_Matvec Ex_Build Spec_Lapack Spec_SPD Spec_ULV.
Import ListNotations.
Open Scope Z_scope.

Definition ps5h : pairs := Pairs [(0, 1); (3, 4); (5, 6); (2, 7)] [] 1.
Lemma pairs5h : calc_reduced_adm_pairs 18 1 Props_Pairs.ALPHA_HSS 0 (r_n_node tree5b) (r_max_level tree5b) (r_arrays tree5b) = Some ps5h.
Proof. vm_compute. reflexivity. Qed.
Definition js5h (i : Z) : list Z := match i with 0 => [0] | 1 => [1] | 2 => [0] | 3 => [2] | 4 => [3] | 5 => [2] | 6 => [4] | 7 => [2] | _ => [] end.
Definition J5h : list int_vec := map (fun i => iv1 (js5h i)) (zrange 0 9).
Definition Jc5h : list (dmat Qred_num) := map (fun i => mkDM 1 (zlen (js5h i)) (zlen (js5h i)) (zlen (js5h i)) (map (fun p => ld (r_coord tree5b) p) (js5h i))) (zrange 0 9).
Definition bsched5h : build_sched := {|
  bs_ordB := [8; 7; 6; 5; 4; 3; 2; 1; 0]; bs_ordD := [0; 2; 4; 6; 8; 1; 3; 5; 7];
  bs_evB := [(0, 0); (1, 3); (0, 1); (0, 2)];
  bs_evD := [(1, (false, 3)); (0, (false, 0)); (0, (false, 1)); (1, (false, 4)); (0, (false, 2))]
|}.

Section Ring.
Context {K : cring}.
Variable z : Z -> K.
Variable kern : list Qred_num -> list Qred_num -> Z -> Z -> K.
Definition dmk (r c : Z) (l : list Z) : dmat K := mkDM r c c (zlen l) (map (fun x => Some (z x)) l : mem K).
Definition U5h : list (dmat K) :=
  [dmk 1 1 [1]; dmk 1 1 [1]; dmk 2 1 [1; -1]; dmk 1 1 [1]; dmk 1 1 [1]; dmk 2 1 [1; -1]; dmk 1 1 [1]; dmk 2 1 [1; 1]; dmk 0 0 []].

Lemma skel5h : skeletons_ok 1 1 1 5 9 1 (r_coord tree5b) (r_arrays tree5b) U5h J5h Jc5h js5h.
Proof.
  constructor.
  - repeat split; reflexivity.
  - intros i v H. assert (Hi : 0 <= i < 9) by (apply getz_range in H; exact H).
    cases_below 9%nat Hi; vm_compute in H; injection H as <-; match goal with |- iv_holds _ ?l => exact (iv1_holds l) end.
  - intros i m H. assert (Hi : 0 <= i < 9) by (apply getz_range in H; exact H).
    cases_below 9%nat Hi; vm_compute in H; injection H as <-; (split; [reflexivity|]); intros d k p Hd Hk;
      assert (d = 0) by lia; subst d; cbn [js5h] in Hk; getz_split Hk; reflexivity.
  - intros i p Hi Hl Hp. cases_below 9%nat Hi; try (exfalso; apply Hl; reflexivity); vm_compute in Hp; destruct Hp as [<-|[]]; reflexivity.
  - intros i V H. assert (Hi : 0 <= i < 9) by (apply getz_range in H; exact H).
    cases_below 9%nat Hi; vm_compute in H; injection H as <-; (split; [intros HH; try reflexivity; vm_compute in HH; discriminate HH|]); intros HH;
      try (exfalso; apply HH; reflexivity);
      (split; [vm_compute; discriminate|]); (split; [vm_compute; reflexivity|]); (split; [vm_compute; reflexivity|]); (split; [unfold fits; cbn; zlia|]);
      intros r c Hr Hc; cbn [dm_nrow dm_ncol] in Hr, Hc; first [cases_below 1%nat Hr | cases_below 2%nat Hr]; cases_below 1%nat Hc; eexists; reflexivity.
Qed.
Definition built5h : option (h2rep Qred_num K * bmeta * bmeta) :=
  Eval vm_compute in h2_build kern 1 1 1 5 2 tree5b ps5h U5h J5h Jc5h (iv1 []) (iv1 []) (iv1 []) bsched5h.
Definition bad5h : h2rep Qred_num K := H2Rep 0 0 0 0 0 0 0 0 0 0 (TArr [] [] [] [] [] [] [] [] [] [] []) [] [] [] [] [] [] [] [] [] [] [] [] [] (iv1 []) (iv1 []) (iv1 []) [] [].
Definition h5h : h2rep Qred_num K := Eval cbv [built5h] in match built5h with Some (h, _, _) => h | None => bad5h end.
Definition bm5h : bmeta := Eval cbv [built5h] in match built5h with Some (_, m, _) => m | None => BMeta [] [] [] 0 [] [] [] end.
Definition dm5h : bmeta := Eval cbv [built5h] in match built5h with Some (_, _, m) => m | None => BMeta [] [] [] 0 [] [] [] end.
Lemma built5h_eq : h2_build kern 1 1 1 5 2 tree5b ps5h U5h J5h Jc5h (iv1 []) (iv1 []) (iv1 []) bsched5h = Some (h5h, bm5h, dm5h).
Proof. vm_compute. reflexivity. Qed.

Lemma bsched5h_ok : build_sched_ok 1 2 tree5b ps5h J5h (iv1 []) (iv1 []) (iv1 []) bsched5h.
Proof.
  constructor.
  - apply zperm_ok. reflexivity.
  - apply zperm_ok. reflexivity.
  - intros m nr v H. assert (E : v = mkIV 3 3 (map Some [0; 3; 4])) by (vm_compute in H; injection H as _ _ <-; reflexivity).
    subst v. unfold B_AOT_schedule. apply (weave_inter [0; 1; 0; 0]%nat). reflexivity.
  - intros m v0 v1 H. assert (E : v0 = mkIV 3 3 (map Some [0; 3; 5]) /\ v1 = mkIV 3 1 (map Some [0; 0; 0])) by (vm_compute in H; injection H as _ <- <-; split; reflexivity).
    destruct E as [-> ->]. unfold D_AOT_schedule. apply (weave_inter [1; 0; 0; 1; 0]%nat). reflexivity.
Qed.
Theorem inputs5h : build_inputs 6 (fun _ => (1#3)%Q : Qred_num) 1 1 1 5 2 pts5b 1 (0%Q : Qred_num) None Props_Pairs.ALPHA_HSS 18 tree5b ps5h U5h J5h Jc5h js5h (iv1 []) (iv1 []) (iv1 []) bsched5h.
Proof.
  constructor.
  - lia.
  - exact pts5b_ok.
  - exact tree5b_built.
  - vm_compute. congruence.
  - exact pairs5h.
  - discriminate.
  - exact skel5h.
  - split; [|split]; exists []; apply iv1_holds.
  - exact bsched5h_ok.
Qed.
Lemma hss5h : hss_ok h5h.
Proof.
  constructor.
  - reflexivity.
  - reflexivity.
  - intros q n0 n1 G. cbn [h_adm h5h] in G. getz_split G; [exists 2, 0, 1|exists 5, 0, 1|exists 7, 0, 1|exists 8, 0, 1]; repeat split; reflexivity || (vm_compute; congruence).
  - intros i k l Hi Hk Hl. change (h_nnode h5h) with 9 in Hi.
    assert (L2 : nchild h5h i <= 2) by (cases_below 9%nat Hi; vm_compute; congruence). assert (k = 0) by lia. assert (l = 1) by lia. subst k l.
    cases_below 9%nat Hi; try (exfalso; vm_compute in Hl; discriminate Hl); [exists 3|exists 2|exists 1|exists 0]; reflexivity.
  - repeat constructor; cbn; intuition congruence.
  - intros i Hi Hl. change (h_nnode h5h) with 9 in Hi. cases_below 9%nat Hi; vm_compute; congruence.
Qed.
Definition lev5h (i : Z) : list (Z * Z) := match i with 0 => [(0, 0)] | 1 => [(1, 1); (0, 0)] | 2 => [(1, 3); (0, 0); (1, 2); (0, 1)] | _ => [(1, 0); (0, 1)] end.
Lemma lev5h_ok : sweep_ok h5h lev5h.
Proof.
  intros i n Hi Hn. change (h_maxlevel h5h) with 3 in Hi. assert (Hi' : 0 <= i < 4) by lia. clear Hi. cases_below 4%nat Hi'; vm_compute in Hn; injection Hn as <-; apply omp_for_check; reflexivity.
Qed.
End Ring.

(** Over the reals. *)
Definition kern5h (p q : list Qred_num) (a b : Z) : Rring := IZR (sgn5 p * sgn5 q).
Definition hR : h2rep Qred_num Rring := @h5h Rring IZR kern5h.
Lemma kern5h_sym p q a b : kern5h p q a b = kern5h q p b a.
Proof. unfold kern5h. f_equal. apply Z.mul_comm. Qed.
Definition KM5h : Z -> Z -> R := @kernel_matrix Qred_num Rring kern5h 1 (coords_of 1 5 pts5b).
Definition s5 (i : Z) : R := IZR (nthz [-1; 1; 1; 1; -1] i).
Lemma KM5h_eq i j : 0 <= i < 5 -> 0 <= j < 5 -> KM5h i j = (s5 i * s5 j)%R.
Proof.
  intros Hi Hj. unfold s5. rewrite <- mult_IZR. unfold KM5h, kernel_matrix, kern5h. f_equal. cases_below 5%nat Hi; cases_below 5%nat Hj; vm_compute; reflexivity.
Qed.
Lemma interp5h : interpolates hR js5h KM5h.
Proof.
  intros i q Hi Hl (n & m & Hor & _ & Iq & _). change (h_nnode hR) with 9 in Hi.
  assert (Hq : 0 <= q < 5).
  { assert (Hm : 0 <= m < 9). { destruct Hor as [H|H]; cbn in H; destruct H as [E|[E|[E|[E|[]]]]]; injection E as <- <-; lia. }
    assert (B : 0 <= mfirst hR m /\ mlast hR m < 5) by (cases_below 9%nat Hm; vm_compute; split; congruence).
    unfold inside in Iq. apply andb_true_iff in Iq as [I1 I2]. lia. }
  clear Hor Iq. split.
  - intros Hc r Hr. cases_below 9%nat Hi; try discriminate Hc; change (msize hR _) with 1 in Hr; assert (r = 0) by lia; subst r; cases_below 5%nat Hq; cbv -[Rplus Rmult IZR]; try lra.
  - intros k d Hk Hd. cases_below 9%nat Hi; try (exfalso; vm_compute in Hl; apply Hl; reflexivity); try (exfalso; vm_compute in Hk; destruct Hk; destruct k; congruence); change (nchild hR _) with 2 in Hk;
      cases_below 2%nat Hk; change (rank hR _) with 1 in Hd; assert (d = 0) by lia; subst d; cases_below 5%nat Hq; cbv -[Rplus Rmult IZR]; try lra.
Qed.

(** shift = 1: positive definite; shift = -1: not. *)
Definition sq5 (y : Z -> R) : R := (y 0%Z * y 0%Z + y 1%Z * y 1%Z + y 2%Z * y 2%Z + y 3%Z * y 3%Z + y 4%Z * y 4%Z)%R.
Definition sy5 (y : Z -> R) : R := (s5 0%Z * y 0%Z + s5 1%Z * y 1%Z + s5 2%Z * y 2%Z + s5 3%Z * y 3%Z + s5 4%Z * y 4%Z)%R.
Lemma quad5 (A : Z -> Z -> R) c y : (forall i j, 0 <= i < 5 -> 0 <= j < 5 -> A i j = (s5 i * s5 j + c * @delta Rring i j)%R) -> quad 5 A y = (sy5 y * sy5 y + c * sq5 y)%R.
Proof.
  intros H. transitivity (quad 5 (fun i j => s5 i * s5 j + c * @delta Rring i j)%R y).
  - unfold quad. apply (@rsum_ext Rring). intros i Hi. apply (@rsum_ext Rring). intros j Hj. rewrite H by auto. reflexivity.
  - cbv -[Rplus Rmult IZR]. ring.
Qed.
Lemma sq5_pos y : notzero 5 y -> (0 < sq5 y)%R.
Proof.
  intros (i & Hi & Hy). unfold sq5.
  assert (P : forall a : R, (0 <= a * a)%R) by (intros; apply Rle_0_sqr). assert (Q : (0 < y i * y i)%R) by (apply Rsqr_pos_lt; auto).
  pose proof (P (y 0)). pose proof (P (y 1)). pose proof (P (y 2)). pose proof (P (y 3)). pose proof (P (y 4)).
  assert (i = 0 \/ i = 1 \/ i = 2 \/ i = 3 \/ i = 4) as [->|[->|[->|[->| ->]]]] by lia; lra.
Qed.
