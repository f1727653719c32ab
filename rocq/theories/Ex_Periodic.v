(** A concrete input of H2P_build_periodic: three points on a line with their two
    neighbouring periodic images. *)
From Coq Require Import ZArith QArith List Lia Bool Permutation.
From Verif Require Import Base Mem Num CRing Conc Model_Utils Spec_Utils Proof_Utils Model_Dense Spec_Dense Model_Partition Spec_Tree Spec_Partition
  Model_Pairs Spec_Pairs Props_Pairs Model_Matvec Spec_Matvec Model_Build Spec_Build Model_Matmul Model_Periodic Spec_Periodic Model_PerBuild Ex_Matvec Ex_Build.
Import ListNotations.
Open Scope Z_scope.

Definition pts3 : mem Qred_num := map Some ([13#16; 0; 3#8])%Q.
Definition tree3 : tree_result Qred_num :=
  Eval vm_compute in match build_tree 6 (fun _ => (1#3)%Q : Qred_num) 1 1 3 pts3 1 (0%Q : Qred_num) None with
                     | Some (Some t) => t
                     | _ => TRes [] [] 0 0 0 (TArr [] [] [] [] [] [] [] [] [] [] []) end.
Lemma tree3_built : build_tree 6 (fun _ => (1#3)%Q : Qred_num) 1 1 3 pts3 1 (0%Q : Qred_num) None = Some (Some tree3).
Proof. vm_compute. reflexivity. Qed.
Lemma pts3_ok : points_ok 1 1 3 pts3 None.
Proof.
  split; [lia|]. split; [lia|]. split; [|exact I]. split; [reflexivity|]. intros k Hk.
  cases_below 3%nat Hk; eexists; reflexivity.
Qed.
Definition lat3 : mem Qred_num := map Some ([-1 # 1; 0; 1])%Q.
Definition ts3 : list (bool * (Z * Z * Z)) :=
  [(true, (2, 2, 0)); (false, (0, 3, 0)); (true, (1, 3, 0)); (true, (3, 2, 0)); (true, (3, 3, 0));
   (false, (0, 1, 1)); (false, (1, 0, 1)); (true, (0, 3, 1)); (true, (3, 0, 1)); (false, (1, 3, 1)); (false, (3, 1, 1));
   (true, (2, 2, 2)); (true, (2, 3, 2)); (false, (3, 0, 2)); (true, (3, 1, 2)); (true, (3, 3, 2))].
Lemma triples3 : all_pairs_per 10 1 ALPHA_H2 3 lat3 (r_n_node tree3) (r_arrays tree3) = Some ts3.
Proof. vm_compute. reflexivity. Qed.
Definition arrs3 : (mem Z * mem Qred_num) * (mem Z * mem Qred_num) :=
  Eval vm_compute in match pairs_of_periodic 10 1 ALPHA_H2 3 lat3 (r_n_node tree3) (r_arrays tree3) with Some x => x | None => ([], [], ([], [])) end.
Lemma pairs3 : pairs_of_periodic 10 1 ALPHA_H2 3 lat3 (r_n_node tree3) (r_arrays tree3) = Some (fst arrs3, snd arrs3).
Proof. vm_compute. reflexivity. Qed.

(** A kernel of rank one: a sign for each point, the same for all its images; the
    periodic kernel has two more units from images beyond the nearest ones. *)
Definition w3 : Q := Eval vm_compute in val 0%Q (ld (a_box (r_arrays tree3)) 9).
Definition near (x : Q) : bool := match Qcompare x (1#5) with Gt => (match Qcompare x (1#2) with Lt => true | _ => false end) | _ => false end.
Definition sgn3 (p : list Qred_num) : Z :=
  if existsb (fun x => near x || near (Qred (x + w3)) || near (Qred (x - w3))) p then -1 else 1.
Definition kern3 (p q : list Qred_num) (a b : Z) : Zring := sgn3 p * sgn3 q.
Definition pkern3 (p q : list Qred_num) (a b : Z) : Zring := 5 * sgn3 p * sgn3 q.
Definition js3 (i : Z) : list Z := match i with 0 => [0] | 1 => [1] | 2 => [0] | 3 => [2] | 4 => [0] | _ => [] end.
Definition J3 : list int_vec := map (fun i => iv1 (js3 i)) (zrange 0 5).
Definition Jc3 : list (dmat Qred_num) := map (fun i => mkDM 1 (zlen (js3 i)) (zlen (js3 i)) (zlen (js3 i)) (map (fun p => ld (r_coord tree3) p) (js3 i))) (zrange 0 5).
Definition U3 : list (dmat Zring) := [dm1 1 1 [1]; dm1 1 1 [1]; dm1 2 1 [1; -1]; dm1 1 1 [1]; dm1 2 1 [1; 1]].

Lemma skel3 : skeletons_ok 1 1 1 3 5 0 (r_coord tree3) (r_arrays tree3) U3 J3 Jc3 js3.
Proof.
  constructor.
  - repeat split; reflexivity.
  - intros i v H. assert (Hi : 0 <= i < 5) by (apply getz_range in H; exact H).
    cases_below 5%nat Hi; vm_compute in H; injection H as <-; match goal with |- iv_holds _ ?l => exact (iv1_holds l) end.
  - intros i m H. assert (Hi : 0 <= i < 5) by (apply getz_range in H; exact H).
    cases_below 5%nat Hi; vm_compute in H; injection H as <-; (split; [reflexivity|]); intros d k p Hd Hk;
      assert (d = 0) by lia; subst d; cbn [js3] in Hk; getz_split Hk; reflexivity.
  - intros i p Hi Hl Hp. cases_below 5%nat Hi; vm_compute in Hp; destruct Hp as [<-|[]]; reflexivity.
  - intros i V H. assert (Hi : 0 <= i < 5) by (apply getz_range in H; exact H).
    cases_below 5%nat Hi; vm_compute in H; injection H as <-; (split; [intros HH; vm_compute in HH; discriminate HH|]); intros HH;
      (split; [vm_compute; discriminate|]); (split; [vm_compute; reflexivity|]); (split; [vm_compute; reflexivity|]); (split; [unfold fits; cbn; zlia|]);
      intros r c Hr Hc; cbn [dm_nrow dm_ncol] in Hr, Hc; first [cases_below 1%nat Hr | cases_below 2%nat Hr]; cases_below 1%nat Hc; eexists; reflexivity.
Qed.
Definition ord3 : list Z := [4; 2; 0; 1; 3].
Theorem inputs3 : per_inputs 6 (fun _ => (1#3)%Q : Qred_num) 1 1 1 3 2 pts3 1 (0%Q : Qred_num) None ALPHA_H2 10 tree3 3 lat3 ts3 (fst arrs3) (snd arrs3)
  U3 J3 Jc3 js3 (iv1 []) (iv1 []) (iv1 []) ord3 ord3 (dm_init 0 0) (dm_init 0 0).
Proof.
  constructor.
  - lia.
  - exact pts3_ok.
  - exact tree3_built.
  - vm_compute. congruence.
  - split; [reflexivity|]. intros k Hk. cases_below 3%nat Hk; eexists; reflexivity.
  - exact triples3.
  - exact pairs3.
  - discriminate.
  - intros n1 l H. vm_compute in H. intuition congruence.
  - exact skel3.
  - intros i m H. assert (Hi : 0 <= i < 5) by (apply getz_range in H; exact H).
    cases_below 5%nat Hi; vm_compute in H; injection H as <-; (split; [unfold dm_ok; cbn; zlia|split; reflexivity]).
  - split; [|split]; exists []; apply iv1_holds.
  - split; apply zperm_ok; reflexivity.
  - split; reflexivity.
Qed.
Lemma unshifted3 : one_unshifted 1 lat3 tree3 3 1.
Proof.
  split; [lia|]. split; [|split].
  - intros d. unfold lattice_shift. destruct ((0 <=? d) && (d <? 1)) eqn:E; [|reflexivity].
    apply andb_true_iff in E as [E1 E2]. assert (d = 0) by lia. subst. vm_compute. reflexivity.
  - intros (j & Hj & E). assert (j = 0) by lia. subst. vm_compute in E. discriminate E.
  - intros l Hl Hn. exists 0. split; [lia|]. cases_below 3%nat Hl; try (exfalso; apply Hn; reflexivity); vm_compute; reflexivity.
Qed.

(** What it gives. *)
Definition built3 : h2rep Qred_num Zring * pctx Qred_num Zring :=
  Eval vm_compute in match build_periodic kern3 pkern3 1 1 1 3 2 tree3 3 lat3 (fst arrs3) (snd arrs3) U3 J3 Jc3 (iv1 []) (iv1 []) (iv1 []) ord3 ord3 (dm_init 0 0) (dm_init 0 0) with
                     | Some x => x
                     | None => (rep5, PCtx 0 0 0 0 [] [] [] 0 [] [] (BMeta [] [] [] 0 [] [] []) (BMeta [] [] [] 0 [] [] []) [] 0) end.
Definition h3 : h2rep Qred_num Zring := Eval cbv [built3 fst] in fst built3.
Definition c3 : pctx Qred_num Zring := Eval cbv [built3 snd] in snd built3.
Lemma built3_eq : build_periodic kern3 pkern3 1 1 1 3 2 tree3 3 lat3 (fst arrs3) (snd arrs3) U3 J3 Jc3 (iv1 []) (iv1 []) (iv1 []) ord3 ord3 (dm_init 0 0) (dm_init 0 0) = Some (h3, c3).
Proof. vm_compute. reflexivity. Qed.
Definition pt3 : Z -> list Qred_num := coords_of 1 3 (r_coord tree3).
Definition sh3 : Z -> Z -> Qred_num := lattice_shift 1 lat3 tree3.

Definition check_pairs3 : bool :=
  forallb (fun '(n0, n1, l) => range 3 (fun p =>
    negb (inside h3 n0 p) ||
    range (side_size h3 n1 n0) (fun c' =>
     (rsum 0 (side_size h3 n0 n1) (fun r => @cmul Zring (side h3 n0 n1 r p) (kshift kern3 h3 pt3 (sh3 l) (block_row h3 js3 n0 n1 r) (block_row h3 js3 n1 n0 c'))) : Z) =? kshift kern3 h3 pt3 (sh3 l) p (block_row h3 js3 n1 n0 c')) &&
    range 3 (fun q => negb (inside h3 n1 q) ||
     ((rsum 0 (side_size h3 n1 n0) (fun c' => @cmul Zring (kshift kern3 h3 pt3 (sh3 l) p (block_row h3 js3 n1 n0 c')) (side h3 n1 n0 c' q)) : Z) =? kshift kern3 h3 pt3 (sh3 l) p q)))) (of_kind true ts3).
Lemma check_pairs3_ok : check_pairs3 = true.
Proof. vm_compute. reflexivity. Qed.
Lemma inside3 n p : 0 <= n < 5 -> inside h3 n p = true -> 0 <= p < 3.
Proof.
  intros Hn Iq. pose proof (range_spec 5 (fun m => (0 <=? mfirst h3 m) && (mlast h3 m <? 3)) eq_refl n Hn) as B. cbn beta in B.
  unfold inside in Iq. apply andb_true_iff in Iq as [I1 I2]. apply andb_true_iff in B as [B1 B2]. lia.
Qed.
Lemma adm3_nodes : forall n m l, In (n, m, l) (of_kind true ts3) -> 0 <= n < 5 /\ 0 <= m < 5.
Proof.
  assert (X : forallb (fun '(n, m, l) => (0 <=? n) && (n <? 5) && (0 <=? m) && (m <? 5)) (of_kind true ts3) = true) by reflexivity.
  rewrite forallb_forall in X. intros n m l H. specialize (X _ H). cbn beta iota in X. rewrite !andb_true_iff in X. lia.
Qed.
Lemma pairs_interp3 : pair_interpolates kern3 h3 pt3 js3 (of_kind true ts3) sh3.
Proof.
  intros k n0 n1 l G. apply getz_In in G. pose proof (adm3_nodes _ _ _ G) as (N0 & N1).
  pose proof check_pairs3_ok as C. unfold check_pairs3 in C. rewrite forallb_forall in C. specialize (C _ G). cbn beta iota in C. split.
  - intros p c' Ip Hc. pose proof (range_spec _ _ C p (inside3 _ _ N0 Ip)) as D. cbn beta in D. rewrite Ip in D. cbn [negb orb] in D.
    apply andb_true_iff in D as [D _]. pose proof (range_spec _ _ D c' Hc) as E. now apply Z.eqb_eq in E.
  - intros p q Ip Iq. pose proof (range_spec _ _ C p (inside3 _ _ N0 Ip)) as D. cbn beta in D. rewrite Ip in D. cbn [negb orb] in D.
    apply andb_true_iff in D as [_ D]. pose proof (range_spec _ _ D q (inside3 _ _ N1 Iq)) as E. cbn beta in E. rewrite Iq in E. cbn [negb orb] in E. now apply Z.eqb_eq in E.
Qed.
Definition rest3 := rest kern3 h3 pt3 pkern3 3 sh3.
Definition check_root3 : bool :=
  range 3 (fun p => range (rank h3 4) (fun c' =>
     (rsum 0 (rank h3 4) (fun r => @cmul Zring (basis h3 4 p r) (rest3 (skel_row h3 js3 4 r) (skel_row h3 js3 4 c'))) : Z) =? rest3 p (skel_row h3 js3 4 c')) &&
   range 3 (fun q => (rsum 0 (rank h3 4) (fun c' => @cmul Zring (rest3 p (skel_row h3 js3 4 c')) (basis h3 4 q c')) : Z) =? rest3 p q)).
Lemma check_root3_ok : check_root3 = true.
Proof. vm_compute. reflexivity. Qed.
Lemma root_interp3 : root_interpolates kern3 h3 pt3 js3 pkern3 3 sh3.
Proof.
  split.
  - intros p c' Hp Hc. pose proof (range_spec _ _ check_root3_ok p Hp) as D. cbn beta in D. apply andb_true_iff in D as [D _].
    pose proof (range_spec _ _ D c' Hc) as E. now apply Z.eqb_eq in E.
  - intros p q Hp Hq. pose proof (range_spec _ _ check_root3_ok p Hp) as D. cbn beta in D. apply andb_true_iff in D as [_ D].
    pose proof (range_spec _ _ D q Hq) as E. now apply Z.eqb_eq in E.
Qed.
Lemma undone3 : forall p, In p (js3 4) -> undone sh3 3 (pt3 p).
Proof. intros p Hp l Hl. vm_compute in Hp. destruct Hp as [<-|[]]. cases_below 3%nat Hl; vm_compute; reflexivity. Qed.
(** Every block is -1 or 1, and what the root block stands for is not zero. *)
Example rest3_not_zero : rest3 0 1 = -2.
Proof. vm_compute. reflexivity. Qed.

(** Two threads; three columns in batches of two. *)
Definition lev3 (i : Z) : list (Z * Z) := match i with 0 => [(0, 0)] | 1 => [(1, 1); (0, 0)] | 2 => [(0, 1); (1, 0)] | _ => [] end.
Definition msched3 : mm_sched := {|
  mc_fwd := lev3; mc_mid := [(1, 0); (0, 2); (0, 1); (1, 4); (1, 3)]; mc_bwd := lev3; mc_den := [(0, 3); (1, 1); (1, 2); (0, 0); (1, 4)] |}.
Lemma msched3_ok : mm_sched_ok h3 msched3.
Proof.
  constructor; try (apply omp_for_check; reflexivity);
    intros i n Hi En; cbn [h_minlevel h_maxlevel h3] in Hi; (assert (i = 0 \/ i = 1 \/ i = 2) as [-> | [-> | ->]] by lia); vm_compute in En; injection En as <-; apply omp_for_check; reflexivity.
Qed.
Definition fresh3 : pst Qred_num Zring := (MvSt None None [] [dm_init 0 0; dm_init 0 0] [] [] [], [dm_init 0 0; dm_init 0 0]).
