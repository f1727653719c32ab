(** A representation of six points, two of them equal, with leaves of one and two points. *)
From Coq Require Import ZArith QArith Reals List Lia Lra Bool Permutation.
From Verif Require Import Base Mem Num CRing FNum Model_Utils Spec_Utils Spec_Dense Model_Dense Model_Partition Spec_Tree Spec_Partition
  Model_Pairs Spec_Pairs Props_Pairs Model_Matvec Spec_Matvec Model_Build Spec_Build Spec_Lapack Spec_SPD Spec_BJ Spec_FSAI Proof_Lapack Proof_NysMath Proof_Sched Proof_BuildUse Ex_Matvec Ex_Build.
Import ListNotations.
Open Scope Z_scope.

Definition pts6 : mem Qred_num := map Some ([3#8; 0; 1; 5#8; 13#16; 0])%Q.
Definition tree6 : tree_result Qred_num :=
  Eval vm_compute in match build_tree 6 (fun _ => (1#3)%Q : Qred_num) 1 1 6 pts6 2 (0%Q : Qred_num) None with Some (Some t) => t | _ => tree5b end.
Lemma tree6_built : build_tree 6 (fun _ => (1#3)%Q : Qred_num) 1 1 6 pts6 2 (0%Q : Qred_num) None = Some (Some tree6).
Proof. vm_compute. reflexivity. Qed.
Lemma pts6_ok : points_ok 1 1 6 pts6 None.
Proof.
  split; [lia|]. split; [lia|]. split; [|exact I]. split; [reflexivity|]. intros k Hk.
  cases_below 6%nat Hk; eexists; reflexivity.
Qed.
Definition ps6 : pairs := Pairs [(0, 3); (0, 4); (1, 4)] [(0, 1); (3, 4); (1, 3)] 2.
Lemma pairs6 : calc_reduced_adm_pairs 30 1 ALPHA_H2 0 (r_n_node tree6) (r_max_level tree6) (r_arrays tree6) = Some ps6.
Proof. vm_compute. reflexivity. Qed.
Definition js6 (i : Z) : list Z := match i with 0 => [0] | 1 => [2] | 3 => [3] | 4 => [4] | _ => [] end.
Definition J6 : list int_vec := map (fun i => iv1 (js6 i)) (zrange 0 7).
Definition Jc6 : list (dmat Qred_num) := map (fun i => mkDM 1 (zlen (js6 i)) (zlen (js6 i)) (zlen (js6 i)) (map (fun p => ld (r_coord tree6) p) (js6 i))) (zrange 0 7).
Section K.
Context {K : cring}.
Definition one_col (m : Z) : dmat K := mkDM m 1 1 m (map (fun _ => Some c1) (zrange 0 m)).
Definition no_col : dmat K := mkDM 0 0 0 0 [].
Definition U6 : list (dmat K) := [one_col 2; one_col 1; no_col; one_col 1; one_col 2; no_col; no_col].
Lemma skel6 : skeletons_ok 1 1 1 6 7 2 (r_coord tree6) (r_arrays tree6) U6 J6 Jc6 js6.
Proof.
  constructor.
  - repeat split; reflexivity.
  - intros i v H. assert (Hi : 0 <= i < 7) by (apply getz_range in H; exact H).
    cases_below 7%nat Hi; vm_compute in H; injection H as <-; match goal with |- iv_holds _ ?l => exact (iv1_holds l) end.
  - intros i m H. assert (Hi : 0 <= i < 7) by (apply getz_range in H; exact H).
    cases_below 7%nat Hi; vm_compute in H; injection H as <-; (split; [reflexivity|]); intros d k p Hd Hk;
      assert (d = 0) by lia; subst d; cbn [js6] in Hk; getz_split Hk; reflexivity.
  - intros i p Hi Hl Hp. cases_below 7%nat Hi; try (exfalso; apply Hl; reflexivity); vm_compute in Hp; destruct Hp as [<-|[]]; reflexivity.
  - intros i V H. assert (Hi : 0 <= i < 7) by (apply getz_range in H; exact H).
    cases_below 7%nat Hi; cbv in H; injection H as <-; (split; [intros HH; try reflexivity; vm_compute in HH; discriminate HH|]); intros HH;
      try (exfalso; apply HH; reflexivity);
      (split; [vm_compute; discriminate|]); (split; [reflexivity|]); (split; [vm_compute; reflexivity|]); (split; [unfold fits; cbn; zlia|]);
      intros r c Hr Hc; cbn [dm_nrow dm_ncol] in Hr, Hc; first [cases_below 1%nat Hr | cases_below 2%nat Hr]; cases_below 1%nat Hc; eexists; reflexivity.
Qed.
Lemma inputs6 : exists sc, build_inputs 6 (fun _ => (1#3)%Q : Qred_num) 1 1 1 6 2 pts6 2 (0%Q : Qred_num) None ALPHA_H2 30 tree6 ps6 U6 J6 Jc6 js6 (iv1 []) (iv1 []) (iv1 []) sc.
Proof.
  destruct (build_sched_exists 1 2 tree6 ps6 J6 (iv1 []) (iv1 []) (iv1 [])) as (sc & Hsc). exists sc. constructor.
  - lia.
  - exact pts6_ok.
  - exact tree6_built.
  - vm_compute. congruence.
  - exact pairs6.
  - discriminate.
  - exact skel6.
  - split; [|split]; exists []; apply iv1_holds.
  - exact Hsc.
Qed.
(** For every kernel. *)
Lemma built6 (kern : list Qred_num -> list Qred_num -> Z -> Z -> K) : exists sc h bm dm, h2_build kern 1 1 1 6 2 tree6 ps6 U6 J6 Jc6 (iv1 []) (iv1 []) (iv1 []) sc = Some (h, bm, dm).
Proof.
  destruct inputs6 as (sc & BI). destruct (build_all kern _ _ _ _ _ _ _ _ _ _ _ _ _ _ _ _ _ _ _ _ _ _ _ BI) as (h & bm & dm & E & _). exists sc, h, bm, dm. exact E.
Qed.
End K.

Definition kern6 (p q : list Qred_num) (_ _ : Z) : R := (1 + Q2R (hd 0%Q p) * Q2R (hd 0%Q q))%R.
Definition KM6 : Z -> Z -> R := @kernel_matrix Qred_num Rring kern6 1 (coords_of 1 6 pts6).
Lemma KM6_sym i j : KM6 i j = KM6 j i.
Proof. unfold KM6, kernel_matrix, kern6. ring. Qed.
Lemma KM6_pd : pos_def 6 (fun i j => (KM6 i j + (if (i =? j)%Z then 1 else 0))%R).
Proof.
  set (x := fun i : Z => Q2R (hd 0%Q (coords_of 1 6 pts6 (i / 1) : list Q))).
  intros y (i & Hi & Hy). set (B := fun i k : Z => if (k =? 0)%Z then 1%R else x i).
  assert (Q : quad 6 (fun i j => (KM6 i j + (if (i =? j)%Z then 1 else 0))%R) y =
    (quad 6 (fun i j => S 0 2 (fun k => B i k * 1 * B j k)%R) y + S 0 6 (fun i => y i * y i))%R).
  { unfold quad at 1 2. change (S 0 6 (fun i => S 0 6 (fun j => y i * (KM6 i j + (if (i =? j)%Z then 1 else 0)) * y j)) = S 0 6 (fun i => S 0 6 (fun j => y i * S 0 2 (fun k => B i k * 1 * B j k) * y j)) + S 0 6 (fun i => y i * y i))%R.
    rewrite <- S_add. apply S_ext. intros p Hp.
    transitivity (S 0 6 (fun j => y p * S 0 2 (fun k => B p k * 1 * B j k) * y j + (if (j =? p)%Z then y p * y j else 0)))%R.
    - apply S_ext. intros q Hq. assert (E : S 0 2 (fun k => B p k * 1 * B q k)%R = KM6 p q).
      { unfold S, rsum. change (zrange 0 2) with [0; 1]. cbn [lsum fold_right map]. unfold B. unfold KM6, kernel_matrix, kern6. fold (x p) (x q). change (0 =? 0)%Z with true. change (1 =? 0)%Z with false. cbv iota beta. change (@c0 Rring) with 0%R. change (@cadd Rring) with Rplus. ring. }
      rewrite E, (Z.eqb_sym q p). destruct (p =? q)%Z; ring.
    - rewrite S_add. f_equal. refine (eq_trans (@rsum_delta Rring 0 6 p (fun j => y p * y j)%R) _). destruct (Z.leb_spec 0 p); [|lia]. destruct (Z.ltb_spec p 6); [|lia]. reflexivity. }
  rewrite Q, quad_outer.
  assert (P1 : (0 <= S 0 2 (fun k => 1 * (S 0 6 (fun i => B i k * y i) * S 0 6 (fun i => B i k * y i))))%R).
  { apply S_nonneg. intros k Hk. rewrite Rmult_1_l. apply Rle_0_sqr. }
  assert (P2 : (y i * y i <= S 0 6 (fun i => y i * y i))%R).
  { apply (S_term 0 6 (fun i => (y i * y i)%R) i); auto. intros k Hk. apply Rle_0_sqr. }
  assert (P3 : (0 < y i * y i)%R) by (apply Rsqr_pos_lt; exact Hy). lra.
Qed.
