(** The representation of Ex_Matvec.v with a node of rank zero (node 3, a leaf
    whose parent is node 5): what H2P_build produces when the skeleton of node 3
    comes out empty. *)
From Coq Require Import ZArith QArith List Lia Bool Permutation.
From Verif Require Import Base Mem Num CRing Conc Model_Utils Spec_Utils Model_Dense Spec_Dense Model_Partition Spec_Tree Spec_Partition Model_Pairs Spec_Pairs Proof_PairsTop Props_Pairs Model_Matvec Spec_Matvec Ex_Matvec.
Import ListNotations.
Open Scope Z_scope.

Definition rep5z : h2rep Qred_num Zring := {|
  h_ptdim := 1; h_npoint := 5; h_kdim := 1; h_nthread := 2; h_nnode := 9; h_maxchild := 2; h_nleaf := 5;
  h_maxlevel := 3; h_minlevel := 2; h_kms := 5;
  h_t := r_arrays tree5;
  h_mcl := map Some [0;0; 1;1; 0;1; 2;2; 3;3; 2;3; 4;4; 2;4; 0;4];
  h_U := [dm1 1 1 [1]; dm1 1 1 [2]; dm1 0 0 []; dm1 1 0 []; dm1 1 1 [4]; dm1 1 1 [1]; dm1 1 1 [5]; dm1 0 0 []; dm1 0 0 []];
  h_adm := [(3, 6); (0, 5); (0, 6); (1, 4); (1, 6)]; h_inadm := [(0, 1); (3, 4); (4, 6); (1, 3)];
  h_nr := map Some [2; 2; 0; 1; 1; 1; 3; 0; 0];
  h_Bnrow := map Some [0;1;1;1;1]; h_Bncol := map Some [1;1;1;1;1]; h_Bptr := map Some [0;0;1;2;3;4];
  h_Bdata := (map Some [1;1;2;1] : mem Zring);
  h_Dnrow := map Some [1;1;1;1;1;1;1;1;1]; h_Dncol := map Some [1;1;1;1;1;1;1;1;1]; h_Dptr := map Some [0;1;2;3;4;5;6;7;8;9];
  h_Ddata := (map Some [1;4;9;16;25;2;12;20;6] : mem Zring);
  h_Bblk := iv1 [0;3;5]; h_D0blk := iv1 [0;3;5]; h_D1blk := iv1 [0;2;4];
  h_fwd := [1;0;3;4;2]; h_bwd := [1;0;4;2;3]
|}.

Ltac getz_split H :=
  let n := fresh "n" in let E := fresh in
  apply getz_cases in H as (n & -> & E);
  repeat (destruct n as [|n]; [injection E; clear E; intros; subst|cbn [nth_error h_adm h_inadm h_U rep5z] in E]); try (destruct n; discriminate E).

Theorem rep5z_ok : rep_ok_rank 0 rep5z.
Proof.
  constructor.
  - cbn. lia.
  - exact (proj1 (boxes_of_tree _ _ _ _ _ _ _ _ _ _ pts5_ok tree5_built)).
  - intros i s e Hi Es Ee. cbn [h_nnode rep5z] in Hi. cases_below 9%nat Hi; vm_compute in Es; vm_compute in Ee; injection Es as <-; injection Ee as <-; split; reflexivity.
  - split; [reflexivity|]. intros i U HU. cbn [h_U rep5z] in HU.
    getz_split HU; (split; [intros HH; try reflexivity; vm_compute in HH; discriminate HH|]); intros HH;
      try (exfalso; vm_compute in HH; apply HH; reflexivity);
      (split; [vm_compute; discriminate|]);
      (split; [vm_compute; reflexivity|]); (split; [unfold fits; cbn; zlia|]); intros r c Hr Hc; cbn in Hr, Hc; try (exfalso; lia);
      assert (c = 0) by lia; subst c;
      (assert (r = 0 \/ r = 1) as [-> | ->] by lia; [eexists; vm_compute; reflexivity|]); try (exfalso; lia); eexists; vm_compute; reflexivity.
  - intros k n0 n1 Hk. cbn [h_adm rep5z] in Hk. getz_split Hk; vm_compute; repeat split; congruence.
  - split; [reflexivity|]. intros i Hi. cbn [h_nnode rep5z] in Hi.
    cases_below 9%nat Hi; eexists; (split; [reflexivity|]); intros (k & n0 & n1 & Hk & Hor) Hz; try discriminate Hz;
      cbn [h_adm rep5z] in Hk; getz_split Hk; lia.
  - intros k n0 n1 Hk. cbn [h_adm rep5z] in Hk.
    getz_split Hk; eexists _, _, _; (split; [reflexivity|]); (split; [reflexivity|]); (split; [reflexivity|]);
      (split; [vm_compute; reflexivity|]); (split; [vm_compute; reflexivity|]); (split; [lia|]); intros j Hj; try (exfalso; lia); assert (j = 0) by lia; subst j; eexists; reflexivity.
  - apply blocks1; try reflexivity. vm_compute. congruence.
  - intros k n0 n1 Hk. cbn [h_inadm rep5z] in Hk. getz_split Hk; vm_compute; repeat split; congruence.
  - intros k n0 n1 Hk. cbn [h_inadm rep5z] in Hk.
    getz_split Hk; eexists; (split; [reflexivity|]); (split; [reflexivity|]); (split; [reflexivity|]);
      (split; [lia|]); intros j Hj; vm_compute in Hj; assert (j = 0) by (destruct Hj as [Hj1 Hj2]; destruct j; auto; try discriminate Hj2; try destruct p; try discriminate Hj2; exfalso; apply Hj1; reflexivity); subst j; eexists; reflexivity.
  - intros k Hk. cbn [h_nleaf rep5z] in Hk.
    cases_below 5%nat Hk; eexists; (split; [reflexivity|]); (split; [reflexivity|]); (split; [reflexivity|]);
      split; try lia; intros j Hj; vm_compute in Hj; assert (j = 0) by (destruct Hj as [Hj1 Hj2]; destruct j; auto; try discriminate Hj2; try destruct p; try discriminate Hj2; exfalso; apply Hj1; reflexivity); subst j; eexists; reflexivity.
  - apply blocks1; try reflexivity. vm_compute. congruence.
  - apply blocks1; try reflexivity. vm_compute. congruence.
  - split; [reflexivity|]. split; [reflexivity|]. intros i Hi. cbn [h_kms rep5z] in Hi.
    cases_below 5%nat Hi; vm_compute; repeat split; congruence.
Qed.

