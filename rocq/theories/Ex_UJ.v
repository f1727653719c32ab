(** A concrete run of the construction of bases: the five points of Ex_Build.v,
    two threads taking the six nodes below the cut from the queue. *)
From Coq Require Import ZArith QArith List Lia Bool Permutation.
From Verif Require Import Base Mem Num CRing FNum Conc Model_Utils Spec_Utils Proof_Utils Model_Dense Spec_Dense Model_Partition Spec_Tree Spec_Partition Props_Partition Proof_PairsTop
  Model_Pairs Spec_Pairs Props_Pairs Model_Matvec Spec_Matvec Model_Build Spec_Build Ex_Matvec Ex_Build Model_ID Spec_ID Props_ID Model_UJ Spec_UJ
  Model_DagQueue Spec_DagQueue Proof_DagQueue Proof_DagQueueInv Proof_DagQueueLive Proof_DagQueueTop.
Import ListNotations.
Open Scope Z_scope.

Definition src5 : list Z := [0; 1; 2; 3; 4; 5; 6; 7; 8; 9].
Definition dst5 : list Z := [2; 2; 2; 5; 5; 7; 7; 7; 8].
Definition g5 : graph := mkGraph 9 6 src5 dst5 [0; 0; 3; 0; 0; 2; 0; 3; 1].
Definition q5 : queue := mkQueue 0 5 [0; 0; 3; 0; 0; 2; 0; 3; 1] [0; 1; 3; 4; 6; -1; -1; -1; -1].
Definition steps5 : list (nat * act) :=
  [(0%nat, CallGet); (1%nat, CallGet); (1%nat, Step); (0%nat, Step); (1%nat, CallFin 1); (1%nat, Step);
   (0%nat, CallFin 0); (1%nat, Step); (1%nat, CallGet); (0%nat, Step); (1%nat, Step); (1%nat, CallFin 3);
   (0%nat, Step); (1%nat, Step); (1%nat, Step); (0%nat, CallGet); (1%nat, CallGet); (1%nat, Step);
   (0%nat, Step); (1%nat, CallFin 6); (1%nat, Step); (0%nat, CallFin 4); (1%nat, Step); (1%nat, CallGet);
   (0%nat, Step); (1%nat, Step); (1%nat, Step); (0%nat, Step); (1%nat, Step); (1%nat, Step);
   (0%nat, Step); (1%nat, Step); (1%nat, CallFin 5); (0%nat, Step); (1%nat, Step); (1%nat, Step); (0%nat, CallGet)].
Definition evs5 : list (Z * Z) := [(1, 1); (0, 0); (1, 3); (1, 6); (0, 4); (1, 5)].

Lemma dag5 : upward_dag 9 2 (a_level (r_arrays tree5b)) (a_parent (r_arrays tree5b)) = Some (src5, dst5).
Proof. vm_compute. reflexivity. Qed.
Lemma queue5 : queue_schedule 9 2 src5 dst5 evs5.
Proof.
  destruct (Spec_DagQueue.run g5 (start q5) steps5) as [s|] eqn:E; [|vm_compute in E; discriminate].
  exists g5, q5, s. split; [exists (arr 9 0), (arr 9 0); vm_compute; auto|]. split; [eapply run_reach; [apply reach_start|exact E]|].
  vm_compute in E. injection E as <-. split; [exists 0%nat; now left|]. split; [|split; [reflexivity|split; [reflexivity|]]].
  - intros [|[|i]] (h & Hh); vm_compute in Hh; discriminate Hh.
  - intros t i Hi. vm_compute in Hi. repeat (destruct Hi as [Hi|Hi]; [injection Hi as <- <-; lia|]). contradiction.
Qed.

(** One thread taking the nodes in another order. *)
Definition steps5' : list (nat * act) :=
  flat_map (fun k => (0%nat, CallGet) :: (0%nat, Step) :: (0%nat, CallFin k) :: repeat (0%nat, Step) (if k =? 4 then 4 else 2)) [0; 1; 3; 4; 6; 5] ++ [(0%nat, CallGet)].
Definition evs5' : list (Z * Z) := [(0, 0); (0, 1); (0, 3); (0, 4); (0, 6); (0, 5)].
Lemma queue5' : queue_schedule 9 1 src5 dst5 evs5'.
Proof.
  destruct (Spec_DagQueue.run g5 (start q5) steps5') as [s|] eqn:E; [|vm_compute in E; discriminate].
  exists g5, q5, s. split; [exists (arr 9 0), (arr 9 0); vm_compute; auto|]. split; [eapply run_reach; [apply reach_start|exact E]|].
  vm_compute in E. injection E as <-. split; [exists 0%nat; now left|]. split; [|split; [reflexivity|split; [reflexivity|]]].
  - intros [|i] (h & Hh); vm_compute in Hh; discriminate Hh.
  - intros t i Hi. vm_compute in Hi. repeat (destruct Hi as [Hi|Hi]; [injection Hi as <- <-; lia|]). contradiction.
Qed.

(** Two proxy points per level, left and right of the box. *)
Definition pp5 : list (dmat Qred_num) := map (fun _ => mkDM 1 2 2 2 [Some ((-2)%Q : Qred_num); Some (2%Q : Qred_num)]) (zrange 0 4).
Definition ctx5 (E : fnum) (stp : @stop E) : uctx Qred_num E := UCtx 1 1 1 5 (r_coord tree5b) (r_arrays tree5b) pp5 true stp.

Lemma input5 (E : fnum) (stp : @stop E) : uj_input (ctx5 E stp) 9 3 5 2.
Proof.
  constructor; cbn [ctx5 c_ptdim c_dim c_kdim c_npoint c_t c_coord c_pp].
  - lia.
  - destruct (boxes_of_tree _ _ _ _ _ _ _ _ _ _ pts5b_ok tree5b_built) as (CT & _). exact CT.
  - intros i k Hi Hk. change (1 * 2) with 2 in *. cases_below 9%nat Hi; cases_below 2%nat Hk; eexists; reflexivity.
  - split; [reflexivity|]. intros k Hk. change (5 * 1) with 5 in Hk. cases_below 5%nat Hk; eexists; reflexivity.
  - intros l Hl. assert (l = 2 \/ l = 3) as [-> | ->] by lia; (eexists; split; [reflexivity|]); (split; [vm_compute; discriminate|]); intros d j Hd Hj; assert (d = 0) by lia; subst d; cases_below 2%nat Hj; eexists; reflexivity.
Qed.

Definition tb5 (E : fnum) : list (tbuf Qred_num E) := [TBuf (dm_init 0 0) (dm_init 0 0) (iv_init 0); TBuf (dm_init 2 3) (dm_init 1 1) (iv_init 7)].
Lemma team5 (E : fnum) (stp : @stop E) : uj_team (ctx5 E stp) 9 2 2 (tb5 E) evs5.
Proof.
  split; [exists src5, dst5; split; [exact dag5|exact queue5]|]. split; [reflexivity|]. intros t b H. pose proof (getz_range _ _ _ H) as Ht. change (zlen (tb5 E)) with 2 in Ht.
  assert (t = 0 \/ t = 1) as [-> | ->] by lia; vm_compute in H; injection H as <-; (split; [vm_compute; reflexivity|]); (split; [vm_compute; reflexivity|]); exists []; (split; [reflexivity|]); (split; [reflexivity|]); (split; [vm_compute; discriminate|]); intros k Hk; zlia.
Qed.
Lemma team5' (E : fnum) (stp : @stop E) : uj_team (ctx5 E stp) 9 2 1 [TBuf (dm_init 0 0) (dm_init 0 0) (iv_init 0)] evs5'.
Proof.
  split; [exists src5, dst5; split; [exact dag5|exact queue5']|]. split; [reflexivity|]. intros t b H. pose proof (getz_range _ _ _ H) as Ht. change (zlen [_]) with 1 in Ht.
  assert (t = 0) as -> by lia; vm_compute in H; injection H as <-; (split; [vm_compute; reflexivity|]); (split; [vm_compute; reflexivity|]); exists []; (split; [reflexivity|]); (split; [reflexivity|]); (split; [vm_compute; discriminate|]); intros k Hk; zlia.
Qed.
