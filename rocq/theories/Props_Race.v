(** C31: the parallel regions of the matvec are race free. *)
From Coq Require Import ZArith List Lia Bool Permutation.
From Verif Require Import Base Mem Num CRing Conc Race Model_Utils Model_Dense Spec_Dense Model_Partition Spec_Tree Model_Matvec Spec_Matvec Model_MvFine Proof_MvTop Proof_MvRace Ex_Matvec Props_Matvec.
Import ListNotations.
Open Scope Z_scope.

(** Whatever iterations and blocks the OpenMP runtime gives to which thread, and
    however the single memory accesses of the threads interleave: in no reachable
    state are two threads about to access the same location, one of them writing;
    no thread ever accesses memory outside an array or reads an unset cell; and
    when the last region is done [y] holds the H2 matrix times x, the rest of [y]
    being unchanged.  ([matvec_fine] is a chain of [par], which says this of each
    region by [safe], Race.v.) *)
Theorem C31_matvec_race_free :
  forall (F : num) (K : cring) (h : h2rep F K) fc s (x y : mem K) (xf : Z -> K),
    rep_ok h -> choices_ok h fc -> state_ok h s ->
    (forall j, 0 <= j < h_kms h -> ld x j = Some (xf j)) -> h_kms h <= zlen y ->
    matvec_fine h fc s x y (fun _ y' =>
      (forall i, 0 <= i < h_kms h ->
        ld y' i = Some (rsum 0 (h_kms h) (fun j => cmul (Hmat h (nthz (h_bwd h) i) (nthz (h_bwd h) j)) (xf j)))) /\
      (forall i, h_kms h <= i -> getz y' i = getz y i)).
Proof.
  intros F K h fc s x y xf R C S Hx Hy. eapply matvec_fine_mono; [|eapply matvec_fine_spec; eauto].
  intros s' y' E. cbv beta in E.
  destruct (matvec_spec h R _ s x y xf (sched_of_ok h _ C) S Hx Hy) as (s1 & y1 & E1 & _ & _ & G & U).
  rewrite E1 in E. injection E as <- <-. auto.
Qed.
Print Assumptions C31_matvec_race_free.

(** The accesses of the regions in any order give what the sequential order of the
    items gives (the model of C19-C22, C30, C32), buffers included. *)
Theorem C31_matvec_interleavings_agree :
  forall (F : num) (K : cring) (h : h2rep F K) fc s (x y : mem K) (xf : Z -> K),
    rep_ok h -> choices_ok h fc -> state_ok h s ->
    (forall j, 0 <= j < h_kms h -> ld x j = Some (xf j)) -> h_kms h <= zlen y ->
    exists sc, schedule_ok h sc /\ matvec_fine h fc s x y (fun s' y' => matvec h sc s x y = Some (s', y')).
Proof.
  intros F K h fc s x y xf R C S Hx Hy. exists (sched_of h fc). split; [now apply sched_of_ok|]. eapply matvec_fine_spec; eauto.
Qed.
Print Assumptions C31_matvec_interleavings_agree.

(** ** A concrete case: the representation of C19's example on two threads *)
Definition fc5 : choices := {|
  fc_fwd := fun i => if i =? 2 then [[0; 3]; [2; 1]] else [[1]; [0]];
  fc_mid := [[0]; [1]]; fc_sum := [[8; 1; 2; 3; 6]; [0; 5; 4; 7]];
  fc_bwd := fun i => if i =? 2 then [[0]; [3; 2; 1]] else [[1; 0]; []];
  fc_den0 := [[0]; [1]]; fc_den1 := [[0]; [1]] |}.
Lemma fc5_ok : choices_ok rep5 fc5.
Proof.
  constructor.
  - intros i n Hi En. cbn [h_minlevel h_maxlevel rep5] in Hi. assert (i = 2 \/ i = 3) as [-> | ->] by lia; vm_compute in En; injection En as <-; (split; [reflexivity|apply zperm_ok; reflexivity]).
  - reflexivity.
  - split; [reflexivity|apply zperm_ok; reflexivity].
  - intros i n Hi En. cbn [h_minlevel h_maxlevel rep5] in Hi. assert (i = 2 \/ i = 3) as [-> | ->] by lia; vm_compute in En; injection En as <-; (split; [reflexivity|apply zperm_ok; reflexivity]).
  - reflexivity.
  - reflexivity.
Qed.
Example C31_instance : matvec_fine rep5 fc5 fresh5 x5 (alloc 7) (fun _ y' => y' = map Some [116; 58; 290; 174; 232] ++ [None; None]).
Proof.
  eapply matvec_fine_mono; [|eapply (matvec_fine_spec rep5 rep5_ok fc5 fresh5 x5 (alloc 7)); [exact fc5_ok|exact fresh5_ok|exact x5_val|vm_compute; discriminate]].
  intros s' y' E. assert (V : vals (matvec rep5 (sched_of rep5 fc5) fresh5 x5 (alloc 7)) = Some (map Some [116; 58; 290; 174; 232] ++ [None; None])) by (vm_compute; reflexivity).
  rewrite E in V. injection V as ->. reflexivity.
Qed.

(** [par] does tell races: two threads that both add to pmt_y[0] are rejected. *)
Example C31_race_is_seen : ~ par (K := Zring) false (fun v : Z => addC false (LPY 0) (v : Zring)) [[1]; [2]] (set_py fresh5 (map Some [0; 0; 0; 0; 0])) (fun _ => True).
Proof.
  intros H. unfold par in H. set (m := set_py fresh5 _) in H.
  assert (G : exists p q, steps (mstore (K := Zring) false) (map (fun t => pseq (mstore false) (map (fun v : Z => addC false (LPY 0) (v : Zring)) t)) [[1]; [2]], m) ([p; q], m)
    /\ next (mstore false) p = Some (true, LPY 0) /\ next (mstore false) q = Some (false, LPY 0)).
  { do 2 eexists. split; [|split].
    - eapply steps_step; [|apply steps_refl]. cbn [map]. apply (@step_rd (mstore (K := Zring) false) [] (LPY 0) _ [_] m (VC (Some (0 : Zring)))). reflexivity.
    - reflexivity.
    - reflexivity. }
  destruct G as (p & q & St & Np & Nq). destruct (H _ _ St) as (A & _). apply A.
  exists [], p, [], q, []. eexists _, _. split; [reflexivity|]. split; [exact Np|]. split; [exact Nq|]. split; [reflexivity|left; reflexivity].
Qed.
