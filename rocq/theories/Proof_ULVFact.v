(** A ULV factorisation never faults, and if its flag stays set the stored factors
    satisfy the invariant at every node. *)
From Coq Require Import ZArith List Lia Bool Permutation.
From Verif Require Import Base Mem Num CRing Conc Model_Utils Spec_Utils Model_Dense Spec_Dense Model_Partition Spec_Tree Model_Matvec Spec_Matvec Proof_MvTree Proof_MvFwd Spec_Lapack Blk Model_ULV Spec_ULV Proof_ULVMath Proof_ULVTree Proof_ULVMem Proof_ULVAsm Proof_ULVFac Proof_ULVNode.
Import ListNotations.
Open Scope Z_scope.

Section Fact.
Context {F : num} {K : cring}.
Variable h : h2rep F K.
Hypothesis R : rep_ok h.
Notation nn := (h_nnode h).

Lemma node_sweep_inv {St} (P : list Z -> St -> Prop) item sched l ns m s :
  (forall j, 0 <= j < zlen ns -> ld (a_level_nodes (h_t h)) (l * h_nleaf h + j) = getz ns j) -> NoDup ns ->
  omp_for m (zlen ns) sched -> P [] s ->
  (forall done tid node s, In node ns -> ~ In node done -> 0 <= tid < m -> P done s ->
     exists s', item tid node s = Some s' /\ P (node :: done) s') ->
  exists s' done, node_sweep h item sched l s = Some s' /\ P done s' /\ forall i, In i done <-> In i ns.
Proof.
  intros HL Hn [Ht Hp] H0 Hs. unfold node_sweep.
  rewrite Forall_forall in Ht.
  assert (Hj : forall ev, In ev sched -> 0 <= snd ev < zlen ns).
  { intros ev Hev. apply In_zrange. eapply Permutation_in; [exact Hp|]. now apply in_map. }
  pose (key := fun ev : Z * Z => nthz ns (snd ev)).
  assert (Pk : Permutation (map key sched) ns).
  { unfold key. rewrite <- (map_map snd (nthz ns)). rewrite Hp.
    replace (map (nthz ns) (zrange 0 (zlen ns))) with ns; auto.
    apply getz_ext.
    - rewrite zlen_map, zlen_zrange by (pose proof (zlen_nonneg ns); lia). lia.
    - intros i Hi. rewrite getz_map, getz_zrange by lia. cbn [option_map]. replace (0 + i)%Z with i by lia. now apply getz_nthz. }
  match goal with |- context [run (map ?a sched) s] => destruct (run_each key a P sched [] s) as (s' & E & P') end; auto.
  - eapply Permutation_NoDup; [symmetry; exact Pk|auto].
  - intros done [tid j] s1 Hev Hd P1. specialize (Hj _ Hev). specialize (Ht _ Hev). cbn [fst snd] in Hj, Ht.
    rewrite HL by lia. rewrite (getz_nthz ns j) by lia. cbn [bind]. apply Hs; auto.
    unfold key. cbn [snd]. eapply getz_In. apply getz_nthz. exact Hj.
  - exists s', (rev (map key sched) ++ []). split; auto. split; auto. intros i. rewrite app_nil_r, <- in_rev.
    split; intros Hin; [exact (Permutation_in _ Pk Hin)|exact (Permutation_in _ (Permutation_sym Pk) Hin)].
Qed.

(** All nodes of a level, each once. *)
Lemma level_inv {St} (P : (Z -> Prop) -> St -> Prop) (Q : Z -> Prop) item sched l s : sweep_ok h sched -> 0 <= l <= h_maxlevel h ->
  (forall S S' s, (forall x, 0 <= x < nn -> (S x <-> S' x)) -> P S s -> P S' s) ->
  P Q s ->
  (forall S tid node s, 0 <= node < nn -> level h node = l -> 0 <= tid < h_nthread h -> ~ S node -> P (fun x => Q x \/ S x) s -> (forall x, S x -> level h x = l) ->
     exists s', item tid node s = Some s' /\ P (fun x => x = node \/ Q x \/ S x) s') ->
  exists s', node_sweep h item (sched l) l s = Some s' /\ P (fun x => Q x \/ level h x = l) s'.
Proof.
  intros Hsw Hl Hext H0 Hstep. destruct (level_list h R l Hl) as (ns & C & L & Nd & In_). specialize (Hsw l _ Hl C).
  destruct (node_sweep_inv (fun done s => P (fun x => Q x \/ In x done) s /\ (forall x, In x done -> In x ns)) item (sched l) l ns _ s L Nd Hsw) as (s' & done & E & (HP & _) & Hd).
  - split; [|intros x []]. eapply Hext; [|exact H0]. intros x Hx. cbn [In]. tauto.
  - intros done tid node s0 Hin Hnin Htid (HP & Hsub). destruct (proj1 (In_ node) Hin) as [Rn Ln].
    destruct (Hstep (fun x => In x done) tid node s0 Rn Ln ltac:(lia) Hnin HP) as (s1 & E1 & P1); [intros x Hx; apply In_; auto|].
    exists s1. split; auto. split; [|intros x [<-|Hx]; auto]. eapply Hext; [|exact P1]. intros x Hx. cbn [In]. intuition.
  - exists s'. split; auto. eapply Hext; [|exact HP]. intros x Hx. pose proof (Hd x). pose proof (In_ x). cbv beta. tauto.
Qed.

Variable la : lapack K.
Hypothesis LA : lapack_ok la.
Hypothesis HS : hss_ok h.
Variables getB getD : Z -> Z -> dmat K -> option (option (dmat K)).
Hypothesis HG : gets_ok h getB getD.
Variable chol : bool.
Hypothesis HD : chol = true -> diag_sym h.
Variable shift : K.

Lemma inv_iff S S' s nf pos : (forall x, 0 <= x < nn -> (S x <-> S' x)) -> inv h chol shift S s nf pos -> inv h chol shift S' s nf pos.
Proof.
  intros E [I1 I2 I3 I4 I5]. split; auto.
  - intros t Ht St. apply I3; auto. now apply E.
  - intros p k Hp Hk Np Sc. destruct (child_at h R p k Hp Hk) as (_ & Rc & _). apply I4; auto; [intros Sp; apply Np; now apply E|now apply E].
  - intros t k Ht St Hk. destruct (child_at h R t k Ht Hk) as (_ & Rc & _). apply E; auto. apply I5; auto. now apply E.
Qed.

Theorem factorize_spec sched tb : sweep_ok h sched -> zlen tb = h_nthread h -> Forall bufok tb ->
  exists u, ulv_factorize la chol h getB getD shift sched tb = Some u /\
    (u_ok u = false -> exists S s nf pos t, inv h chol shift S s nf pos /\ 0 <= t < nn /\ (forall k, 0 <= k < nchild h t -> S (child h t k)) /\ failing la h chol shift nf t) /\
    (u_ok u = true -> exists nf pos, inv h chol shift (fun _ => True) u nf pos).
Proof.
  intros Hsw Ztb Htb. unfold ulv_factorize.
  pose (Bad := exists S (s : @ulv K) nf pos t, inv h chol shift S s nf pos /\ 0 <= t < nn /\ (forall k, 0 <= k < nchild h t -> S (child h t k)) /\ failing la h chol shift nf t).
  pose (P := fun (S : Z -> Prop) (s : @ulv K) => (u_ok s = false -> Bad) /\ (u_ok s = true -> exists nf pos, inv h chol shift S s nf pos)).
  assert (Pext : forall S S' s, (forall x, 0 <= x < nn -> (S x <-> S' x)) -> P S s -> P S' s).
  { intros S S' s E [HPb HP]. split; [exact HPb|]. intros Ho. destruct (HP Ho) as (nf & pos & HI). exists nf, pos. eapply inv_iff; eauto. }
  assert (Hmax : 0 <= h_maxlevel h) by (destruct (ro_dims _ R) as (_ & _ & _ & _ & _ & ?); lia).
  match goal with |- context [zfor 0 (h_maxlevel h + 1) ?bd ?s0] => destruct (zfor_inv (fun k s => P (fun x => h_maxlevel h - k < level h x) s) 0 (h_maxlevel h + 1) bd s0) as (u & E & Hu) end.
  - lia.
  - split; [discriminate|]. intros _. exists (fun _ => NF 0 0 (fun _ _ => c0) (fun _ _ => c0) (fun _ _ => c0) (fun _ _ => c0) (fun _ _ => c0) (fun _ _ => c0) (fun _ _ => c0) (fun x => x) (fun _ _ => c0) (fun _ _ => c0)), (fun _ x => x).
    assert (Hn : 0 <= nn) by (destruct (ct_root _ _ _ _ _ _ (ro_tree _ R)); lia).
    assert (No : forall t, 0 <= t < nn -> ~ h_maxlevel h - 0 < level h t) by (intros t Ht; pose proof (level_range h R t Ht); lia).
    split; cbn; rewrite ?zlen_arr, ?zlen_alloc by lia; auto 10.
    + intros t Ht St. destruct (No t Ht St).
    + intros p k Hp Hk _ Sc. destruct (child_at h R p k Hp Hk) as (_ & Rc & _). destruct (No _ Rc Sc).
    + intros t k Ht St. destruct (No t Ht St).
  - intros k s Hk HP. cbv beta. destruct (u_ok s) eqn:Ho; cbn [negb].
    2:{ exists s. split; auto. split; [intros _; exact (proj1 HP Ho)|]. intros Ho'. congruence. }
    set (l := h_maxlevel h - k) in *.
    destruct (level_inv P (fun x => l < level h x) (fun tid node s => ulv_node la chol h getB getD shift l tid node s) sched l s Hsw) as (s' & E' & HP'); auto.
    + unfold l. lia.
    + intros S tid node s0 Rn Ln Htid Nin HP0 HSl.
      destruct (u_ok s0) eqn:Ho0.
      * destruct (proj2 HP0 Ho0) as (nf & pos & HI). rewrite <- Ln.
        destruct (ulv_node_spec la LA h R HS getB getD HG chol HD shift _ s0 nf pos HI node Rn) with (tid := tid) as (s1 & E1 & HB1 & H1); auto.
        { intros [H|H]; [lia|contradiction]. }
        { intros c Hc. left. destruct (child_at h R node c Rn Hc) as (_ & _ & _ & ->). lia. }
        exists s1. split; [exact E1|]. split.
        { intros Ho1. exists (fun x => l < level h x \/ S x), s0, nf, pos, node. split; [exact HI|]. split; [exact Rn|]. split; [|exact (HB1 Ho1)]. intros c Hc. left. destruct (child_at h R node c Rn Hc) as (_ & _ & _ & ->). lia. }
        intros Ho1. destruct (H1 Ho1) as (nf' & pos' & HI'). exists nf', pos'. eapply inv_iff; [|exact HI']. intros x Hx. cbv beta. rewrite Ln. tauto.
      * unfold ulv_node. rewrite Ho0. cbn [negb]. exists s0. split; auto. split; [intros _; exact (proj1 HP0 Ho0)|]. intros Ho'. congruence.
    + exists s'. split; auto. eapply Pext; [|exact HP']. intros x Hx. cbv beta. unfold l. pose proof (level_range h R x Hx). lia.
  - rewrite E. exists u. split; auto. split; [exact (proj1 Hu)|]. intros Ho. destruct (proj2 Hu Ho) as (nf & pos & HI). exists nf, pos. eapply inv_iff; [|exact HI]. intros x Hx. pose proof (level_range h R x Hx). split; auto. lia.
Qed.
End Fact.
