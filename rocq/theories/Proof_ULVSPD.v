(** Over the reals: the factorisations succeed on a positive definite system, and
    the Cholesky factorisation succeeds on no other symmetric one. *)
From Coq Require Import ZArith List Lia Bool Reals Lra.
From Verif Require Import Base Mem Num CRing FNum Conc Model_Utils Model_Dense Spec_Dense Model_Matvec Spec_Matvec Proof_MvTree Proof_MvFwd Proof_MvCor Spec_Lapack Spec_SPD Blk Model_ULV Spec_ULV Proof_ULVMath Proof_ULVTree Proof_ULVMem Proof_ULVAsm Proof_ULVFac Proof_ULVNode Proof_ULVFact Proof_ULVEn Proof_ULVBil Proof_ULVSyn.
Import ListNotations.
Open Scope Z_scope.

Section SPD.
Context {F : num}.
Variable la : lapack Rring.
Hypothesis LA : lapack_ok la.
Hypothesis LE : lapack_exact la.
Variable h : h2rep F Rring.
Hypothesis RO : rep_ok h.
Hypothesis HS : hss_ok h.
Variable chol : bool.
Variable shift : R.
Notation nn := (h_nnode h).
Notation N := (h_kms h).

Lemma quad_qf n (A : Z -> Z -> R) (y : Z -> R) : Spec_SPD.quad n A y = @qf Rring n A (y : Z -> Rring).
Proof. reflexivity. Qed.
Lemma quad_user (y : Z -> R) : Spec_SPD.quad N (Suser h shift) (fun i => y (nthz (h_bwd h) i)) = Spec_SPD.quad N (Smat h shift) y.
Proof.
  destruct (ro_pmt _ RO) as (_ & _ & Hpm). rewrite !quad_qf. unfold qf.
  assert (Re : forall f : Z -> Rring, rsum 0 N (fun i => f (nthz (h_bwd h) i)) = rsum 0 N f).
  { intros f. rewrite <- (rsum_reindex (fun _ => true) f (fun j => f (nthz (h_bwd h) j)) 0 N 0 N (nthz (h_bwd h))).
    - reflexivity.
    - intros l Hl. split; [apply Hpm; auto|]. split; reflexivity.
    - intros q Hq _. exists (nthz (h_fwd h) q). split; [apply Hpm; auto|]. symmetry. apply Hpm; auto.
    - intros l l' Hl Hl' Eq. destruct (Hpm l Hl) as (_ & _ & _ & <-). rewrite Eq. apply Hpm; auto. }
  refine (eq_trans _ (Re (fun p => rsum 0 N (fun q => @cmul Rring (@cmul Rring (y p) (Smat h shift p q)) (y q))))). apply rsum_ext. intros i Hi.
  exact (Re (fun q => @cmul Rring (@cmul Rring (y (nthz (h_bwd h) i)) (Smat h shift (nthz (h_bwd h) i) q)) (y q))).
Qed.
Lemma pos_def_user : pos_def N (Suser h shift) <-> pos_def N (Smat h shift).
Proof.
  destruct (ro_pmt _ RO) as (_ & _ & Hpm). split; intros H y (i & Hi & Hy).
  - rewrite <- quad_user. apply H. destruct (Hpm i Hi) as (A & B & C & D). exists (nthz (h_fwd h) i). split; auto. now rewrite C.
  - pose (y' := fun p => y (nthz (h_fwd h) p)).
    replace (Spec_SPD.quad N (Suser h shift) y) with (Spec_SPD.quad N (Suser h shift) (fun i => y' (nthz (h_bwd h) i))).
    2:{ rewrite !quad_qf. apply (@qf_ext Rring); auto. intros j Hj. unfold y'. destruct (Hpm j Hj) as (_ & _ & _ & ->). reflexivity. }
    rewrite quad_user. apply H. destruct (Hpm i Hi) as (A & B & C & D). exists (nthz (h_bwd h) i). split; auto. unfold y'. now rewrite D.
Qed.
Lemma not_allz n (x : Z -> R) : ~ @allz Rring n x -> notzero n x.
Proof.
  intros H. destruct (Z.le_gt_cases 0 n) as [Hn|Hn]; [|destruct H; intros i Hi; lia].
  revert n Hn H. apply (natlike_ind (fun n => ~ @allz Rring n x -> notzero n x)).
  - intros H. destruct H. intros i Hi. lia.
  - intros n Hn IH H. destruct (Req_dec (x n) 0) as [E|E].
    + destruct IH as (i & Hi & Hx).
      * intros A. apply H. intros i Hi. destruct (Z.eq_dec i n) as [->|]; [exact E|]. apply A. lia.
      * exists i. split; auto. lia.
    + exists n. split; auto. lia.
Qed.

Variables getB getD : Z -> Z -> dmat Rring -> option (option (dmat Rring)).
Hypothesis HG : gets_ok h getB getD.
Hypothesis HD : chol = true -> diag_sym h.

Theorem spd_flag sched tb : pos_def N (Suser h shift) -> sweep_ok h sched -> zlen tb = h_nthread h -> Forall bufok tb ->
  exists u, ulv_factorize la chol h getB getD shift sched tb = Some u /\ u_ok u = true.
Proof.
  intros PD Hsw Ztb Htb. apply pos_def_user in PD. destruct (factorize_spec h RO la LA HS getB getD HG chol HD shift sched tb Hsw Ztb Htb) as (u & E & HB & _).
  exists u. split; auto. destruct (u_ok u) eqn:Eo; auto. exfalso. destruct (HB eq_refl) as (S & s & nf & pos & t & HI & Ht & Sc & (Dh & Uh & Q & Lk & HQ & Sy & (A & HA & Hinfo))). clear HB.
  pose proof (rank_le h RO HS t Ht) as Hr. set (m := nrows h t - rank h t) in *.
  assert (Hy : exists y, notzero m y /\ (Spec_SPD.quad m A y <= 0)%R).
  { assert (Ec : chol = true \/ chol = false) by (destruct chol; auto). destruct Ec as [Ec|Ec]; rewrite Ec in Hinfo.
    - apply (le_chol la LE m A); auto; [unfold m; lia|]. intros i j Hi Hj. rewrite !HA by auto. apply (@conj_sym Rring (nrows h t) Q Dh (Sy Ec)); unfold m in *; lia.
    - destruct (le_lu la LE m A) as (y & Ny & Ey); auto; [unfold m; lia|]. exists y. split; auto. rewrite Ey. lra. }
  destruct Hy as (y & Ny & Ly).
  destruct (failing_vector la LA h RO HS chol shift S s nf pos HI t Dh Uh Q y Ht Sc Lk HQ) as (x & Bx & Zx). fold m in Bx, Zx.
  assert (Nx : notzero N x). { apply not_allz. intros Az. destruct Ny as (i & Hi & Hne). apply Hne. exact (Zx Az i Hi). }
  pose proof (PD x Nx) as P. assert (Eq : Spec_SPD.quad N (Smat h shift) x = Spec_SPD.quad m A y).
  { change (Spec_SPD.quad N (Smat h shift) x) with (bil h shift x x). rewrite Bx. symmetry. apply (@qf_ext Rring m A); auto. }
  rewrite Eq in P. lra.
Qed.

Theorem chol_flag_spd u nf pos : chol = true -> inv h chol shift (fun _ => True) u nf pos -> pos_def N (Suser h shift).
Proof.
  intros Hc HI. apply pos_def_user. intros y Ny. destruct (root_level h RO) as [Rr L0].
  assert (Sy : supp h (nn - 1) y).
  { intros p Hp Ip. exfalso. apply not_true_iff_false in Ip. apply Ip. apply inside_iff. destruct (Spec_Tree.ct_root _ _ _ _ _ _ (ro_tree _ RO)) as (_ & _ & nc & (D1 & D2 & _)).
    destruct (ro_mcl _ RO _ _ _ Rr D1 D2) as [M1 M2]. unfold msize, mfirst, mlast. rewrite M1, M2. cbn [val]. destruct (ro_dims _ RO) as (_ & _ & _ & _ & Dk & _). rewrite Dk in Hp. nia. }
  assert (Ana : ana_node h shift nf (fun a : Rring => 0 <= a)%R (nn - 1)).
  { eapply (ana_all la LA h RO HS chol shift (fun _ => True) u nf pos HI Hc (fun a : Rring => 0 <= a)%R); auto; cbn.
    - lra.
    - intros a b Ha Hb. apply Rplus_le_le_0_compat; auto.
    - intros a. apply Rle_0_sqr.
    - intros a b Ha Hb E. split; lra.
    - intros a E. destruct (Rmult_integral _ _ E); auto. }
  destruct (Ana y Sy) as (w & g & G1 & G2 & _ & G4). rewrite (rank_root h RO HS _ Rr L0) in G2, G4.
  change (Spec_SPD.quad N (Smat h shift) y) with (bil h shift y y). rewrite G2. unfold qf. rewrite rsum_empty by lia. cbn.
  destruct (Req_dec g 0) as [E|E]; [|cbn in *; lra]. exfalso. destruct Ny as (i & Hi & Hne). apply Hne. apply (G4 E); auto. intros j Hj. lia.
Qed.
End SPD.
