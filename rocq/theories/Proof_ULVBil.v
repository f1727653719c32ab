(** The bilinear form of the system between vectors supported in sibling clusters,
    and the form of an assembled node. *)
From Coq Require Import ZArith List Lia Bool.
From Verif Require Import Base Mem Num CRing Conc Model_Matvec Spec_Matvec Proof_MvTree Proof_MvFwd Proof_MvCor Proof_MvRace Proof_BuildUse Spec_Lapack Spec_ULV Proof_ULVMath Proof_ULVTree Proof_ULVEn.
Import ListNotations.
Open Scope Z_scope.

Section Bil.
Context {F : num} {K : cring}.
Add Ring Kring : (cth K).
Local Open Scope ring_K.
Variable h : h2rep F K.
Hypothesis R : rep_ok h.
Hypothesis HS : hss_ok h.
Variable shift : K.
Notation nn := (h_nnode h).
Notation N := (h_kms h).

Definition bil (x y : Z -> K) : K := rsum 0 N (fun p => rsum 0 N (fun q => x p * Smat h shift p q * y q)).
Definition supp (t : Z) (x : Z -> K) : Prop := forall p, 0 <= p < N -> inside h t p = false -> x p = c0.

(** ** Disjointness *)
Lemma anc i l : 0 <= i < nn -> 0 <= l <= level h i -> exists a, 0 <= a < nn /\ level h a = l /\ forall p, inside h i p = true -> inside h a p = true.
Proof.
  intros Hi Hl. remember (Z.to_nat (level h i - l)) as n eqn:En. revert i Hi Hl En. induction n as [|n IH]; intros i Hi Hl En.
  - exists i. split; auto. split; [lia|auto].
  - assert (Ni : i <> (nn - 1)%Z) by (intros ->; destruct (root_level h R); lia). destruct (has_parent h R i Hi Ni) as (p & k & Hp & Hk & <-).
    destruct (child_at h R p k Hp Hk) as (_ & _ & _ & Lc). destruct (IH p Hp) as (a & Ha & La & Ia); [lia|lia|].
    exists a. split; auto. split; auto. intros q Hq. apply Ia. eapply child_inside; eauto.
Qed.

Definition disj (i j : Z) : Prop := forall p, inside h i p = true -> inside h j p = true -> False.
Lemma yhat_out t x i a : 0 <= t < nn -> 0 <= i < nn -> supp t x -> disj i t -> yhat h x i a = c0.
Proof.
  intros Ht Hi Hx Hd. unfold yhat. apply rsum_zero. intros p Hp. destruct (inside h i p) eqn:Ip.
  - rewrite Hx; auto; [ring|]. apply not_true_iff_false. intros It. eapply Hd; eauto.
  - rewrite (basis_support h R) by auto. ring.
Qed.

(** Two sibling clusters: any other pair has a side away from one of them. *)
Lemma pair_away t k l q n0 n1 : 0 <= t < nn -> 0 <= k < nchild h t -> 0 <= l < nchild h t -> k <> l -> getz (h_adm h) q = Some (n0, n1) ->
  (n0 = child h t k /\ n1 = child h t l) \/ disj n0 (child h t k) \/ disj n1 (child h t l).
Proof.
  intros Ht Hk Hl Hkl Eq. destruct (pair_dims h R HS q n0 n1 Eq) as (R0 & R1 & L1 & L01 & _). destruct (hs_sib h HS q n0 n1 Eq) as (i & a & b & Hi & Ha & Hb & -> & ->).
  destruct (child_at h R t k Ht Hk) as (_ & Rk & _ & Lk). destruct (child_at h R t l Ht Hl) as (_ & Rl & _ & Ll).
  destruct (child_at h R i a Hi ltac:(lia)) as (_ & _ & _ & La). destruct (child_at h R i b Hi ltac:(lia)) as (_ & _ & _ & Lb).
  pose proof (level_range h R t Ht) as Lt. pose proof (level_range h R i Hi) as Li.
  assert (Nk : child h t k <> child h t l) by (intros E; destruct (child_inj h R t k t l Ht Hk Ht Hl E); contradiction).
  assert (Nab : child h i a <> child h i b) by (intros E; destruct (child_inj h R i a i b Hi ltac:(lia) Hi ltac:(lia) E); lia).
  destruct (Z.lt_trichotomy (level h i) (level h t)) as [Lt'|[Eq'|Lt']].
  - (* an ancestor of t at the level of the pair *)
    destruct (anc t (level h (child h i a)) Ht) as (A & RA & LA & IA); [lia|].
    destruct (Z.eq_dec (child h i a) A) as [EA|NA].
    + right. right. intros p Hp Hq. apply Nab. rewrite EA. symmetry. apply (same_level_disjoint h R _ _ p); auto; [congruence|]. apply IA. eapply child_inside; [| | |exact Hq]; auto.
    + right. left. intros p Hp Hq. apply NA. apply (same_level_disjoint h R _ _ p); auto. apply IA. eapply child_inside; [| | |exact Hq]; auto.
  - destruct (Z.eq_dec (child h i a) (child h t k)) as [E1|N1].
    + destruct (Z.eq_dec (child h i b) (child h t l)) as [E2|N2]; [left; auto|]. right. right. intros p Hp Hq. apply N2. apply (same_level_disjoint h R _ _ p); auto; lia.
    + right. left. intros p Hp Hq. apply N1. apply (same_level_disjoint h R _ _ p); auto; lia.
  - (* the pair is below *)
    destruct (anc i (level h (child h t k)) Hi) as (A & RA & LA & IA); [lia|].
    destruct (Z.eq_dec A (child h t k)) as [EA|NA].
    + right. right. intros p Hp Hq. apply Nk. rewrite <- EA. apply (same_level_disjoint h R _ _ p); auto; [congruence|]. apply IA. eapply child_inside; [| | |exact Hp]; auto; lia.
    + right. left. intros p Hp Hq. apply NA. apply (same_level_disjoint h R _ _ p); auto. apply IA. eapply child_inside; [| | |exact Hp]; auto; lia.
Qed.

(** ** The form *)
Definition abil (q : Z) (x y : Z -> K) : K := match getz (h_adm h) q with
  | Some (n0, n1) => rsum 0 (rank h n0) (fun a => rsum 0 (rank h n1) (fun b => yhat h x n0 a * Bval h q a b * yhat h y n1 b)) | None => c0 end.
Lemma adm_bil q x y : 0 <= q < zlen (h_adm h) -> rsum 0 N (fun p => rsum 0 N (fun p' => x p * adm_block h q p p' * y p')) = abil q x y.
Proof.
  intros Hq. destruct (getz_in (h_adm h) q Hq) as [[n0 n1] E]. unfold abil, adm_block. rewrite E. destruct (pair_dims h R HS q n0 n1 E) as (_ & _ & _ & _ & D0 & D1). rewrite D0, D1.
  rewrite (rsum_ext 0 N _ (fun p => rsum 0 (rank h n0) (fun a => rsum 0 (rank h n1) (fun b => rsum 0 N (fun p' => Bval h q a b * ((basis h n0 p a * x p) * (basis h n1 p' b * y p'))))))).
  2:{ intros p Hp.
      rewrite (rsum_ext 0 N _ (fun p' => rsum 0 (rank h n0) (fun a => rsum 0 (rank h n1) (fun b => Bval h q a b * ((basis h n0 p a * x p) * (basis h n1 p' b * y p')))))).
      2:{ intros p' Hp'. rewrite <- rsum_mul_l, <- rsum_mul_r. apply rsum_ext. intros a Ha. rewrite <- rsum_mul_l, <- rsum_mul_r. apply rsum_ext. intros b Hb.
          destruct (side_basis h R HS q n0 n1 a p E) as [-> _]. destruct (side_basis h R HS q n0 n1 b p' E) as [_ ->]. ring. }
      rewrite rsum_swap. apply rsum_ext. intros a Ha. now rewrite rsum_swap. }
  rewrite rsum_swap. apply rsum_ext. intros a Ha. rewrite rsum_swap. apply rsum_ext. intros b Hb. unfold yhat.
  rewrite (rsum_ext 0 N _ (fun p => Bval h q a b * (basis h n0 p a * x p) * rsum 0 N (fun p' => basis h n1 p' b * y p'))).
  2:{ intros p Hp. rewrite <- rsum_mul_l. apply rsum_ext. intros; ring. }
  rewrite rsum_mul_r, rsum_mul_l. ring.
Qed.
Definition dbil (k : Z) (x y : Z -> K) : K := rsum 0 (msize h (leaf h k)) (fun i => rsum 0 (msize h (leaf h k)) (fun j => x (mfirst h (leaf h k) + i)%Z * Dval h k i j * y (mfirst h (leaf h k) + j)%Z)).
Lemma leaf_node k : 0 <= k < h_nleaf h -> 0 <= leaf h k < nn /\ nchild h (leaf h k) = 0.
Proof. intros Hk. destruct (leaf_list h R) as (ls & Zls & Gls & Nls & Ils). apply Ils. eapply getz_In. now apply Gls. Qed.
Lemma diag_bil k x y : 0 <= k < h_nleaf h -> rsum 0 N (fun p => rsum 0 N (fun q => x p * diag_block h k p q * y q)) = dbil k x y.
Proof.
  intros Hk. destruct (leaf_node k Hk) as [Rl _]. set (t := leaf h k) in *.
  rewrite (rsum_ext 0 N _ (fun p => if inside h t p then rsum 0 (msize h t) (fun j => x p * Dval h k (p - mfirst h t) j * y (mfirst h t + j)%Z) else c0)).
  2:{ intros p Hp. unfold diag_block. fold t. destruct (inside h t p) eqn:Ip; cbn [andb].
      - rewrite (rsum_ext 0 N _ (fun q => if inside h t q then x p * Dval h k (p - mfirst h t) (q - mfirst h t) * y q else c0)) by (intros; destruct (inside h t i); ring).
        rewrite (rsum_inside h R t (fun q => x p * Dval h k (p - mfirst h t) (q - mfirst h t) * y q) Rl). apply rsum_ext. intros j Hj. do 2 f_equal. f_equal. lia.
      - apply rsum_zero. intros; ring. }
  rewrite (rsum_inside h R t (fun p => rsum 0 (msize h t) (fun j => x p * Dval h k (p - mfirst h t) j * y (mfirst h t + j)%Z)) Rl).
  unfold dbil. fold t. apply rsum_ext. intros i Hi. apply rsum_ext. intros j Hj. do 2 f_equal. f_equal. lia.
Qed.

Lemma bil_parts x y : bil x y = rsum 0 (h_nleaf h) (fun k => dbil k x y) + rsum 0 (zlen (h_adm h)) (fun q => abil q x y + abil q y x) + shift * rsum 0 N (fun p => x p * y p).
Proof.
  unfold bil.
  rewrite (rsum_ext 0 N _ (fun p => rsum 0 N (fun q => x p * rsum 0 (h_nleaf h) (fun k => diag_block h k p q) * y q) +
     rsum 0 N (fun q => x p * rsum 0 (zlen (h_adm h)) (fun k => adm_block h k p q + adm_block h k q p) * y q) + shift * (x p * y p))).
  2:{ intros p Hp. unfold Smat, Hmat. rewrite (hs_inadm h HS).
      rewrite (rsum_ext 0 N _ (fun q => x p * rsum 0 (h_nleaf h) (fun k => diag_block h k p q) * y q + x p * rsum 0 (zlen (h_adm h)) (fun k => adm_block h k p q + adm_block h k q p) * y q + (shift * x p) * (delta p q * y q))).
      2:{ intros q Hq. rewrite (rsum_empty 0 (zlen [])) by zlia. ring. }
      rewrite !rsum_add, rsum_mul_l, rsum_delta_l by auto. ring. }
  rewrite !rsum_add, rsum_mul_l. f_equal. f_equal.
  - rewrite (rsum_ext 0 N _ (fun p => rsum 0 (h_nleaf h) (fun k => rsum 0 N (fun q => x p * diag_block h k p q * y q)))).
    2:{ intros p Hp. rewrite rsum_swap. apply rsum_ext. intros q Hq. now rewrite <- rsum_mul_l, <- rsum_mul_r. }
    rewrite rsum_swap. apply rsum_ext. intros k Hk. now apply diag_bil.
  - rewrite (rsum_ext 0 N _ (fun p => rsum 0 (zlen (h_adm h)) (fun k => rsum 0 N (fun q => x p * adm_block h k p q * y q) + rsum 0 N (fun q => x p * adm_block h k q p * y q)))).
    2:{ intros p Hp. rewrite rsum_add. rewrite (rsum_swap 0 (zlen (h_adm h)) 0 N (fun k q => x p * adm_block h k p q * y q)), (rsum_swap 0 (zlen (h_adm h)) 0 N (fun k q => x p * adm_block h k q p * y q)).
        rewrite <- rsum_add. apply rsum_ext. intros q Hq. rewrite rsum_add.
        transitivity (x p * rsum 0 (zlen (h_adm h)) (fun k => adm_block h k p q) * y q + x p * rsum 0 (zlen (h_adm h)) (fun k => adm_block h k q p) * y q).
        - ring.
        - rewrite <- !rsum_mul_l, <- !rsum_mul_r. reflexivity. }
    rewrite rsum_swap, <- rsum_add. apply rsum_ext. intros k Hk. rewrite rsum_add. f_equal; [now apply adm_bil|]. rewrite rsum_swap. rewrite <- adm_bil by auto.
    apply rsum_ext. intros p Hp. apply rsum_ext. intros q Hq. ring.
Qed.

(** Between siblings. *)
Lemma bil_cross t k l q x y : 0 <= t < nn -> 0 <= k < l -> l < nchild h t -> getz (h_adm h) q = Some (child h t k, child h t l) -> supp (child h t k) x -> supp (child h t l) y ->
  bil x y = abil q x y /\ bil y x = abil q x y.
Proof.
  intros Ht Hk Hl Eq Sx Sy. destruct (child_at h R t k Ht ltac:(lia)) as (_ & Rk & _ & Lk). destruct (child_at h R t l Ht ltac:(lia)) as (_ & Rl & _ & Ll).
  assert (Nk : child h t k <> child h t l) by (intros E; destruct (child_inj h R t k t l Ht ltac:(lia) Ht ltac:(lia) E); lia).
  assert (Dj : disj (child h t k) (child h t l)) by (intros p Hp Hq; apply Nk; apply (same_level_disjoint h R _ _ p); auto; lia).
  assert (Pt : forall p, 0 <= p < N -> x p * y p = c0).
  { intros p Hp. destruct (inside h (child h t k) p) eqn:Ik; [|rewrite Sx by auto; ring]. rewrite (Sy p Hp); [ring|]. apply not_true_iff_false. intros Il. eapply Dj; eauto. }
  assert (Leafz : forall j, 0 <= j < h_nleaf h -> dbil j x y = c0 /\ dbil j y x = c0).
  { intros j Hj. destruct (leaf_node j Hj) as [Rj Cj]. set (lf := leaf h j) in *. destruct (cluster_range h R lf Rj) as (A & B & C).
    (* the leaf meets at most one of the two *)
    assert (D : disj lf (child h t k) \/ disj lf (child h t l)).
    { destruct (Z.le_gt_cases (level h (child h t k)) (level h lf)) as [Le|Gt].
      - pose proof (level_range h R _ Rk). destruct (anc lf (level h (child h t k)) Rj) as (a & Ra & La & Ia); [lia|]. destruct (Z.eq_dec a (child h t k)) as [->|Na].
        + right. intros p Hp Hq. eapply Dj; eauto.
        + left. intros p Hp Hq. apply Na. apply (same_level_disjoint h R _ _ p); auto.
      - destruct (anc t (level h lf) Ht) as (a & Ra & La & Ia); [pose proof (level_range h R lf Rj); lia|]. left. intros p Hp Hq.
        pose proof (child_inside h R t k p Ht ltac:(lia) Hq) as Ip. assert (a = lf) by (apply (same_level_disjoint h R _ _ p); auto). subst a.
        (* t is below the leaf: t is the leaf, which has no children, or deeper *)
        destruct (Z.eq_dec (level h t) (level h lf)) as [El|Nl].
        + assert (Etl : t = lf) by (apply (same_level_disjoint h R _ _ p); auto). rewrite Etl in Hl. lia.
        + destruct (anc t (level h lf + 1)%Z Ht) as (c & Rc & Lc & Ic); [pose proof (level_range h R lf Rj); lia|].
          assert (Nc : c <> (nn - 1)%Z) by (intros ->; destruct (root_level h R); pose proof (level_range h R lf Rj); lia).
          destruct (has_parent h R c Rc Nc) as (pa & kk & Hpa & Hkk & <-). destruct (child_at h R pa kk Hpa Hkk) as (_ & _ & _ & Lcc).
          assert (pa = lf). { apply (same_level_disjoint h R _ _ p); auto; [lia|]. eapply child_inside; eauto. } subst pa. lia. }
    assert (Z0 : forall u c, 0 <= c < nn -> supp c u -> disj lf c -> forall i, 0 <= i < msize h lf -> u (mfirst h lf + i)%Z = c0).
    { intros u c Rc Su Dc i Hi. apply Su; [unfold msize in *; lia|]. apply not_true_iff_false. intros Ic. eapply Dc; [|exact Ic]. apply inside_iff. lia. }
    unfold dbil. fold lf. destruct D as [D|D]; [pose proof (Z0 x _ Rk Sx D) as Zx|pose proof (Z0 y _ Rl Sy D) as Zx]; split; apply rsum_zero; intros i Hi; apply rsum_zero; intros j' Hj'; rewrite ?Zx by auto; rewrite ?(Zx j') by auto; ring. }
  assert (Zs : rsum 0 N (fun p => x p * y p) = c0 /\ rsum 0 N (fun p => y p * x p) = c0).
  { split; apply rsum_zero; intros p Hp; [now apply Pt|]. rewrite <- (Pt p Hp). ring. }
  assert (Aq : forall q', 0 <= q' < zlen (h_adm h) -> q' <> q -> abil q' x y = c0 /\ abil q' y x = c0).
  { intros q' Hq' Nq. unfold abil. destruct (getz_in (h_adm h) q' Hq') as [[n0 n1] E']. rewrite E'. destruct (pair_dims h R HS q' n0 n1 E') as (R0 & R1 & _).
    assert (Zr : forall (u v : Z -> K) ca cb, 0 <= ca < nn -> 0 <= cb < nn -> supp ca u -> supp cb v -> disj n0 ca \/ disj n1 cb ->
      rsum 0 (rank h n0) (fun a => rsum 0 (rank h n1) (fun b => yhat h u n0 a * Bval h q' a b * yhat h v n1 b)) = c0).
    { intros u v ca cb Ra Rb Su Sv D. apply rsum_zero. intros a Ha. apply rsum_zero. intros b Hb. destruct D as [D|D].
      - rewrite (yhat_out ca u n0) by auto. ring.
      - rewrite (yhat_out cb v n1) by auto. ring. }
    split.
    - apply (Zr x y (child h t k) (child h t l)); auto. destruct (pair_away t k l q' n0 n1 Ht ltac:(lia) ltac:(lia) ltac:(lia) E') as [[-> ->]|D]; auto. exfalso. apply Nq. eapply (adm_inj h HS); eauto.
    - apply (Zr y x (child h t l) (child h t k)); auto. destruct (pair_away t l k q' n0 n1 Ht ltac:(lia) ltac:(lia) ltac:(lia) E') as [[-> ->]|D]; auto.
      exfalso. destruct (hs_sib h HS q' _ _ E') as (i & a & b & Hi & Ha & Hb & E1 & E2). destruct (child_inj h R t l i a Ht ltac:(lia) Hi ltac:(lia) E1). destruct (child_inj h R t k i b Ht ltac:(lia) Hi ltac:(lia) E2). lia. }
  assert (Ay : abil q y x = c0).
  { unfold abil. rewrite Eq. apply rsum_zero. intros a Ha. apply rsum_zero. intros b Hb. rewrite (yhat_out (child h t l) y (child h t k)) by auto. ring. }
  pose proof (getz_range _ _ _ Eq) as Rq.
  rewrite !bil_parts. destruct Zs as [-> ->]. rewrite (rsum_zero 0 (h_nleaf h) (fun j => dbil j x y)) by (intros; now apply Leafz). rewrite (rsum_zero 0 (h_nleaf h) (fun j => dbil j y x)) by (intros; now apply Leafz).
  rewrite (rsum_only 0 (zlen (h_adm h)) (fun q => abil q x y + abil q y x) q Rq) by (intros q' Hq' Nq; destruct (Aq q' Hq' Nq) as [-> ->]; ring).
  rewrite (rsum_only 0 (zlen (h_adm h)) (fun q => abil q y x + abil q x y) q Rq) by (intros q' Hq' Nq; destruct (Aq q' Hq' Nq) as [-> ->]; ring).
  rewrite Ay. split; ring.
Qed.

(** ** An assembled node *)
Variable nf : Z -> @nfac K.
Variables (Dh Uh : Z -> Z -> K) (t : Z).
Hypothesis Ht : 0 <= t < nn.
Hypothesis Lk : linkedm h shift nf Dh Uh t.

Lemma leaf_form x z : nchild h t = 0 -> supp t x -> (forall i, 0 <= i < msize h t -> z i = x (mfirst h t + i)%Z) ->
  bil x x = qf (nrows h t) Dh z /\ forall a, 0 <= a < rank h t -> yhat h x t a = rsum 0 (nrows h t) (fun i => Uh i a * z i).
Proof.
  intros E Sx Hz. unfold nrows. rewrite E, Z.eqb_refl. split.
  - destruct (leaf_list h R) as (ls & Zls & Gls & Nls & Ils). destruct (In_getz ls t (proj2 (Ils t) (conj Ht E))) as (k0 & Gk). pose proof (getz_range _ _ _ Gk) as Hk0. rewrite Zls in Hk0.
    rewrite Gls in Gk by lia. injection Gk as Gk.
    unfold bil.
    assert (Cr : forall (f : Z -> K), (forall p, 0 <= p < N -> inside h t p = false -> f p = c0) -> rsum 0 N f = rsum 0 (msize h t) (fun i => f (mfirst h t + i)%Z)).
    { intros f Hf. rewrite <- (rsum_inside h R t f Ht). apply rsum_ext. intros p Hp. destruct (inside h t p) eqn:Ip; auto. }
    rewrite Cr by (intros p Hp Ip; apply rsum_zero; intros q Hq; rewrite (Sx p) by auto; ring).
    apply rsum_ext. intros i Hi. rewrite Cr by (intros p Hp Ip; rewrite (Sx p) by auto; ring). apply rsum_ext. intros j Hj. rewrite <- !Hz by auto. f_equal. f_equal.
    rewrite (lk_leafD _ _ _ _ _ t Lk k0) by auto. destruct (cluster_range h R t Ht) as (A & B & C).
    unfold Smat. f_equal; [|unfold delta; destruct (Z.eqb_spec (mfirst h t + i) (mfirst h t + j)), (Z.eqb_spec i j); auto; lia].
    unfold Hmat. rewrite (hs_inadm h HS), (rsum_empty 0 (zlen [])) by zlia.
    assert (Ii : forall i, 0 <= i < msize h t -> inside h t (mfirst h t + i) = true) by (intros; apply inside_iff; lia).
    rewrite (rsum_only 0 (h_nleaf h) _ k0 Hk0).
    + rewrite (rsum_zero 0 (zlen (h_adm h))).
      * unfold diag_block. rewrite Gk, !Ii by auto. cbn [andb]. replace (mfirst h t + i - mfirst h t)%Z with i by lia. replace (mfirst h t + j - mfirst h t)%Z with j by lia. ring.
      * (* no pair inside a leaf *)
        intros q Hq. destruct (getz_in (h_adm h) q Hq) as [[n0 n1] Eq]. destruct (pair_dims h R HS q n0 n1 Eq) as (R0 & R1 & _ & _ & D0 & D1).
        assert (Aw : disj n0 t \/ disj n1 t).
        { destruct (hs_sib h HS q n0 n1 Eq) as (pa & a & b & Hpa & Ha & Hb & -> & ->). destruct (child_at h R pa a Hpa ltac:(lia)) as (_ & _ & _ & La). destruct (child_at h R pa b Hpa ltac:(lia)) as (_ & _ & _ & Lb).
          destruct (Z.le_gt_cases (level h (child h pa a)) (level h t)) as [Le|Gt].
          - pose proof (level_range h R _ R0). destruct (anc t (level h (child h pa a)) Ht) as (c & Rc & Lc & Ic); [lia|]. destruct (Z.eq_dec c (child h pa a)) as [->|Nc].
            + right. intros p Hp Hq'. assert (child h pa a = child h pa b) as Eab by (apply (same_level_disjoint h R _ _ p); auto; lia). destruct (child_inj h R pa a pa b Hpa ltac:(lia) Hpa ltac:(lia) Eab). lia.
            + left. intros p Hp Hq'. apply Nc. apply (same_level_disjoint h R _ _ p); auto.
          - left. intros p Hp Hq'. pose proof (child_inside h R pa a p Hpa ltac:(lia) Hp) as Ipa.
            destruct (Z.eq_dec (level h pa) (level h t)) as [El|Nl].
            + assert (pa = t) by (apply (same_level_disjoint h R _ _ p); auto). subst pa. lia.
            + destruct (anc pa (level h t + 1)%Z Hpa) as (c & Rc & Lc & Ic); [pose proof (level_range h R t Ht); lia|].
              assert (Nc : c <> (nn - 1)%Z) by (intros ->; destruct (root_level h R); pose proof (level_range h R t Ht); lia).
              destruct (has_parent h R c Rc Nc) as (p2 & kk & Hp2 & Hkk & <-). destruct (child_at h R p2 kk Hp2 Hkk) as (_ & _ & _ & Lcc).
              assert (p2 = t). { apply (same_level_disjoint h R _ _ p); auto; [lia|]. eapply child_inside; eauto. } subst p2. lia. }
        assert (Zb : forall p p', inside h t p = true -> inside h t p' = true -> adm_block h q p p' = c0).
        { intros p p' Ip Ip'. unfold adm_block. rewrite Eq. apply rsum_zero. intros a Ha. apply rsum_zero. intros b Hb.
          destruct (side_basis h R HS q n0 n1 a p Eq) as [-> _]. destruct (side_basis h R HS q n0 n1 b p' Eq) as [_ ->]. destruct Aw as [Aw|Aw].
          - rewrite (basis_support h R n0) by (auto; apply not_true_iff_false; intros I0; eapply Aw; eauto). ring.
          - rewrite (basis_support h R n1) by (auto; apply not_true_iff_false; intros I0; eapply Aw; eauto). ring. }
        rewrite !Zb by auto. ring.
    + intros k Hk Hne. unfold diag_block. destruct (inside h (leaf h k) (mfirst h t + i)) eqn:Ik; [|reflexivity]. exfalso. apply Hne.
      destruct (leaf_node k Hk) as [Rk Ck]. assert (leaf h k = t). { apply inside_iff in Ik. apply (leaf_rows h R (leaf h k) t (mfirst h t + i)); auto; unfold msize in *; lia. }
      assert (getz ls k = getz ls k0) by (rewrite !Gls by lia; congruence). rewrite NoDup_nth_error in Nls. unfold getz in H0.
      destruct (Z.leb_spec 0 k), (Z.leb_spec 0 k0); try lia. assert (Z.to_nat k = Z.to_nat k0); [|lia]. apply Nls; auto. unfold zlen in *. lia.
  - intros a Ha. rewrite (yhat_leaf h R x t a Ht E). apply rsum_ext. intros i Hi. rewrite (lk_leafU _ _ _ _ _ t Lk) by auto. now rewrite Hz.
Qed.

Section Inner.
Hypothesis Nc : nchild h t <> 0.
Notation nc := (nchild h t).
Variables (xs : Z -> Z -> K) (w : Z -> Z -> K) (g : Z -> K) (z : Z -> K).
Hypothesis Sx : forall k, 0 <= k < nc -> supp (child h t k) (xs k).
Hypothesis Hw : forall k a, 0 <= k < nc -> 0 <= a < rank h (child h t k) -> yhat h (xs k) (child h t k) a = rsum 0 (rank h (child h t k)) (fun i => f_R (nf (child h t k)) i a * w k i).
Hypothesis Hg : forall k, 0 <= k < nc -> bil (xs k) (xs k) = qf (rank h (child h t k)) (f_D (nf (child h t k))) (w k) + g k.
Hypothesis Hz : forall k i, 0 <= k < nc -> 0 <= i < rank h (child h t k) -> z (choff h t k + i)%Z = w k i.
Definition xsum (p : Z) : K := rsum 0 nc (fun k => xs k p).

Lemma bil_sum : bil xsum xsum = rsum 0 nc (fun k => rsum 0 nc (fun l => bil (xs k) (xs l))).
Proof.
  unfold bil at 1.
  rewrite (rsum_ext 0 N _ (fun p => rsum 0 N (fun q => rsum 0 nc (fun k => rsum 0 nc (fun l => xs k p * Smat h shift p q * xs l q))))).
  2:{ intros p Hp. apply rsum_ext. intros q Hq. unfold xsum.
      transitivity (Smat h shift p q * (rsum 0 nc (fun k => xs k p) * rsum 0 nc (fun l => xs l q))); [ring|]. rewrite <- rsum_sep, <- rsum_mul_l.
      apply rsum_ext. intros k Hk. rewrite <- rsum_mul_l. apply rsum_ext. intros; ring. }
  rewrite (rsum_ext 0 N _ (fun p => rsum 0 nc (fun k => rsum 0 N (fun q => rsum 0 nc (fun l => xs k p * Smat h shift p q * xs l q))))) by (intros; apply rsum_swap).
  rewrite rsum_swap. apply rsum_ext. intros k Hk.
  rewrite (rsum_ext 0 N _ (fun p => rsum 0 nc (fun l => rsum 0 N (fun q => xs k p * Smat h shift p q * xs l q)))) by (intros; apply rsum_swap).
  rewrite rsum_swap. reflexivity.
Qed.

Lemma abil_w q k l : 0 <= k < l -> l < nc -> getz (h_adm h) q = Some (child h t k, child h t l) ->
  abil q (xs k) (xs l) = rsum 0 (rank h (child h t k)) (fun i => rsum 0 (rank h (child h t l)) (fun j => w k i *
     rsum 0 (rank h (child h t k)) (fun a => f_R (nf (child h t k)) i a * rsum 0 (rank h (child h t l)) (fun b => Bval h q a b * f_R (nf (child h t l)) j b)) * w l j)).
Proof.
  intros Hk Hl Eq. unfold abil. rewrite Eq. set (rk := rank h (child h t k)). set (rl := rank h (child h t l)). set (Rk := f_R (nf (child h t k))). set (Rl := f_R (nf (child h t l))).
  rewrite (rsum_ext 0 rk _ (fun a => rsum 0 rl (fun b => rsum 0 rk (fun i => rsum 0 rl (fun j => w k i * (Rk i a * (Bval h q a b * Rl j b)) * w l j))))).
  2:{ intros a Ha. apply rsum_ext. intros b Hb. rewrite !Hw by (auto; lia). fold rk rl Rk Rl.
      transitivity (Bval h q a b * (rsum 0 rk (fun i => Rk i a * w k i) * rsum 0 rl (fun j => Rl j b * w l j))); [ring|]. rewrite <- rsum_sep, <- rsum_mul_l.
      apply rsum_ext. intros i Hi. rewrite <- rsum_mul_l. apply rsum_ext. intros; ring. }
  rewrite (rsum_ext 0 rk _ (fun a => rsum 0 rk (fun i => rsum 0 rl (fun b => rsum 0 rl (fun j => w k i * (Rk i a * (Bval h q a b * Rl j b)) * w l j))))) by (intros; apply rsum_swap).
  rewrite rsum_swap. apply rsum_ext. intros i Hi.
  rewrite (rsum_ext 0 rk _ (fun a => rsum 0 rl (fun j => rsum 0 rl (fun b => w k i * (Rk i a * (Bval h q a b * Rl j b)) * w l j)))) by (intros; apply rsum_swap).
  rewrite rsum_swap. apply rsum_ext. intros j Hj. rewrite <- rsum_mul_l, <- rsum_mul_r. apply rsum_ext. intros a Ha. rewrite <- rsum_mul_l, <- rsum_mul_l, <- rsum_mul_r. reflexivity.
Qed.

Lemma node_form : bil xsum xsum = qf (nrows h t) Dh z + rsum 0 nc g.
Proof.
  pose proof (nchild_range h R t Ht) as Hn. rewrite bil_sum.
  assert (Eq : qf (nrows h t) Dh z = rsum 0 nc (fun k => rsum 0 nc (fun l => rsum 0 (rank h (child h t k)) (fun i => rsum 0 (rank h (child h t l)) (fun j =>
     w k i * Dh (choff h t k + i)%Z (choff h t l + j)%Z * w l j))))).
  { unfold qf, nrows. destruct (Z.eqb_spec nc 0); [contradiction|]. rewrite (rsum_choff h R t nc) by (auto; lia). apply rsum_ext. intros k Hk.
    rewrite (rsum_ext 0 (rank h (child h t k)) _ (fun i => rsum 0 nc (fun l => rsum 0 (rank h (child h t l)) (fun j => w k i * Dh (choff h t k + i)%Z (choff h t l + j)%Z * w l j)))).
    - now rewrite rsum_swap.
    - intros i Hi. rewrite (rsum_choff h R t nc) by (auto; lia). apply rsum_ext. intros l Hl. apply rsum_ext. intros j Hj. now rewrite !Hz. }
  rewrite Eq, <- rsum_add. apply rsum_ext. intros k Hk.
  rewrite (rsum_upd 0 nc (fun l => rsum 0 (rank h (child h t k)) (fun i => rsum 0 (rank h (child h t l)) (fun j => w k i * Dh (choff h t k + i)%Z (choff h t l + j)%Z * w l j))) (fun l => bil (xs k) (xs l)) k (g k) Hk); auto.
  - rewrite Hg by auto. f_equal. apply rsum_ext. intros i Hi. apply rsum_ext. intros j Hj. now rewrite (lk_diag _ _ _ _ _ t Lk).
  - intros l Hl Hne. destruct (Z.lt_trichotomy k l) as [Lt|[E|Lt]]; [|congruence|].
    + destruct (hs_all h HS t k l Ht ltac:(lia) ltac:(lia)) as (q & Eq'). destruct (bil_cross t k l q (xs k) (xs l) Ht ltac:(lia) ltac:(lia) Eq') as [-> _]; auto.
      rewrite abil_w by (auto; lia). apply rsum_ext. intros i Hi. apply rsum_ext. intros j Hj. destruct (lk_off _ _ _ _ _ t Lk q k l i j ltac:(lia) ltac:(lia) Eq' Hi Hj) as [-> _]. reflexivity.
    + destruct (hs_all h HS t l k Ht ltac:(lia) ltac:(lia)) as (q & Eq'). destruct (bil_cross t l k q (xs l) (xs k) Ht ltac:(lia) ltac:(lia) Eq') as [_ ->]; auto.
      rewrite abil_w by (auto; lia). rewrite rsum_swap. apply rsum_ext. intros i Hi. apply rsum_ext. intros j Hj. destruct (lk_off _ _ _ _ _ t Lk q l k j i ltac:(lia) ltac:(lia) Eq' Hj Hi) as [_ ->]. ring.
Qed.

Lemma node_yhat a : 0 <= a < rank h t -> yhat h xsum t a = rsum 0 (nrows h t) (fun i => Uh i a * z i).
Proof.
  intros Ha. pose proof (nchild_range h R t Ht) as Hn. rewrite (yhat_node h R xsum t a Ht Nc). unfold nrows. destruct (Z.eqb_spec nc 0); [contradiction|].
  rewrite (rsum_choff h R t nc) by (auto; lia). apply rsum_ext. intros k Hk. destruct (child_at h R t k Ht Hk) as (_ & Rk & _ & Lk').
  assert (Ey : forall d, 0 <= d < rank h (child h t k) -> yhat h xsum (child h t k) d = rsum 0 (rank h (child h t k)) (fun i => f_R (nf (child h t k)) i d * w k i)).
  { intros d Hd. rewrite <- Hw by auto. unfold yhat. apply rsum_ext. intros p Hp. destruct (inside h (child h t k) p) eqn:Ip; [|rewrite (basis_support h R) by auto; ring].
    f_equal. unfold xsum. rewrite (rsum_only 0 nc _ k Hk); auto. intros l Hl Hne. apply (Sx l Hl p Hp). apply not_true_iff_false. intros Il.
    destruct (child_at h R t l Ht Hl) as (_ & Rl & _ & Ll). assert (child h t l = child h t k) as E by (apply (same_level_disjoint h R _ _ p); auto; lia). destruct (child_inj h R t l t k Ht Hl Ht Hk E). contradiction. }
  rewrite (rsum_ext 0 (rank h (child h t k)) _ (fun d => Uval h t (choff h t k + d) a * rsum 0 (rank h (child h t k)) (fun i => f_R (nf (child h t k)) i d * w k i))) by (intros; now rewrite Ey).
  rewrite rsum_assoc. apply rsum_ext. intros i Hi. rewrite (lk_U _ _ _ _ _ t Lk) by auto. rewrite Hz by auto. f_equal. apply rsum_ext. intros; ring.
Qed.

Lemma xsum_supp : supp t xsum.
Proof.
  intros p Hp It. unfold xsum. apply rsum_zero. intros k Hk. apply Sx; auto. apply not_true_iff_false. intros Ik. rewrite (child_inside h R t k p Ht Hk Ik) in It. discriminate.
Qed.
End Inner.
End Bil.
