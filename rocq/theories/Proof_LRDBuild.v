(** The construction of the low-rank plus diagonal preconditioner. *)
From Coq Require Import ZArith Reals List Lia Lra Bool.
From Verif Require Import Base Mem Num CRing FNum Model_Utils Spec_Dense Model_Dense Model_Matvec Model_Matmul Proof_Gemm Spec_Lapack Proof_Lapack Spec_SPD Blk Model_ULV Proof_ULVMem Proof_ULVAsm Model_FSAI Spec_FSAI Proof_FSAIReal Model_AFN Proof_AFNMath Proof_AFNBuild Proof_AFNTop Model_Nys Spec_Nys Proof_NysMath Proof_NysBuild Proof_Spectral Model_Rand Model_LRD Spec_LRD Proof_LRDMath.
Import ListNotations.
Open Scope Z_scope.

Ltac rring := match goal with |- ?a = ?b => change (@eq R a b) end; try unfold Rdiv; ring.
Section Build.
Context {F : num}.
Variable kern : list F -> list F -> Z -> Z -> Rring.
Variable la : lapack Rring.
Hypothesis LA : lapack_ok la.
Hypothesis LE : lapack_exact la.
Variable syevd : Z -> (Z -> Z -> R) -> (Z -> Z -> R) * (Z -> R).

Lemma syevd_lower_spec n (A Sv : mem Rring) (a : Z -> Z -> R) : 0 <= n -> syevd_ok n syevd -> symmetric n a -> zlen A = n * n -> n <= zlen Sv -> holds A 0 n n n a ->
  exists A' S' V s, syevd_lower syevd n A Sv = Some (A', S') /\ zlen A' = n * n /\ zlen S' = zlen Sv /\ holds A' 0 n n n V /\ (forall i, 0 <= i < n -> ld S' i = Some (s i)) /\ eig_ok n a V s.
Proof.
  intros Hn HS Sym ZA ZS HA. unfold syevd_lower.
  assert (HA' : forall i j, 0 <= i < n -> 0 <= j < n -> ld A (i * n + j) = Some (a i j)). { intros i j Hi Hj. specialize (HA i j Hi Hj). rewrite Z.add_0_l in HA. exact HA. }
  destruct (upd2 n n (fun i j b => v <- ld A (if j <=? i then i * n + j else j * n + i); st b (i * n + j) v) a (fun i j => ld (alloc (A := Rring) (n * n)) (i * n + j)) (alloc (n * n))) as (B & EB & ZB & HB); auto.
  { apply zlen_alloc. nia. }
  { intros i j d Hi Hj _ _. destruct (Z.leb_spec j i).
    - rewrite HA' by lia. reflexivity.
    - rewrite HA' by lia. cbn [bind]. rewrite (Sym j i) by auto. reflexivity. }
  rwb EB. destruct (rd_ok _ _ _ _ _ _ HB) as (b & Eb & Gb). rewrite Eb. cbn [bind].
  assert (Symb : symmetric n b). { intros i j Hi Hj. rewrite !Gb by auto. auto. }
  specialize (HS b Symb). destruct (syevd n b) as [V s]. cbn [fst snd] in HS.
  destruct (@wr_upd Rring n n V A 0 n) as (A' & EA & (ZA' & HA1 & _)). { repeat split; try lia; nia. } rwb EA.
  destruct (upd1 n (fun i d => st d i (s i : Rring)) s (fun i => ld Sv i) Sv) as (S' & ES & ZS' & HS'); auto. rwb ES.
  exists A', S', V, s. split; [reflexivity|]. split; [lia|]. split; [exact ZS'|]. split; [auto|]. split; [auto|].
  destruct HS as (O & Eg & As). split; [exact O|]. split; [|exact As]. intros i k Hi Hk. rewrite <- (Eg i k Hi Hk). apply (@rsum_ext Rring). intros j Hj. cbn. now rewrite Gb.
Qed.

(** The scaling factors. *)
Definition lrd_w (lmax l : R) : R := if Rlt_dec l (lrd_tol * lmax) then 0%R else (1 / sqrt l)%R.
Lemma lrd_tol_pos : (0 < lrd_tol)%R.
Proof. unfold lrd_tol. assert (0 < 10 ^ 10)%R by (apply pow_lt; lra). apply Rdiv_lt_0_compat; lra. Qed.
Lemma lrd_w_sq lmax l : (0 < lmax)%R -> (lrd_w lmax l * lrd_w lmax l = if Rlt_dec l (lrd_tol * lmax) then 0 else / l)%R.
Proof.
  intros Hm. unfold lrd_w. destruct (Rlt_dec l (lrd_tol * lmax)) as [|Nl]; [ring|].
  assert (0 < l)%R. { pose proof (Rmult_lt_0_compat _ _ lrd_tol_pos Hm). lra. }
  pose proof (sqrt_lt_R0 _ H). rewrite <- (sqrt_sqrt l) at 3 by lra. field. lra.
Qed.
Lemma lrd_scale_spec n (D : mem Rring) s : 1 <= n -> n <= zlen D -> (forall i, 0 <= i < n -> ld D i = Some (s i)) -> (forall k l, 0 <= k <= l -> l < n -> (s k <= s l)%R) -> (0 < s (n - 1)%Z)%R ->
  exists D', lrd_scale n D = Some D' /\ zlen D' = zlen D /\ forall i, 0 <= i < n -> ld D' i = Some (lrd_w (s (n - 1)) (s i)).
Proof.
  intros Hn ZD HD Has Hmax. unfold lrd_scale. set (lmax := s (n - 1)) in *.
  destruct (zfor_inv (fun k (m : R) => m = if k =? 0 then 0%R else Rmax 0 (s (k - 1))) 0 n (fun i (m : R) => d <- ld D i; Some (if Rltb m d then d else m)) 0%R) as (m & Em & Hm); auto; [lia| |].
  - intros k m Hk Em. rewrite HD by auto. cbn [bind]. eexists. split; [reflexivity|]. destruct (Z.eqb_spec (k + 1) 0); [lia|]. replace (k + 1 - 1) with k by lia. subst m. unfold Rltb.
    destruct (Z.eqb_spec k 0) as [->|Nk].
    + destruct (Rlt_dec 0 (s 0%Z)); [rewrite Rmax_right; lra|rewrite Rmax_left; lra].
    + pose proof (Has (k - 1) k ltac:(lia) ltac:(lia)) as Hk1. destruct (Rlt_dec (Rmax 0 (s (k - 1))) (s k)) as [Lt|Nl]; revert Hk1; try revert Lt; try revert Nl; unfold Rmax; destruct (Rle_dec 0 (s (k - 1))), (Rle_dec 0 (s k)); intros; lra.
  - rwb Em. destruct (Z.eqb_spec n 0); [lia|]. fold lmax in Hm. rewrite Rmax_right in Hm by lra. subst m.
    destruct (upd1 n (fun i D => d <- ld D i; v <- (if Rltb d (lrd_tol * lmax) then Some 0%R else Rdiv_opt 1 (sqrt d)); st D i (v : Rring)) (fun i => lrd_w lmax (s i)) (fun i => Some (s i)) D) as (D' & E & Z1 & H1); auto; try lia.
    + intros i d Hi _ Ld. cbv beta in Ld. rwb Ld. unfold Rltb, lrd_w. destruct (Rlt_dec (s i) (lrd_tol * lmax)) as [|Nl]; auto.
      assert (0 < s i)%R. { pose proof (Rmult_lt_0_compat _ _ lrd_tol_pos Hmax). lra. } pose proof (sqrt_lt_R0 _ H). unfold Rdiv_opt. destruct (Req_EM_T (sqrt (s i)) 0); [lra|]. reflexivity.
    + exists D'. split; [exact E|]. split; auto.
Qed.

(** A symmetric matrix with a positive diagonal entry has a positive largest eigenvalue. *)
Lemma eig_decomp n a V s : eig_ok n a V s -> forall i j, 0 <= i < n -> 0 <= j < n -> a i j = S 0 n (fun k => V i k * s k * V j k)%R.
Proof.
  intros ((O1 & O2) & Eg & _) i j Hi Hj.
  transitivity (S 0 n (fun k => S 0 n (fun l => a i l * V l k) * V j k)%R).
  - transitivity (S 0 n (fun l => a i l * S 0 n (fun k => V l k * V j k))%R).
    + symmetry. transitivity (S 0 n (fun l => a i l * dl l j)%R); [|exact (S_dl_r n j (fun l => a i l) Hj)]. apply S_ext. intros l Hl. f_equal. exact (O2 l j Hl Hj).
    + exact (S_assoc n n (fun l => a i l) V (fun k => V j k)).
  - apply S_ext. intros k Hk. f_equal. exact (Eg i k Hi Hk).
Qed.
Lemma eig_max_pos n a V s : 1 <= n -> eig_ok n a V s -> (0 < a 0%Z 0%Z)%R -> (0 < s (n - 1)%Z)%R.
Proof.
  intros Hn HE Ha. destruct (Rlt_dec 0 (s (n - 1)%Z)) as [|Nl]; auto. exfalso.
  rewrite (eig_decomp n a V s HE 0 0) in Ha by lia.
  assert (0 <= S 0 n (fun k => V 0%Z k * (- s k) * V 0%Z k))%R.
  { apply S_nonneg. intros k Hk. destruct HE as (_ & _ & As). pose proof (As k (n - 1) ltac:(lia) ltac:(lia)). pose proof (Rle_0_sqr (V 0%Z k)). unfold Rsqr in *. nra. }
  assert (Q : (S 0 n (fun k => V 0%Z k * (- s k) * V 0%Z k) = (-1) * S 0 n (fun k => V 0%Z k * s k * V 0%Z k))%R). { rewrite <- S_mul_l. apply S_ext. intros; ring. }
  rewrite Q in H. clear Q. lra.
Qed.

(** W W^T + shift I is factored. *)
Lemma gram_pd r n W (y : Z -> R) c : (0 < c)%R -> notzero r y -> (0 < quad r (fun i j => S 0 n (fun l => W i l * W j l) + c * dl i j) y)%R.
Proof.
  intros Hc Hy. rewrite quad_shift. pose proof (nrm_pos r y Hy) as Hn.
  assert (0 <= quad r (fun i j => S 0 n (fun l => W i l * W j l)) y)%R.
  { replace (quad r (fun i j => S 0 n (fun l => W i l * W j l)) y)%R with (quad r (fun i j => S 0 n (fun l => W i l * 1 * W j l)) y)%R.
    - rewrite (quad_outer r n W (fun _ => 1%R) y). apply S_nonneg. intros k Hk. rewrite Rmult_1_l. apply Rle_0_sqr.
    - apply quad_ext. intros i j Hi Hj. apply S_ext. intros; ring. }
  nra.
Qed.

Lemma lrd_Ut_spec dim nt ord1 ord2 r n shift (ca cs : dmat F) X Y : let a := fun i j => kern (pt_of dim Y i) (pt_of dim Y j) 0 0 in let b := fun k c => kern (pt_of dim Y k) (pt_of dim X c) 0 0 in
  1 <= r <= n -> 1 <= nt -> any_order nt ord1 -> any_order nt ord2 -> (0 < shift)%R -> syevd_ok r syevd -> symmetric r a -> (0 < a 0%Z 0%Z)%R ->
  dm_ncol ca = n -> dm_ncol cs = r -> coords_at (dm_data ca) 0 (dm_ld ca) n dim X -> coords_at (dm_data cs) 0 (dm_ld cs) r dim Y ->
  exists Ut (U V : Z -> Z -> R) (s : Z -> R) (W L : Z -> Z -> R), lrd_Ut kern la syevd dim nt ord1 ord2 r n shift ca cs = Some Ut /\ zlen Ut = r * n /\ holds Ut 0 n r n U /\
    eig_ok r a V s /\ (0 < s (r - 1)%Z)%R /\
    (forall k c, 0 <= k < r -> 0 <= c < n -> W k c = S 0 r (fun j => (V j k * lrd_w (s (r - 1)%Z) (s k)) * b j c)%R) /\
    (forall i j, 0 <= i < r -> 0 <= j < r -> mm r L (tr L) i j = (mm n W (tr W) i j + shift * dl i j)%R) /\
    (forall i j, 0 <= i < r -> 0 <= j < r -> i < j -> L i j = 0%R) /\ (forall i, 0 <= i < r -> L i i <> 0%R) /\
    (forall i j, 0 <= i < r -> 0 <= j < n -> mm r L U i j = W i j).
Proof.
  intros a b Hr Hnt O1 O2 Hsh HS Sym Ha Nca Ncs Ca Cs. unfold lrd_Ut. rewrite Nca, Ncs.
  assert (Zrr : zlen (alloc (A := Rring) (r * r)) = r * r) by (apply zlen_alloc; nia).
  assert (Zrn : zlen (alloc (A := Rring) (r * n)) = r * n) by (apply zlen_alloc; nia).
  destruct (eval_OMP_spec (K := Rring) kern nt ord1 dim (dm_data cs) 0 (dm_ld cs) r Y (dm_data cs) 0 (dm_ld cs) r Y (alloc (r * r))) as (K1 & E1 & Z1 & H1); auto; try lia. all: try exact (Z.eq_le_incl _ _ (eq_sym Zrr)).
  rwb E1. rewrite Zrr in Z1.
  destruct (eval_OMP_spec (K := Rring) kern nt ord2 dim (dm_data cs) 0 (dm_ld cs) r Y (dm_data ca) 0 (dm_ld ca) n X (alloc (r * n))) as (K2 & E2 & Z2 & H2); auto; try lia. all: try exact (Z.eq_le_incl _ _ (eq_sym Zrn)).
  rwb E2. rewrite Zrn in Z2.
  destruct (syevd_lower_spec r K1 (alloc (r * n)) a) as (V0 & T0 & V & s & E3 & Z3 & Z3' & H3 & Hs & Hev); auto; try lia. { rewrite Zrn. nia. }
  rwb E3. rewrite Zrn in Z3'.
  pose proof (eig_max_pos r a V s ltac:(lia) Hev Ha) as Hmax.
  destruct (lrd_scale_spec r T0 s) as (T1 & E4 & Z4 & H4); auto; try lia. { rewrite Z3'. nia. } { apply Hev. }
  rwb E4. set (w := fun k => lrd_w (s (r - 1)%Z) (s k)) in *. rewrite Z3' in Z4.
  destruct (upd2 r r (fun i j d => v <- ld d (i * r + j); x <- ld T1 j; st d (i * r + j) (v * x)%R) (fun i j => V i j * w j)%R (fun i j => Some (V i j)) V0) as (V1 & E5 & Z5 & H5); auto; try lia.
  all: try (intros i j Hi Hj; specialize (H3 i j Hi Hj); rewrite Z.add_0_l in H3; exact H3).
  { intros i j d Hi Hj Zd Ld. cbv beta in Ld. rwb Ld. rewrite H4 by auto. reflexivity. }
  rwb E5.
  set (W := fun k c => S 0 r (fun j => (V j k * w k) * b j c)%R).
  destruct (gemm_upd (K := Rring) true false r n r V1 0 r K2 0 n T1 0 n (fun i j => V j i * w i)%R b) as (T2 & E6 & (Z6 & H6 & _)); auto; try lia.
  { rewrite Z4. repeat split; try lia. }
  rwb E6. rewrite Z4 in Z6.
  assert (H6' : holds T2 0 n r n W) by exact H6. clear H6.
  assert (HT2 : forall i, 0 <= i < r * n -> ld T2 i = Some (W (i / n) (i mod n))).
  { intros i Hi. pose proof (Z.div_mod i n ltac:(lia)). pose proof (Z.mod_pos_bound i n ltac:(lia)). assert (0 <= i / n < r) by (split; [apply Z.div_pos; lia|apply Z.div_lt_upper_bound; nia]).
    specialize (H6' (i / n) (i mod n) ltac:(auto) ltac:(auto)). replace (0 + (i / n * n + i mod n)) with i in H6' by lia. exact H6'. }
  destruct (upd1 (r * n) (fun i (d : mem Rring) => v <- ld T2 i; st d i v) (fun i => W (i / n) (i mod n)) (fun i => ld K2 i) K2) as (K3 & E7 & Z7 & H7); auto; try nia.
  { exact (Z.eq_le_incl _ _ (eq_sym Z2)). }
  { intros i d Hi _ _. rewrite HT2 by auto. reflexivity. }
  rwb E7. assert (Z7' : zlen K3 = r * n) by exact (eq_trans Z7 Z2).
  assert (Hk3 : holds K3 0 n r n W).
  { intros i j Hi Hj. rewrite Z.add_0_l. rewrite H7 by nia. rewrite Z.div_add_l, Z.div_small, Z.add_0_r by lia. rewrite (Z.add_comm (i * n)), Z.mod_add, Z.mod_small by lia. reflexivity. }
  (* the resized buffer *)
  assert (ER : dm_data (dm_resize (mkDM r n n (r * n) T2) r r) = T2). { unfold dm_resize. cbn [dm_size dm_data]. destruct (Z.ltb_spec (r * n) (r * r)); [nia|reflexivity]. }
  cbv zeta. rewrite ER.
  destruct (gemm_upd (K := Rring) false true r r n K3 0 n K3 0 n T2 0 r W (fun i j => W j i)) as (T3 & E8 & (Z8 & H8 & _)); auto; try lia.
  { rewrite Z6. repeat split; try lia. nia. }
  rwb E8. rewrite Z6 in Z8.
  destruct (diag_add (K := Rring) T3 r _ shift ltac:(lia) H8) as (T4 & E9 & Z9 & H9). rwb E9. rewrite Z8 in Z9.
  set (G := fun i j => (S 0 n (fun l => W i l * W j l) + shift * dl i j)%R).
  assert (H9' : holds T4 0 r r r G) by exact H9. clear H9.
  assert (GS : forall i j, G i j = G j i). { intros i j. unfold G. rewrite dl_symm. f_equal. apply S_ext. intros; ring. }
  destruct (potrf_low_spec (K := Rring) la LA r T4 G) as (T5 & L0 & E10 & Z10 & H10 & D10 & P10); auto; try lia.
  { rewrite Z9. nia. }
  { intros A HA. destruct (Z.eq_dec (fst (l_potrf la r A)) 0) as [|Ne]; auto. exfalso.
    assert (HA' : forall i j, 0 <= i < r -> 0 <= j < r -> A i j = G i j). { intros i j Hi Hj. etransitivity; [exact (HA i j Hi Hj)|]. destruct (j <=? i); [reflexivity|apply GS]. }
    destruct (le_chol la LE r A ltac:(lia)) as (y & Hy & Hq); auto.
    { intros i j Hi Hj. rewrite !HA' by auto. apply GS. }
    pose proof (gram_pd r n W y shift Hsh Hy) as Hp. rewrite (quad_ext r A G) in Hq by auto. unfold G in Hq. lra. }
  rwb E10. change (negb (0 =? 0)) with false. cbv iota.
  destruct (trsm_left_upd (K := Rring) la true false false r n T5 0 r K3 0 n L0 W LA ltac:(lia)) as (U3 & U & E11 & (Z11 & H11 & _) & Q11); auto.
  { replace (zlen K3) with (r * n) by (symmetry; exact Z7'). repeat split; try lia. }
  rwb E11. specialize (Q11 (fun _ => D10)). cbn [top] in Q11.
  destruct (mcpy_spec (alloc (A := Rring) (r * n)) 0 U3 0 (r * n)) as (Ut & E12 & Z12 & H12); try lia.
  all: try (change (r * n <= zlen (alloc (A := Rring) (r * n))); exact (Z.eq_le_incl _ _ (eq_sym Zrn))). all: try (change (r * n <= zlen U3); exact (Z.eq_le_incl _ _ (eq_sym (eq_trans Z11 Z7')))). all: try nia.
  exists Ut, U, V, s, W, (tri (K := Rring) true false L0).
  split; [exact E12|]. split; [rewrite Z12; exact Zrn|]. split.
  { intros i j Hi Hj. specialize (H11 i j Hi Hj). unfold ld in *. rewrite H12. rewrite (proj2 (Z.leb_le 0 _)), (proj2 (Z.ltb_lt _ _)) by nia. cbn [andb]. replace (0 + (0 + (i * n + j) - 0)) with (0 + (i * n + j)) by lia. exact H11. }
  split; [exact Hev|]. split; [exact Hmax|]. split; [reflexivity|]. split.
  { intros i j Hi Hj. etransitivity; [exact (P10 i j Hi Hj)|]. destruct (j <=? i); [reflexivity|]. rewrite GS. reflexivity. }
  split. { intros i j Hi Hj Hij. unfold tri. destruct (Z.eqb_spec i j), (Z.ltb_spec j i); auto; lia. }
  split. { intros i Hi. unfold tri. rewrite Z.eqb_refl. apply (D10 i Hi). }
  exact Q11.
Qed.

(** W^T W is the sampled approximation. *)
Lemma gram_sampled r n a V s W (b : Z -> Z -> R) : eig_ok r a V s -> (0 < s (r - 1)%Z)%R ->
  (forall k c, 0 <= k < r -> 0 <= c < n -> W k c = S 0 r (fun j => (V j k * lrd_w (s (r - 1)%Z) (s k)) * b j c)%R) ->
  exists P, truncated_inverse r lrd_tol a P /\ forall i j, 0 <= i < n -> 0 <= j < n -> mm r (tr W) W i j = S 0 r (fun k => S 0 r (fun l => b k i * P k l * b l j))%R.
Proof.
  intros Hev Hmax HW. exists (fun i j => S 0 r (fun k => if Rlt_dec (s k) (lrd_tol * s (r - 1)%Z) then 0 else V i k * V j k / s k)%R). split.
  { exists V, s. split; [exact Hev|]. intros; reflexivity. }
  intros i j Hi Hj. set (w := fun k => lrd_w (s (r - 1)%Z) (s k)) in *.
  assert (Q : forall k, (if Rlt_dec (s k) (lrd_tol * s (r - 1)%Z) then 0 else / s k)%R = (w k * w k)%R). { intros k. unfold w. rewrite lrd_w_sq by auto. reflexivity. }
  transitivity (S 0 r (fun q => S 0 r (fun k => b k i * (V k q * w q)) * S 0 r (fun l => (V l q * w q) * b l j)))%R.
  { apply S_ext. intros q Hq. unfold tr. rewrite !HW by auto. f_equal. apply S_ext. intros. unfold w. rring. }
  transitivity (S 0 r (fun q => S 0 r (fun k => S 0 r (fun l => b k i * (V k q * w q) * ((V l q * w q) * b l j)))))%R.
  { apply S_ext. intros q Hq. rewrite <- S_mul_r. apply S_ext. intros k Hk. rewrite S_mul_l. reflexivity. }
  rewrite S_swap. apply S_ext. intros k Hk. rewrite S_swap. apply S_ext. intros l Hl.
  transitivity (S 0 r (fun q => (b k i * b l j) * (if Rlt_dec (s q) (lrd_tol * s (r - 1)%Z) then 0 else V k q * V l q / s q)))%R.
  - apply S_ext. intros q Hq. specialize (Q q). destruct (Rlt_dec (s q) (lrd_tol * s (r - 1)%Z)).
    + transitivity (b k i * b l j * V k q * V l q * (w q * w q))%R; [rring|]. rewrite <- Q. rring.
    + transitivity (b k i * b l j * V k q * V l q * (w q * w q))%R; [rring|]. rewrite <- Q. rring.
  - rewrite S_mul_l. rring.
Qed.
End Build.
