(** Each work item of Model_MvFine.v, run alone, does what the atomic item of
    Model_Matvec.v does, and makes only the accesses of its footprint. *)
From Coq Require Import ZArith List Lia Bool.
From Verif Require Import Base Mem Num CRing Conc Race Model_Utils Model_Dense Model_Partition Model_Matvec Model_MvFine.
Import ListNotations.
Open Scope Z_scope.

Ltac binv1 H x E := match type of H with bind ?e _ = Some _ => destruct e as [x|] eqn:E; cbn [bind] in H; [|discriminate H] end.

Section Sim.
Context {F : num} {K : cring}.
Local Open Scope ring_K.
Variable cells : bool.
Notation R := (runs (mstore (K := K) cells)).
Implicit Types P : bool * mloc -> Prop.

Lemma r_rdC P l s v : mrd cells s l = Some (VC (Some v)) -> P (false, l) -> R P (rdC cells l) s v s.
Proof. intros E H. unfold rdC. apply (@runs_rd (mstore cells)) with (v := VC (Some v)); auto. apply (@runs_ret (mstore cells)). Qed.
Lemma r_rdD P l s m : mrd cells s l = Some (VD m) -> P (false, l) -> R P (rdD cells l) s m s.
Proof. intros E H. unfold rdD. apply (@runs_rd (mstore cells)) with (v := VD m); auto. apply (@runs_ret (mstore cells)). Qed.
Lemma r_rdM P l s m : mrd cells s l = Some (VM m) -> P (false, l) -> R P (rdM cells l) s m s.
Proof. intros E H. unfold rdM. apply (@runs_rd (mstore cells)) with (v := VM m); auto. apply (@runs_ret (mstore cells)). Qed.
Lemma r_rdH P n s a b c d : mrd cells s (LY1h n) = Some (VH a b c d) -> P (false, LY1h n) -> R P (rdH cells n) s (b, c) s.
Proof. intros E H. unfold rdH. apply (@runs_rd (mstore cells)) with (v := VH a b c d); auto. apply (@runs_ret (mstore cells)). Qed.
Lemma r_wrV P l v s s' : mwr cells s l v = Some s' -> P (true, l) -> R P (wrV cells l v) s tt s'.
Proof. intros E H. unfold wrV. apply (@runs_wr (mstore cells)) with (m1 := s'); auto. apply (@runs_ret (mstore cells)). Qed.
Lemma r_ret {A} P (a : A) s : R P (Ret a) s a s.
Proof. apply (@runs_ret (mstore cells)). Qed.
Lemma r_lift {A} P (o : option A) a s : o = Some a -> R P (lift cells o) s a s.
Proof. apply (@runs_lift (mstore cells)). Qed.
Lemma r_bind {A B} P (p : prog (mstore cells) A) (f : A -> prog (mstore cells) B) s a s1 b s2 :
  R P p s a s1 -> R P (f a) s1 b s2 -> R P (pbind (mstore cells) p f) s b s2.
Proof. apply (@runs_bind (mstore cells)). Qed.
Lemma r_addC P l v s c s' : mrd cells s l = Some (VC (Some c)) -> mwr cells s l (VC (Some (c + v))) = Some s' ->
  P (false, l) -> P (true, l) -> R P (addC cells l v) s tt s'.
Proof. intros E W H1 H2. unfold addC. eapply r_bind; [apply r_rdC; eauto|]. now apply r_wrV. Qed.
Lemma r_for {X Z0} P (Inv : Z -> X -> mvst K -> Prop) (mk : X -> mvst K -> Z0) lo hi (f : Z -> Z0 -> option Z0) fp :
  (forall i x m z', lo <= i < hi -> Inv i x m -> f i (mk x m) = Some z' -> exists x' m', z' = mk x' m' /\ Inv (i + 1)%Z x' m' /\ R P (fp i x) m x' m') ->
  forall x m z', zfor lo hi f (mk x m) = Some z' -> Inv lo x m ->
  exists x' m', z' = mk x' m' /\ Inv (Z.max lo hi) x' m' /\ R P (for_ cells lo hi fp x) m x' m'.
Proof. apply (@runs_for (mstore cells)). Qed.
Lemma r_pure {X} P lo hi (f : Z -> X -> option X) fp s :
  (forall i x x', lo <= i < hi -> f i x = Some x' -> R P (fp i x) s x' s) ->
  forall x x', zfor lo hi f x = Some x' -> R P (for_ cells lo hi fp x) s x' s.
Proof. apply (@runs_pure_for (mstore cells)). Qed.

(** The same rules for goals that also say something about the final state. *)
Lemma c_bind {A B} (C : Prop) P (p : prog (mstore cells) A) (f : A -> prog (mstore cells) B) s a s1 b s2 :
  R P p s a s1 -> C /\ R P (f a) s1 b s2 -> C /\ R P (pbind (mstore cells) p f) s b s2.
Proof. intros H [HC H2]. split; auto. eapply r_bind; eauto. Qed.
Lemma c_for_bind {X Z0 B} (C : Prop) P (Inv : Z -> X -> mvst K -> Prop) (mk : X -> mvst K -> Z0) lo hi (f : Z -> Z0 -> option Z0) fp x m z' (k : X -> prog (mstore cells) B) b s2 :
  (forall i x m z', lo <= i < hi -> Inv i x m -> f i (mk x m) = Some z' -> exists x' m', z' = mk x' m' /\ Inv (i + 1)%Z x' m' /\ R P (fp i x) m x' m') ->
  zfor lo hi f (mk x m) = Some z' -> Inv lo x m ->
  (forall x' m', z' = mk x' m' -> Inv (Z.max lo hi) x' m' -> C /\ R P (k x') m' b s2) ->
  C /\ R P (pbind (mstore cells) (for_ cells lo hi fp x) k) m b s2.
Proof.
  intros Hb E HI Hk. destruct (r_for P Inv mk lo hi f fp Hb x m z' E HI) as (x' & m' & Ez & I' & R').
  destruct (Hk x' m' Ez I') as [HC R2]. split; auto. eapply r_bind; eauto.
Qed.
Lemma c_for {Z0} (C : Prop) P (Inv : Z -> unit -> mvst K -> Prop) (mk : unit -> mvst K -> Z0) lo hi (f : Z -> Z0 -> option Z0) fp m z' s2 :
  (forall i x m z', lo <= i < hi -> Inv i x m -> f i (mk x m) = Some z' -> exists x' m', z' = mk x' m' /\ Inv (i + 1)%Z x' m' /\ R P (fp i x) m x' m') ->
  zfor lo hi f (mk tt m) = Some z' -> Inv lo tt m ->
  (forall m', z' = mk tt m' -> Inv (Z.max lo hi) tt m' -> C /\ m' = s2) ->
  C /\ R P (for_ cells lo hi fp tt) m tt s2.
Proof.
  intros Hb E HI Hk. destruct (r_for P Inv mk lo hi f fp Hb tt m z' E HI) as (x' & m' & Ez & I' & R').
  destruct x'. destruct (Hk m' Ez I') as [HC <-]. split; auto.
Qed.

Lemma gemv_t_runs P m n A aoff lda xo xp acc y y' s : gemv_t m n A aoff lda xo acc y = Some y' ->
  (forall r b, 0 <= r < m -> xo r = Some b -> R P (xp r) s b s) -> R P (gemv_t_f cells m n A aoff lda xp acc y) s y' s.
Proof.
  unfold gemv_t, gemv_t_f. intros E Hx. destruct ((m =? 0) || (n =? 0))%bool. { injection E as <-. apply r_ret. }
  revert E. apply r_pure. intros c y1 y2 Hc E. binv1 E v Ev. eapply r_bind; [|apply r_lift; exact E].
  revert Ev. apply r_pure. intros r v1 v2 Hr Ev. binv1 Ev a Ea. binv1 Ev b Eb. injection Ev as <-.
  eapply r_bind; [apply r_lift; eauto|]. eapply r_bind; [apply Hx; eauto|]. apply r_ret.
Qed.
Lemma gemv_n_runs P m n A aoff lda xo xp acc y yoff y' s : gemv_n m n A aoff lda xo acc y yoff = Some y' ->
  (forall r b, 0 <= r < n -> xo r = Some b -> R P (xp r) s b s) -> R P (gemv_n_f cells m n A aoff lda xp acc y yoff) s y' s.
Proof.
  unfold gemv_n, gemv_n_f. intros E Hx. destruct ((m =? 0) || (n =? 0))%bool. { injection E as <-. apply r_ret. }
  revert E. apply r_pure. intros c y1 y2 Hc E. binv1 E v Ev. eapply r_bind; [|apply r_lift; exact E].
  revert Ev. apply r_pure. intros r v1 v2 Hr Ev. binv1 Ev a Ea. binv1 Ev b Eb. injection Ev as <-.
  eapply r_bind; [apply r_lift; eauto|]. eapply r_bind; [apply Hx; eauto|]. apply r_ret.
Qed.

Lemma bi_gemv_runs P (I : mvst K -> Prop) nrow ncol mat moff ldm in0 in1 add0 add1 p0 p1 q0 q1 :
  (forall s j v, I s -> 0 <= j < ncol -> in0 j = Some v -> R P (p0 j) s v s) ->
  (forall s i v, I s -> 0 <= i < nrow -> in1 i = Some v -> R P (p1 i) s v s) ->
  (forall s i v s', I s -> 0 <= i < nrow -> add0 i v s = Some s' -> I s' /\ R P (q0 i v) s tt s') ->
  (forall s j v s', I s -> 0 <= j < ncol -> add1 j v s = Some s' -> I s' /\ R P (q1 j v) s tt s') ->
  forall s s', 0 <= nrow -> I s -> bi_gemv nrow ncol mat moff ldm in0 in1 add0 add1 s = Some s' ->
  I s' /\ R P (bi_gemv_f cells nrow ncol mat moff ldm p0 p1 q0 q1) s tt s'.
Proof.
  intros H0 H1 A0 A1 s s' Hpos HI E. unfold bi_gemv in E. binv1 E s1 E1. unfold bi_gemv_f.
  pose proof (Z_div_mod_eq_full nrow 2) as Hd. pose proof (Z.mod_pos_bound nrow 2 ltac:(lia)) as Hm.
  eapply (c_for_bind _ P (fun _ (_ : unit) s => I s) (fun (_ : unit) (s : mvst K) => s)); [|exact E1|auto|].
  { intros i2 u m z' Hi2 Im Ez. cbv beta zeta in Ez |- *. binv1 Ez a0 Ea0. binv1 Ez a1 Ea1.
    binv1 Ez x Ex. destruct x as [[sum0 sum1] s2]. binv1 Ez s3 Es3.
    exists tt, z'. split; auto. 
    eapply c_bind; [eapply (H1 _ (2 * i2)%Z); eauto; lia|]. eapply c_bind; [eapply (H1 _ (2 * i2 + 1)%Z); eauto; lia|].
    eapply (c_for_bind _ P (fun _ (_ : K * K) s => I s) (fun (x : K * K) (s : mvst K) => (x, s))); [|exact Ex|auto|].
    { intros j [t0 t1] m1 z1 Hj Im1 Ez1. cbv beta iota in Ez1 |- *. binv1 Ez1 xj Exj. binv1 Ez1 w0 Ew0. binv1 Ez1 w1 Ew1. binv1 Ez1 sj Esj. injection Ez1 as <-.
      destruct (A1 _ _ _ _ Im1 Hj Esj) as [Ij Rj]. exists (t0 + w0 * xj, t1 + w1 * xj), sj. split; auto. split; auto.
      eapply r_bind; [eapply H0; eauto|]. eapply r_bind; [apply r_lift; eauto|]. eapply r_bind; [apply r_lift; eauto|].
      eapply r_bind; [exact Rj|]. apply r_ret. }
    intros x' m' Eq I2. injection Eq as <- <-. cbv beta iota zeta.
    destruct (A0 _ (2 * i2)%Z _ _ I2 ltac:(lia) Es3) as [I3 R3]. destruct (A0 _ (2 * i2 + 1)%Z _ _ I3 ltac:(lia) Ez) as [I4 R4].
    split; auto. eapply r_bind; [exact R3|]. exact R4. }
  intros u s1' <- I1.
  eapply (c_for _ P (fun _ (_ : unit) s => I s) (fun (_ : unit) (s : mvst K) => s)); [|exact E|auto|].
  { intros i u0 m z' Hi Im Ez. cbv beta in Ez |- *. binv1 Ez a Ea. binv1 Ez x Ex. destruct x as [sum s2].
    exists tt, z'. split; auto. eapply c_bind; [eapply (H1 _ i); eauto; lia|]. 
    eapply (c_for_bind _ P (fun _ (_ : K) s => I s) (fun (x : K) (s : mvst K) => (x, s))); [|exact Ex|auto|].
    { intros j t0 m1 z1 Hj Im1 Ez1. cbv beta iota in Ez1 |- *. binv1 Ez1 w0 Ew0. binv1 Ez1 xj Exj. binv1 Ez1 sj Esj. injection Ez1 as <-.
      destruct (A1 _ _ _ _ Im1 Hj Esj) as [Ij Rj]. exists (t0 + w0 * xj), sj. split; auto. split; auto.
      eapply r_bind; [apply r_lift; eauto|]. eapply r_bind; [eapply H0; eauto|]. 
      eapply r_bind; [exact Rj|]. apply r_ret. }
    intros x' m' Eq I2. injection Eq as <- <-. destruct (A0 _ i _ _ I2 ltac:(lia) Ez) as [I3 R3]. split; auto. }
  intros m' <- Im. auto.
Qed.

Variable h : h2rep F K.
Notation acc := (bool * mloc)%type.

Definition is_child (node c : Z) : Prop := exists nc k, ld (a_nchild (h_t h)) node = Some nc /\ 0 <= k < nc /\
  ld (a_children (h_t h)) (node * h_maxchild h + k) = Some c.
Definition fp_fwd (node : Z) (a : acc) : Prop :=
  snd a = LY0 node \/ fst a = false /\ ((exists i, snd a = LPX i) \/ exists c, is_child node c /\ snd a = LY0 c).

Lemma fwd_node_runs node s s' : fwd_node h node s = Some s' -> R (fp_fwd node) (fwd_node_f cells h node) s tt s'.
Proof.
  unfold fwd_node, fwd_node_f. intros E. binv1 E nc En. binv1 E U EU. binv1 E y0 Ey. binv1 E yn Eyn. binv1 E d Ed. binv1 E y0' Ey'. injection E as <-.
  eapply r_bind; [apply r_lift; first [reflexivity | eassumption]|]. eapply r_bind; [apply r_lift; first [reflexivity | eassumption]|].
  eapply r_bind; [apply r_rdD with (m := yn); [cbn [mrd]; rewrite Ey; cbn [bind]; now rewrite Eyn|now left]|].
  cbv zeta. eapply r_bind.
  2:{ apply r_wrV; [|now left]. cbn [mwr]. rewrite Ey. cbn [bind]. rewrite Ey'. reflexivity. }
  destruct (nc =? 0) eqn:E0.
  - binv1 Ed xs Exs. eapply r_bind; [apply r_lift; first [reflexivity | eassumption]|]. eapply gemv_t_runs; [exact Ed|].
    intros r b Hr Hb. apply r_rdC; [|right; split; auto; left; eexists; reflexivity]. cbn [mrd]. apply ld_getz in Hb. now rewrite Hb.
  - binv1 Ed x Ex. destruct x as [sr dd]. injection Ed as <-.
    eapply r_bind with (a := (sr, dd)); [|apply r_ret]. revert Ex. apply r_pure. intros k [srow d1] [srow' d1'] Hk Ex.
    binv1 Ex c Ec. binv1 Ex yk Eyk. binv1 Ex d2 Ed2. injection Ex as <- <-.
    eapply r_bind; [apply r_lift; first [reflexivity | eassumption]|].
    eapply r_bind; [apply r_rdD with (m := yk); [cbn [mrd]; rewrite Ey; cbn [bind]; now rewrite Eyk|]|].
    { right. split; auto. right. exists c. split; auto. exists nc, k. auto. }
    eapply r_bind; [eapply gemv_t_runs; [exact Ed2|]|apply r_ret]. intros r b Hr Hb. now apply r_lift.
Qed.

Definition fp_obj (l : mloc) (a : acc) : Prop := snd a = l.
Lemma sum_y1_node_runs i s s' : cells = false -> sum_y1_node h i s = Some s' -> R (fp_obj (LY1 i)) (sum_y1_node_f cells h i) s tt s'.
Proof.
  intros Hc. unfold sum_y1_node, sum_y1_node_f. intros E. binv1 E y1 Ey. binv1 E m Em.
  eapply r_bind; [apply r_rdD with (m := m); [cbn [mrd]; rewrite Hc, Ey; cbn [bind]; now rewrite Em|reflexivity]|].
  destruct (dm_ld m =? 0). { injection E as <-. apply r_ret. }
  cbv zeta in E |- *. binv1 E d Ed. binv1 E y2 Ey2. injection E as <-.
  eapply r_bind; [apply r_lift; first [reflexivity | exact Ed]|]. apply r_wrV; [|reflexivity]. cbn [mwr]. rewrite Hc, Ey. cbn [bind]. now rewrite Ey2.
Qed.

Definition fp_den (tid : Z) (a : acc) : Prop := snd a = LTY tid \/ fst a = false /\ exists i, snd a = LPX i.

Lemma add_ty_runs P tid off k v s s' : P (false, LTY tid) -> P (true, LTY tid) -> add_ty tid off k v s = Some s' -> 
  (s_px s' = s_px s /\ s_y0 s' = s_y0 s /\ s_y1 s' = s_y1 s) /\ R P (addT cells tid off k v) s tt s'.
Proof.
  intros P1 P2 E. unfold add_ty in E. binv1 E m Em. binv1 E d Ed. binv1 E ty Et. injection E as <-.
  split; [auto|]. unfold addT. eapply r_bind; [apply r_rdM with (m := m); auto; cbn [mrd]; now rewrite Em|].
  eapply r_bind; [apply r_lift; first [reflexivity | exact Ed]|]. apply r_wrV; auto. cbn [mwr]. now rewrite Et.
Qed.

Lemma dense_diag_runs tid i s s' : dense_diag h tid i s = Some s' -> R (fp_den tid) (dense_diag_f cells h tid i) s tt s'.
Proof.
  unfold dense_diag, dense_diag_f. intros E. binv1 E node En. binv1 E vs Ev. binv1 E ptr Ep. binv1 E nrow Er. binv1 E ncol Ec. binv1 E y Ey.
  binv1 E y' Ey'. binv1 E ty Et. injection E as <-.
  do 5 (eapply r_bind; [apply r_lift; first [reflexivity | eassumption]|]).
  eapply r_bind; [apply r_rdM with (m := y); [cbn [mrd]; now rewrite Ey|now left]|].
  eapply r_bind; [eapply gemv_n_runs; [exact Ey'|]|].
  - intros r b Hr Hb. apply r_rdC; [|right; split; auto; eexists; reflexivity]. cbn [mrd]. apply ld_getz in Hb. now rewrite Hb.
  - apply r_wrV; [|now left]. cbn [mwr]. now rewrite Et.
Qed.

Lemma dense_off_runs tid i s s' : (forall n, ld (h_Dnrow h) (h_nleaf h + i) = Some n -> 0 <= n) ->
  dense_off h tid i s = Some s' -> R (fp_den tid) (dense_off_f cells h tid i) s tt s'.
Proof.
  unfold dense_off, dense_off_f. intros Hn E. binv1 E nn En. destruct nn as [node0 node1]. binv1 E v0 Ev0. binv1 E v1 Ev1. binv1 E ptr Ep. binv1 E nrow Er. binv1 E ncol Ec.
  eapply r_bind; [apply r_lift; first [reflexivity | eassumption]|]. cbv beta iota zeta.
  do 5 (eapply r_bind; [apply r_lift; first [reflexivity | eassumption]|]).
  eapply (bi_gemv_runs _ (fun s1 => s_px s1 = s_px s)); [| | | | |reflexivity|exact E].
  - intros s1 j v Hs Hj Hv. apply r_rdC; [|right; split; auto; eexists; reflexivity]. cbn [mrd]. rewrite Hs. apply ld_getz in Hv. now rewrite Hv.
  - intros s1 j v Hs Hj Hv. apply r_rdC; [|right; split; auto; eexists; reflexivity]. cbn [mrd]. rewrite Hs. apply ld_getz in Hv. now rewrite Hv.
  - intros s1 j v s2 Hs Hj Hv. destruct (add_ty_runs (fp_den tid) _ _ _ _ _ _ (or_introl eq_refl) (or_introl eq_refl) Hv) as [(A & _) B]. split; [congruence|exact B].
  - intros s1 j v s2 Hs Hj Hv. destruct (add_ty_runs (fp_den tid) _ _ _ _ _ _ (or_introl eq_refl) (or_introl eq_refl) Hv) as [(A & _) B]. split; [congruence|exact B].
  - auto.
Qed.

Definition fp_red (tid : Z) (a : acc) : Prop :=
  (exists spos len i, calc_block_spos_len (h_kms h) (h_nthread h) tid = Some (spos, len) /\ spos <= i < spos + len /\ snd a = LPY i) \/
  fst a = false /\ exists t, snd a = LTY t.

Lemma madd_inv (m m' : mem K) i v : madd m i v = Some m' -> exists c, getz m i = Some (Some c) /\ setz m i (Some (c + v)) = Some m'.
Proof. unfold madd. intros E. binv1 E c Ec. apply ld_getz in Ec. exists c. split; auto. Qed.

Lemma addC_py_runs P i v s py' : P (false, LPY i) -> P (true, LPY i) -> madd (s_py s) i v = Some py' -> R P (addC cells (LPY i) v) s tt (set_py s py').
Proof.
  intros P1 P2 E. apply madd_inv in E as (c & Ec & Ew). apply r_addC with (c := c); auto; cbn [mrd mwr]; [now rewrite Ec|now rewrite Ew].
Qed.

Lemma reduce_y_runs tid s s' : reduce_y h tid s = Some s' -> R (fp_red tid) (reduce_y_f cells h tid) s tt s'.
Proof.
  unfold reduce_y, reduce_y_f. intros E. binv1 E x Ex. destruct x as [spos len]. binv1 E py Ep. injection E as <-.
  eapply r_bind; [apply r_lift; first [reflexivity | eassumption]|]. cbv beta iota zeta.
  assert (G : True /\ R (fp_red tid) (for_ cells 0 (h_nthread h) (fun t (_ : unit) =>
    pbind (mstore cells) (rdM cells (LTY t)) (fun src => for_ cells spos (spos + len) (fun i (_ : unit) => pbind (mstore cells) (lift cells (ld src i)) (fun v => addC cells (LPY i) v)) tt)) tt) s tt (set_py s py)).
  2:{ apply G. }
  eapply (c_for _ _ (fun _ (_ : unit) s1 => s1 = set_py s (s_py s1)) (fun (_ : unit) s1 => s_py s1)); [|exact Ep|now destruct s|].
  { intros t u m z' Ht Hm Ez. cbv beta in Ez |- *. binv1 Ez src Es. exists tt, (set_py s z'). split; auto. 
    eapply c_bind. { apply r_rdM with (m := src); [|right; split; auto; eexists; reflexivity]. cbn [mrd]. rewrite Hm. cbn [s_ty set_py]. now rewrite Es. }
    eapply (c_for _ _ (fun _ (_ : unit) s1 => s1 = set_py s (s_py s1)) (fun (_ : unit) s1 => s_py s1)); [|exact Ez|exact Hm|].
    - intros i u1 m1 z1 Hi Hm1 Ez1. cbv beta iota in Ez1 |- *. binv1 Ez1 v Ev. exists tt, (set_py m1 z1). split; auto. split; [rewrite Hm1; reflexivity|].
      eapply r_bind; [apply r_lift; first [reflexivity | exact Ev]|]. apply addC_py_runs; auto; left; exists spos, len, i; auto.
    - intros m' -> Hm'. rewrite <- Hm'. auto. }
  intros m' -> Hm'. rewrite <- Hm'. auto.
Qed.

Definition fp_bwd (tid node : Z) (a : acc) : Prop :=
  snd a = LM0 tid \/ a = (false, LY1 node) \/ (exists c, is_child node c /\ snd a = LY1 c) \/
  (ld (a_nchild (h_t h)) node = Some 0 /\ exists si ei i, ld (h_mcl h) (2 * node) = Some si /\ ld (h_mcl h) (2 * node + 1) = Some ei /\ si <= i <= ei /\ snd a = LPY i).

Lemma bwd_node_runs tid node s s' : cells = false -> bwd_node h tid node s = Some s' -> R (fp_bwd tid node) (bwd_node_f cells h tid node) s tt s'.
Proof.
  intros Hc. unfold bwd_node, bwd_node_f. intros E. binv1 E nc En. binv1 E y1 Ey. binv1 E m Em.
  eapply r_bind; [apply r_lift; first [reflexivity | eassumption]|].
  eapply r_bind; [apply r_rdD with (m := m); [cbn [mrd]; rewrite Hc, Ey; cbn [bind]; now rewrite Em|right; left; reflexivity]|].
  destruct (dm_ld m =? 0). { injection E as <-. apply r_ret. }
  binv1 E U EU. binv1 E t0 Et. cbv zeta in E |- *. binv1 E td Etd. binv1 E m0 Em0.
  eapply r_bind; [apply r_lift; first [reflexivity | eassumption]|].
  eapply r_bind; [apply r_rdD with (m := t0); [cbn [mrd]; now rewrite Et|now left]|].
  eapply r_bind; [eapply gemv_n_runs; [exact Etd|]; intros r b Hr Hb; now apply r_lift|].
  eapply r_bind; [apply r_wrV; [cbn [mwr]; rewrite Em0; reflexivity|now left]|].
  destruct (nc =? 0) eqn:E0.
  - apply Z.eqb_eq in E0. subst nc. binv1 E si Esi. binv1 E ei Eei. binv1 E py Ep. injection E as <-.
    do 2 (eapply r_bind; [apply r_lift; first [reflexivity | eassumption]|]).
    match goal with |- R ?P ?p ?a ?b ?c => assert (G : True /\ R P p a b c); [|apply G] end.
    cbn [set_m0 s_py] in Ep.
    eapply (c_for _ _ (fun _ (_ : unit) s1 => s1 = set_py (set_m0 s m0) (s_py s1)) (fun (_ : unit) s1 => s_py s1)); [|exact Ep|reflexivity|].
    + intros k u m1 z1 Hk Hm1 Ez1. cbv beta iota in Ez1 |- *. binv1 Ez1 v Ev. exists tt, (set_py m1 z1). split; auto. split; [rewrite Hm1; reflexivity|].
      eapply r_bind; [apply r_lift; first [reflexivity | exact Ev]|]. apply addC_py_runs; auto; right; right; right; split; auto; exists si, ei, (si + k)%Z; cbn [snd]; repeat split; auto; lia.
    + intros m' -> Hm'. split; auto.
  - binv1 E x Ex. destruct x as [idx y1']. injection E as <-.
    match goal with |- R ?P ?p ?a ?b ?c => assert (G : True /\ R P p a b c); [|apply G] end.
    cbn [set_m0 s_y1] in Ex.
    set (gy := fun s1 : mvst K => match s_y1 s1 with Some l => l | None => [] end).
    eapply (c_for_bind _ _ (fun _ (_ : Z) s1 => s1 = set_y1 (set_m0 s m0) (gy s1)) (fun (x : Z) s1 => (x, gy s1))); [| |cbv beta; unfold gy; cbn [set_m0 s_y1]; rewrite Ey; destruct s; cbn in *; subst; reflexivity|].
    2:{ unfold gy. cbn [set_m0 s_y1]. rewrite Ey. exact Ex. }
    + intros k ix m1 z1 Hk Hm1 Ez1. cbv beta iota in Ez1 |- *. binv1 Ez1 c Ec. binv1 Ez1 Uc EUc. cbv zeta in Ez1. binv1 Ez1 mc Emc. binv1 Ez1 mc' Emc'. binv1 Ez1 y2 Ey2. injection Ez1 as <-.
      assert (Hy1 : s_y1 m1 = Some (gy m1)) by (rewrite Hm1; reflexivity).
      assert (Hch : is_child node c) by (exists nc, k; auto).
      exists (ix + dm_ncol Uc)%Z, (set_y1 m1 y2). unfold gy at 1. cbn [set_y1 s_y1]. split; auto. split; [rewrite Hm1; reflexivity|].
      do 2 (eapply r_bind; [apply r_lift; eauto|]). cbv zeta.
      eapply r_bind; [apply r_rdD with (m := mc); [cbn [mrd]; rewrite Hc, Hy1; cbn [bind]; now rewrite Emc|right; right; left; eauto]|].
      eapply r_bind with (a := mc') (s1 := m1).
      * destruct (dm_ld mc =? 0).
        -- binv1 Emc' d Ed. injection Emc' as <-. eapply r_bind; [apply r_lift; first [reflexivity | exact Ed]|apply r_ret].
        -- binv1 Emc' d Ed. injection Emc' as <-. eapply r_bind; [apply r_lift; first [reflexivity | exact Ed]|apply r_ret].
      * eapply r_bind; [apply r_wrV; [cbn [mwr]; rewrite Hc, Hy1; cbn [bind]; rewrite Ey2; reflexivity|right; right; left; eauto]|]. apply r_ret.
    + intros x' m' Eq Hm'. injection Eq as <- ->. split; auto. rewrite <- Hm'. apply r_ret.
Qed.
End Sim.

Lemma setz_self {A} (l : list A) i v : getz l i = Some v -> setz l i v = Some l.
Proof.
  intros G. destruct (setz_Some l i v) as [l' E]; [now apply getz_range in G|]. rewrite E. f_equal. apply getz_ext.
  - now rewrite (setz_zlen _ _ _ _ E).
  - intros k _. rewrite (getz_setz _ _ _ _ _ E). destruct (Z.eqb_spec i k) as [<-|]; auto.
Qed.
Lemma setz_twice {A} (l l1 : list A) i a b : setz l i a = Some l1 -> setz l1 i b = setz l i b.
Proof.
  intros E. assert (Hr : 0 <= i < zlen l).
  { unfold setz in E; destruct (0 <=? i) eqn:?, (i <? zlen l) eqn:?; try discriminate; lia. }
  destruct (setz_Some l i b) as [l2 E2]; auto. destruct (setz_Some l1 i b) as [l3 E3]; [now rewrite (setz_zlen _ _ _ _ E)|].
  rewrite E2, E3. f_equal. apply getz_ext.
  - now rewrite (setz_zlen _ _ _ _ E3), (setz_zlen _ _ _ _ E2), (setz_zlen _ _ _ _ E).
  - intros k _. rewrite (getz_setz _ _ _ _ _ E3), (getz_setz _ _ _ _ _ E2), (getz_setz _ _ _ _ _ E). destruct (i =? k); auto.
Qed.

Section Cells.
Context {F : num} {K : cring}.
Local Open Scope ring_K.
Notation R := (runs (mstore (K := K) true)).
Notation acc := (bool * mloc)%type.
Variable h : h2rep F K.
Variable nc : Z -> Z.                 (* y1[n]->ncol *)

Definition hdr_ok (s : mvst K) : Prop := forall y1 n m, s_y1 s = Some y1 -> getz y1 n = Some m -> dm_ncol m = nc n.

(** Row [tid] of each y1[n], and the headers. *)
Definition fp_row (tid : Z) (a : acc) : Prop :=
  (fst a = false /\ exists n, snd a = LY1h n) \/ exists n k, tid * nc n <= k < tid * nc n + nc n /\ snd a = LY1c n k.

Lemma init_y1_zero_runs tid s s' : hdr_ok s -> init_y1_zero h tid s = Some s' ->
  hdr_ok s' /\ R (fp_row tid) (init_y1_zero_f true h tid) s tt s'.
Proof.
  intros Hh. unfold init_y1_zero, init_y1_zero_f. intros E. binv1 E y1 Ey. binv1 E y1' Ey'. injection E as <-.
  set (gy := fun s1 : mvst K => match s_y1 s1 with Some l => l | None => [] end).
  eapply (c_for true _ _ (fun _ (_ : unit) s1 => s1 = set_y1 s (gy s1) /\ hdr_ok s1) (fun (_ : unit) s1 => gy s1)).
  2:{ unfold gy. rewrite Ey. exact Ey'. }
  2:{ split; auto. unfold gy. rewrite Ey. destruct s; cbn in *; subst; reflexivity. }
  2:{ intros m' -> [Hm1 Hm2]. rewrite <- Hm1. auto. }
  intros i u s1 z Hi [Hs1 Hh1] Ez. cbv beta in Ez |- *. binv1 Ez m Em.
  assert (Hy1 : s_y1 s1 = Some (gy s1)) by (rewrite Hs1; reflexivity).
  pose proof (Hh1 _ _ _ Hy1 Em) as Hnc.
  destruct (dm_ld m =? 0) eqn:El.
  - injection Ez as <-. exists tt, s1. split; auto. split; auto.
    eapply r_bind; [apply r_rdH with (a := dm_nrow m) (b := dm_ncol m) (c := dm_ld m) (d := dm_size m); [cbn [mrd]; rewrite Hy1; cbn [bind]; now rewrite Em|left; split; auto; eexists; reflexivity]|].
    cbv beta iota zeta. rewrite El. apply r_ret.
  - binv1 Ez d Ed.
    exists tt, (set_y1 s z). split; auto.
    assert (Hz : hdr_ok (set_y1 s z)).
    { intros y n m' Hy Hg. cbn [set_y1 s_y1] in Hy. injection Hy as <-. rewrite (getz_setz _ _ _ _ _ Ez) in Hg.
      destruct (Z.eqb_spec i n) as [<-|]; [injection Hg as <-; cbn [dm_set_data dm_ncol]; auto|eauto]. }
    split; auto.
    eapply r_bind; [apply r_rdH with (a := dm_nrow m) (b := dm_ncol m) (c := dm_ld m) (d := dm_size m); [cbn [mrd]; rewrite Hy1; cbn [bind]; now rewrite Em|left; split; auto; eexists; reflexivity]|].
    cbv beta iota zeta. rewrite El.
    match goal with |- R ?P ?p ?a ?b ?c => assert (G : True /\ R P p a b c); [|apply G] end.
    set (gd := fun s2 : mvst K => match getz (gy s2) i with Some m2 => dm_data m2 | None => [] end).
    eapply (c_for true _ _ (fun _ (_ : unit) s2 => s2 = set_y1 s (gy s2) /\ setz (gy s1) i (dm_set_data m (gd s2)) = Some (gy s2)) (fun (_ : unit) s2 => gd s2)).
    2:{ unfold gd. rewrite Em. exact Ed. }
    2:{ split; auto. unfold gd. rewrite Em. replace (dm_set_data m (dm_data m)) with m by (destruct m; reflexivity). now apply setz_self. }
    + intros k u2 s2 z2 Hk [Hs2 Hset] Ez2. cbv beta in Ez2 |- *. unfold st in Ez2.
      assert (Hg2 : getz (gy s2) i = Some (dm_set_data m (gd s2))) by (rewrite (getz_setz _ _ _ _ _ Hset), Z.eqb_refl; auto).
      destruct (setz_Some (gy s1) i (dm_set_data m z2)) as [y3 E3]; [now apply getz_range in Em|].
      exists tt, (set_y1 s y3). assert (Hgy : gy (set_y1 s y3) = y3) by reflexivity.
      assert (Hgd : gd (set_y1 s y3) = z2). { unfold gd. rewrite Hgy, (getz_setz _ _ _ _ _ E3), Z.eqb_refl. reflexivity. }
      rewrite Hgd, Hgy. split; auto. split; auto.
      apply r_wrV; [|right; exists i, (tid * dm_ncol m + k)%Z; rewrite <- Hnc; split; auto; lia].
      cbn [mwr]. replace (s_y1 s2) with (Some (gy s2)) by (rewrite Hs2; reflexivity). cbn [bind]. rewrite Hg2. cbn [bind dm_set_data dm_data].
      rewrite Ez2. cbn [bind]. rewrite (setz_twice _ _ _ _ _ Hset).
      match goal with |- context [setz (gy s1) i ?x] => change x with (dm_set_data m z2) end. rewrite E3. cbn [bind].
      rewrite Hs2. reflexivity.
    + intros m' -> [Hm1 Hm2]. split; auto. rewrite Hm1. f_equal. congruence.
Qed.

Definition fp_mid (tid : Z) (a : acc) : Prop :=
  snd a = LTY tid \/ (fst a = false /\ ((exists i, snd a = LPX i) \/ (exists n, snd a = LY0 n) \/ exists n, snd a = LY1h n)) \/
  exists n k, tid * nc n <= k < tid * nc n + nc n /\ snd a = LY1c n k.

Definition mid_inv (s s1 : mvst K) : Prop := s_px s1 = s_px s /\ s_y0 s1 = s_y0 s /\ hdr_ok s1.

Lemma add_y1_runs tid node k v s0 s s' : 0 <= k < nc node -> mid_inv s0 s -> add_y1 node (tid * nc node) k v s = Some s' ->
  mid_inv s0 s' /\ R (fp_mid tid) (addC true (LY1c node (tid * nc node + k)) v) s tt s'.
Proof.
  intros Hk (I1 & I2 & I3) E. unfold add_y1 in E. binv1 E y1 Ey. binv1 E m Em. binv1 E d Ed. binv1 E y2 Ey2. injection E as <-.
  apply madd_inv in Ed as (c & Ec & Ed).
  split.
  - split; [|split]; auto. intros y n m' Hy Hg. cbn [set_y1 s_y1] in Hy. injection Hy as <-. rewrite (getz_setz _ _ _ _ _ Ey2) in Hg.
    destruct (Z.eqb_spec node n) as [<-|]; [injection Hg as <-; cbn [dm_set_data dm_ncol]|]; eauto.
  - apply r_addC with (c := c); cbn [mrd mwr].
    + rewrite Ey. cbn [bind]. rewrite Em. cbn [bind]. now rewrite Ec.
    + rewrite Ey. cbn [bind]. rewrite Em. cbn [bind]. rewrite Ed. cbn [bind]. now rewrite Ey2.
    + right; right. exists node, (tid * nc node + k)%Z. split; auto. lia.
    + right; right. exists node, (tid * nc node + k)%Z. split; auto. lia.
Qed.

Lemma rdY0_runs tid s0 s node k v : mid_inv s0 s -> y0_at s0 node k = Some v -> R (fp_mid tid) (rdY0 true node k) s v s.
Proof.
  intros (I1 & I2 & I3) E. unfold y0_at in E. binv1 E y0 Ey. binv1 E m Em. unfold rdY0.
  eapply r_bind; [apply r_rdD with (m := m)|apply r_lift; exact E].
  - cbn [mrd]. rewrite I2. try rewrite Ey. cbn [bind]. now rewrite Em.
  - right; left. split; auto. right; left. eexists; reflexivity.
Qed.
Lemma rdPX_runs tid s0 s i v : mid_inv s0 s -> ld (s_px s0) i = Some v -> R (fp_mid tid) (rdC true (LPX i)) s v s.
Proof.
  intros (I1 & I2 & I3) E. apply r_rdC.
  - cbn [mrd]. rewrite I1. apply ld_getz in E. now rewrite E.
  - right; left. split; auto. left. eexists; reflexivity.
Qed.
Lemma addT_runs tid off k v s0 s s' : mid_inv s0 s -> add_ty tid off k v s = Some s' ->
  mid_inv s0 s' /\ R (fp_mid tid) (addT true tid off k v) s tt s'.
Proof.
  intros (I1 & I2 & I3) E. destruct (add_ty_runs true (fp_mid tid) _ _ _ _ _ _ (or_introl eq_refl) (or_introl eq_refl) E) as [(A & B & C) D].
  split; auto. split; [congruence|]. split; [congruence|]. intros y n m Hy. rewrite C in Hy. apply I3. auto.
Qed.
Lemma rdH_runs tid s y1 n m : s_y1 s = Some y1 -> getz y1 n = Some m -> R (fp_mid tid) (rdH true n) s (dm_ncol m, dm_ld m) s.
Proof.
  intros Hy Hm. apply r_rdH with (a := dm_nrow m) (d := dm_size m); [cbn [mrd]; rewrite Hy; cbn [bind]; now rewrite Hm|].
  right; left. split; auto. right; right. eexists; reflexivity.
Qed.

Lemma mid_pair_runs tid i s s' : hdr_ok s ->
  (forall node0 node1 l0 l1 nrow ncol, getz (h_adm h) i = Some (node0, node1) -> ld (a_level (h_t h)) node0 = Some l0 -> ld (a_level (h_t h)) node1 = Some l1 ->
     ld (h_Bnrow h) i = Some nrow -> ld (h_Bncol h) i = Some ncol -> 0 <= nrow /\ (l1 <= l0 -> nrow = nc node0) /\ (l0 <= l1 -> ncol = nc node1)) ->
  mid_pair h tid i s = Some s' -> hdr_ok s' /\ R (fp_mid tid) (mid_pair_f true h tid i) s tt s'.
Proof.
  intros Hh Hd E. unfold mid_pair in E. unfold mid_pair_f. binv1 E nn En. destruct nn as [node0 node1].
  binv1 E l0 El0. binv1 E l1 El1. binv1 E ptr Ep. binv1 E nrow Er. binv1 E ncol Ec.
  destruct (Hd _ _ _ _ _ _ eq_refl El0 El1 eq_refl eq_refl) as (D0 & D1 & D2). clear Hd.
  assert (I0 : mid_inv s s) by (repeat split; auto).
  eapply c_bind; [apply r_lift; reflexivity|]. cbv beta iota zeta. rewrite El0, El1.
  do 5 (eapply c_bind; [apply r_lift; first [reflexivity | eassumption]|]).
  destruct (l0 =? l1) eqn:E01; [apply Z.eqb_eq in E01|apply Z.eqb_neq in E01; destruct (l1 <? l0) eqn:E10; [apply Z.ltb_lt in E10|apply Z.ltb_ge in E10]].
  - binv1 E y1 Ey. binv1 E m0 Em0. binv1 E m1 Em1.
    eapply c_bind; [eapply rdH_runs; eauto|]. cbv beta iota zeta. eapply c_bind; [eapply rdH_runs; eauto|]. cbv beta iota zeta.
    rewrite (Hh _ _ _ Ey Em0), (Hh _ _ _ Ey Em1) in *.
    assert (G : mid_inv s s' /\ R (fp_mid tid) (bi_gemv_f true nrow ncol (h_Bdata h) ptr ncol (rdY0 true node1) (rdY0 true node0)
       (fun k => addC true (LY1c node0 (tid * nc node0 + k))) (fun k => addC true (LY1c node1 (tid * nc node1 + k)))) s tt s').
    2:{ destruct G as [(_ & _ & G1) G2]. auto. }
    eapply (bi_gemv_runs true _ (mid_inv s)); [| | | |auto|auto|exact E].
    + intros s1 j v Is Hj Hv. eapply rdY0_runs; eauto.
    + intros s1 j v Is Hj Hv. eapply rdY0_runs; eauto.
    + intros s1 j v s2 Is Hj Hv. eapply add_y1_runs; eauto. rewrite <- D1; lia.
    + intros s1 j v s2 Is Hj Hv. eapply add_y1_runs; eauto. rewrite <- D2; lia.
  - binv1 E vs Ev. binv1 E y1 Ey. binv1 E m0 Em0.
    eapply c_bind; [apply r_lift; first [reflexivity | eassumption]|].
    eapply c_bind; [eapply rdH_runs; eauto|]. cbv beta iota zeta. 
    rewrite (Hh _ _ _ Ey Em0) in *.
    match goal with |- _ /\ R ?P ?p ?a ?b ?c => assert (G : mid_inv s s' /\ R P p a b c); [|destruct G as [(_ & _ & G1) G2]; auto] end.
    eapply (bi_gemv_runs true _ (mid_inv s)); [| | | |auto|auto|exact E].
    + intros s1 j v Is Hj Hv. eapply rdPX_runs; eauto.
    + intros s1 j v Is Hj Hv. eapply rdY0_runs; eauto.
    + intros s1 j v s2 Is Hj Hv. eapply add_y1_runs; eauto. rewrite <- D1; lia.
    + intros s1 j v s2 Is Hj Hv. eapply addT_runs; eauto.
  - binv1 E vs Ev. binv1 E y1 Ey. binv1 E m0 Em0.
    eapply c_bind; [apply r_lift; first [reflexivity | eassumption]|].
    eapply c_bind; [eapply rdH_runs; eauto|]. cbv beta iota zeta. 
    rewrite (Hh _ _ _ Ey Em0) in *.
    match goal with |- _ /\ R ?P ?p ?a ?b ?c => assert (G : mid_inv s s' /\ R P p a b c); [|destruct G as [(_ & _ & G1) G2]; auto] end.
    eapply (bi_gemv_runs true _ (mid_inv s)); [| | | |auto|auto|exact E].
    + intros s1 j v Is Hj Hv. eapply rdY0_runs; eauto.
    + intros s1 j v Is Hj Hv. eapply rdPX_runs; eauto.
    + intros s1 j v s2 Is Hj Hv. eapply addT_runs; eauto.
    + intros s1 j v s2 Is Hj Hv. eapply add_y1_runs; eauto. rewrite <- D2; lia.
Qed.
End Cells.
