(** The parallel regions of the ahead-of-time matvec (src/H2Pack_matvec.c) at the
    granularity of single accesses to shared data: what each work item reads and
    writes, and in which order.  Companion of Model_Matvec.v, whose items are the
    same code run atomically.

    Shared locations: the cells of pmt_x and pmt_y; the matrix objects y0[n],
    thread_buf[t]->mat0 and the arrays thread_buf[t]->y, each as one location (an
    item's accesses to the cells of such an object are shown as one read and one
    write of the whole object: two items that share an object then conflict even
    if they use different cells, so absence of conflicts is the stronger claim);
    and y1[n], in two granularities: as one object in the regions that resize or
    sum it, or as a header (nrow, ncol, ld, size: not written there) and separate
    data cells in the regions where threads share it.  Everything else the items
    read (the tree, U, B, D, the pair lists) is not written by any region and is
    read directly.  The timers are left out. *)
From Coq Require Import ZArith List Lia Bool.
From Verif Require Import Base Mem Num CRing Conc Race Model_Utils Model_Dense Model_Partition Model_Matvec.
Import ListNotations.
Open Scope Z_scope.

Inductive mloc : Type :=
| LPX (i : Z) | LPY (i : Z)           (* pmt_x[i], pmt_y[i] *)
| LY0 (n : Z)                         (* *y0[n] *)
| LY1 (n : Z)                         (* *y1[n], as one object *)
| LY1h (n : Z) | LY1c (n i : Z)       (* header of y1[n]; y1[n]->data[i] *)
| LTY (t : Z)                         (* thread_buf[t]->y *)
| LM0 (t : Z).                        (* *thread_buf[t]->mat0 *)

Lemma mloc_dec (l l' : mloc) : {l = l'} + {l <> l'}.
Proof. decide equality; apply Z.eq_dec. Defined.

Section Fine.
Context {F : num} {K : cring}.
Local Open Scope ring_K.

(** What a location holds. *)
Inductive mval : Type :=
| VC (c : option K)                   (* a number, or nothing yet *)
| VD (m : dmat K) | VM (y : mem K)
| VH (nrow ncol ld size : Z).

(** [cells = true]: y1 is seen as headers and cells. *)
Definition mrd (cells : bool) (s : mvst K) (l : mloc) : option mval :=
  match l with
  | LPX i => c <- getz (s_px s) i; Some (VC c)
  | LPY i => c <- getz (s_py s) i; Some (VC c)
  | LY0 n => y <- s_y0 s; m <- getz y n; Some (VD m)
  | LY1 n => if cells then None else y <- s_y1 s; m <- getz y n; Some (VD m)
  | LY1h n => if cells then y <- s_y1 s; m <- getz y n; Some (VH (dm_nrow m) (dm_ncol m) (dm_ld m) (dm_size m)) else None
  | LY1c n i => if cells then y <- s_y1 s; m <- getz y n; c <- getz (dm_data m) i; Some (VC c) else None
  | LTY t => y <- getz (s_ty s) t; Some (VM y)
  | LM0 t => m <- getz (s_m0 s) t; Some (VD m)
  end.
Definition mwr (cells : bool) (s : mvst K) (l : mloc) (v : mval) : option (mvst K) :=
  match l, v with
  | LPX i, VC c => d <- setz (s_px s) i c; Some (set_px s d)
  | LPY i, VC c => d <- setz (s_py s) i c; Some (set_py s d)
  | LY0 n, VD m => y <- s_y0 s; y <- setz y n m; Some (set_y0 s y)
  | LY1 n, VD m => if cells then None else y <- s_y1 s; y <- setz y n m; Some (set_y1 s y)
  | LY1c n i, VC c => if cells then y <- s_y1 s; m <- getz y n; d <- setz (dm_data m) i c; y <- setz y n (dm_set_data m d); Some (set_y1 s y) else None
  | LTY t, VM d => y <- setz (s_ty s) t d; Some (set_ty s y)
  | LM0 t, VD m => y <- setz (s_m0 s) t m; Some (set_m0 s y)
  | _, _ => None
  end.

Lemma setz_comm {A} (l : list A) i j v w l1 l2 : i <> j -> setz l i v = Some l1 -> setz l j w = Some l2 ->
  exists l3, setz l1 j w = Some l3 /\ setz l2 i v = Some l3.
Proof.
  intros Hne E1 E2. pose proof (setz_zlen _ _ _ _ E1). pose proof (setz_zlen _ _ _ _ E2).
  assert (0 <= i < zlen l) by (unfold setz in E1; destruct (0 <=? i) eqn:?, (i <? zlen l) eqn:?; try discriminate; lia).
  assert (0 <= j < zlen l) by (unfold setz in E2; destruct (0 <=? j) eqn:?, (j <? zlen l) eqn:?; try discriminate; lia).
  destruct (setz_Some l1 j w) as [l3 E3]; [lia|]. destruct (setz_Some l2 i v) as [l4 E4]; [lia|].
  exists l3. split; auto. rewrite E4. f_equal. apply getz_ext.
  - rewrite (setz_zlen _ _ _ _ E4), (setz_zlen _ _ _ _ E3). lia.
  - intros k _. rewrite (getz_setz _ _ _ _ _ E4), (getz_setz _ _ _ _ _ E3), (getz_setz _ _ _ _ _ E1), (getz_setz _ _ _ _ _ E2).
    destruct (Z.eqb_spec i k), (Z.eqb_spec j k); auto; lia.
Qed.
Lemma setz_back {A} (l : list A) i j v w l1 l2 : i <> j -> setz l i v = Some l1 -> setz l1 j w = Some l2 ->
  exists l3, setz l j w = Some l3 /\ setz l3 i v = Some l2.
Proof.
  intros Hne E1 E2. pose proof (setz_zlen _ _ _ _ E1).
  assert (0 <= j < zlen l1) by (unfold setz in E2; destruct (0 <=? j) eqn:?, (j <? zlen l1) eqn:?; try discriminate; lia).
  destruct (setz_Some l j w) as [l3 E3]; [lia|]. destruct (setz_comm _ _ _ _ _ _ _ Hne E1 E3) as (l4 & E4 & E5).
  exists l3. split; auto. congruence.
Qed.

Ltac minv := repeat match goal with
  | H : bind ?e _ = Some _ |- _ => let E := fresh "E" in destruct e eqn:E; cbn [bind] in H; [|discriminate H]
  | H : Some _ = Some _ |- _ => injection H as H; subst
  | H : None = Some _ |- _ => discriminate H
  end.

Lemma mw_rd cells s l v s' : mwr cells s l v = Some s' -> forall l', mrd cells s' l' = if mloc_dec l l' then Some v else mrd cells s l'.
Proof.
  intros H l'. unfold mwr in H. destruct l, v; try discriminate; destruct cells; try discriminate; minv;
  (destruct (mloc_dec _ l') as [<-|Hne]; cbn [mrd set_px set_py set_y0 set_y1 set_ty set_m0 s_px s_py s_y0 s_y1 s_ty s_m0 bind];
   [repeat match goal with E : setz _ _ _ = Some _ |- _ => rewrite (getz_setz _ _ _ _ _ E), Z.eqb_refl; clear E; cbn [bind dm_set_data dm_data] end; auto|]);
  try (destruct l'; cbn [mrd set_px set_py set_y0 set_y1 set_ty set_m0 s_px s_py s_y0 s_y1 s_ty s_m0 bind]; auto;
    repeat match goal with E : _ = Some _ |- _ => first [rewrite E | fail 1] end; cbn [bind]; auto;
    match goal with E : setz _ _ _ = Some _ |- _ => rewrite (getz_setz _ _ _ _ _ E) end;
    match goal with |- context [?x =? ?y] => destruct (Z.eqb_spec x y); [subst; try congruence|auto] end).
  - (* a cell of y1 against the header of the same matrix *)
    rewrite E0. cbn [bind dm_set_data dm_nrow dm_ncol dm_ld dm_size]. auto.
  - (* another cell *)
    rewrite E0. cbn [bind dm_set_data dm_data]. rewrite (getz_setz _ _ _ _ _ E1). destruct (Z.eqb_spec i i0); [congruence|auto].
Qed.

Ltac mred := cbn [mrd mwr set_px set_py set_y0 set_y1 set_ty set_m0 s_px s_py s_y0 s_y1 s_ty s_m0 bind].
Ltac mrew := repeat (mred; match goal with E : ?x = Some _ |- context [bind ?x _] => rewrite E end); mred.

Lemma y1_comm n i c n' i' c' (y : list (dmat K)) m m' d d' y1 y2 : LY1c n i <> LY1c n' i' ->
  getz y n = Some m -> setz (dm_data m) i c = Some d -> setz y n (dm_set_data m d) = Some y1 ->
  getz y n' = Some m' -> setz (dm_data m') i' c' = Some d' -> setz y n' (dm_set_data m' d') = Some y2 ->
  exists m1 d1 m2 d2 y3, getz y1 n' = Some m1 /\ setz (dm_data m1) i' c' = Some d1 /\ setz y1 n' (dm_set_data m1 d1) = Some y3 /\
    getz y2 n = Some m2 /\ setz (dm_data m2) i c = Some d2 /\ setz y2 n (dm_set_data m2 d2) = Some y3.
Proof.
  intros Hne G1 S1 W1 G2 S2 W2. destruct (Z.eq_dec n n') as [<-|Hn].
  - assert (i <> i') by congruence. rewrite G1 in G2. injection G2 as <-.
    destruct (setz_comm _ _ _ _ _ _ _ H S1 S2) as (d3 & A1 & A2).
    exists (dm_set_data m d), d3, (dm_set_data m d'), d3.
    assert (0 <= n < zlen y) by (apply getz_range in G1; auto).
    destruct (setz_Some y1 n (dm_set_data m d3)) as [y3 E3]; [rewrite (setz_zlen _ _ _ _ W1); auto|].
    destruct (setz_Some y2 n (dm_set_data m d3)) as [y4 E4]; [rewrite (setz_zlen _ _ _ _ W2); auto|].
    exists y3. rewrite (getz_setz _ _ _ _ _ W1), (getz_setz _ _ _ _ _ W2), Z.eqb_refl.
    cbn [dm_set_data dm_data]. do 2 (split; auto). split; [exact E3|]. do 2 (split; auto).
    change (dm_set_data (dm_set_data m d') d3) with (dm_set_data m d3). rewrite E4. f_equal. apply getz_ext.
    + rewrite (setz_zlen _ _ _ _ E4), (setz_zlen _ _ _ _ E3), (setz_zlen _ _ _ _ W1), (setz_zlen _ _ _ _ W2). auto.
    + intros k _. rewrite (getz_setz _ _ _ _ _ E4), (getz_setz _ _ _ _ _ E3), (getz_setz _ _ _ _ _ W1), (getz_setz _ _ _ _ _ W2).
      destruct (Z.eqb_spec n k); auto.
  - destruct (setz_comm _ _ _ _ _ _ _ Hn W1 W2) as (y3 & A1 & A2).
    exists m', d', m, d, y3. rewrite (getz_setz _ _ _ _ _ W1), (getz_setz _ _ _ _ _ W2).
    destruct (Z.eqb_spec n n'); [lia|]. destruct (Z.eqb_spec n' n); [lia|]. auto 10.
Qed.

Ltac mmerge := repeat match goal with E : s_y0 ?s = Some ?a, E' : s_y0 ?s = Some ?b |- _ => tryif constr_eq a b then fail else (rewrite E in E'; injection E' as E'; subst)
  | E : s_y1 ?s = Some ?a, E' : s_y1 ?s = Some ?b |- _ => tryif constr_eq a b then fail else (rewrite E in E'; injection E' as E'; subst) end.

Lemma mw_fwd cells s l v l' v' s1 s2 : l <> l' -> mwr cells s l v = Some s1 -> mwr cells s l' v' = Some s2 ->
  exists s3, mwr cells s1 l' v' = Some s3 /\ mwr cells s2 l v = Some s3.
Proof.
  intros Hne H1 H2. unfold mwr in H1, H2.
  destruct l, v; try discriminate; destruct cells; try discriminate; minv;
  (destruct l', v'; try discriminate; minv; mmerge);
  try (eexists; split; mrew; reflexivity);
  try (match goal with E : setz ?x ?i _ = Some _, E' : setz ?x ?j _ = Some _ |- _ =>
       assert (Hij : i <> j) by congruence; destruct (setz_comm _ _ _ _ _ _ _ Hij E E') as (l3 & A1 & A2); eexists; split; mrew; reflexivity end).
  destruct (y1_comm _ _ _ _ _ _ _ _ _ _ _ _ _ Hne E0 E1 E2 E4 E5 E6) as (m1 & d1 & m2 & d2 & y3 & A1 & A2 & A3 & A4 & A5 & A6).
  exists (set_y1 s y3). split; mrew; reflexivity.
Qed.

Lemma mw_dom cells s l v s1 l' v' s2 : l <> l' -> mwr cells s l v = Some s1 -> mwr cells s1 l' v' = Some s2 -> exists s3, mwr cells s l' v' = Some s3.
Proof.
  intros Hne H1 H2. unfold mwr in H1. 
  assert (D : forall A (x x' : list A) i j a b y, setz x i a = Some x' -> setz x' j b = Some y -> exists y', setz x j b = Some y').
  { intros A x x' i j a b y E E'. apply setz_Some. rewrite <- (setz_zlen _ _ _ _ E). unfold setz in E'.
    destruct (0 <=? j) eqn:?, (j <? zlen x') eqn:?; try discriminate. lia. }
  destruct l, v; try discriminate; destruct cells; try discriminate; minv;
  (destruct l', v'; cbn [mwr] in H2; try discriminate; 
   cbn [set_px set_py set_y0 set_y1 set_ty set_m0 s_px s_py s_y0 s_y1 s_ty s_m0 bind] in H2; minv; mmerge);
  try (eexists; mrew; reflexivity);
  try (match goal with E : setz ?x ?i _ = Some ?x', E' : setz ?x' ?j _ = Some _ |- _ =>
       destruct (D _ _ _ _ _ _ _ _ E E') as (zz3 & A1); eexists; mrew; reflexivity end).
  rewrite (getz_setz _ _ _ _ _ E2) in E3. destruct (Z.eqb_spec n n0) as [->|].
  - injection E3 as <-. cbn [dm_set_data dm_data] in E4. destruct (D _ _ _ _ _ _ _ _ E1 E4) as (zz3 & A1).
    destruct (D _ _ _ _ _ _ _ _ E2 E5) as (l4 & A2).
    destruct (setz_Some l n0 (dm_set_data d zz3)) as [y3 A3]; [now apply getz_range in E0|]. eexists; mrew; reflexivity.
  - destruct (D _ _ _ _ _ _ _ _ E2 E5) as (l4 & A2). eexists; mrew; reflexivity.
Qed.

Lemma mw_back cells s l v l' v' s1 s2 : l <> l' -> mwr cells s l v = Some s1 -> mwr cells s1 l' v' = Some s2 ->
  exists s3, mwr cells s l' v' = Some s3 /\ mwr cells s3 l v = Some s2.
Proof.
  intros Hne H1 H2. destruct (mw_dom _ _ _ _ _ _ _ _ Hne H1 H2) as [s3 H3]. exists s3. split; auto.
  destruct (mw_fwd _ _ _ _ _ _ _ _ Hne H1 H3) as (s4 & A1 & A2). congruence.
Qed.

(** The shared store of a region. *)
Definition mstore (cells : bool) : store :=
  Store mloc mval (mvst K) (mrd cells) (mwr cells) mloc_dec (mw_rd cells) (mw_fwd cells) (mw_back cells).

(** ** Programs *)
Section Progs.
Variable cells : bool.
Notation P := (prog (mstore cells)).
Notation "x <-- e ; f" := (pbind (mstore cells) e (fun x => f)) (at level 100, e at level 90, f at level 200, right associativity).
Notation "' p <-- e ; f" := (pbind (mstore cells) e (fun z => let p := z in f)) (at level 100, p pattern, e at level 90, f at level 200, right associativity).
Definition lift {A} (o : option A) : P A := plift (mstore cells) o.
Definition for_ {A} (lo hi : Z) (body : Z -> A -> P A) (a : A) : P A := pfor (mstore cells) lo hi body a.

Definition rdC (l : mloc) : P K := @Rd (mstore cells) K l (fun v => match v with VC (Some c) => @Ret (mstore cells) K c | _ => Fail end).
Definition rdD (l : mloc) : P (dmat K) := @Rd (mstore cells) (dmat K) l (fun v => match v with VD m => @Ret (mstore cells) _ m | _ => Fail end).
Definition rdM (l : mloc) : P (mem K) := @Rd (mstore cells) (mem K) l (fun v => match v with VM m => @Ret (mstore cells) _ m | _ => Fail end).
(** ncol and ld of y1[n]. *)
Definition rdH (n : Z) : P (Z * Z) := @Rd (mstore cells) (Z * Z) (LY1h n) (fun v => match v with VH _ ncol ldm _ => @Ret (mstore cells) _ (ncol, ldm) | _ => Fail end).
Definition wrV (l : mloc) (v : mval) : P unit := @Wr (mstore cells) unit l v (@Ret (mstore cells) unit tt).
(** [l += v] for a number cell. *)
Definition addC (l : mloc) (v : K) : P unit := c <-- rdC l; wrV l (VC (Some (c + v))).

(** CBLAS_GEMV with beta 0 or 1 into [y], reading [x] from shared memory; as
    gemv_t and gemv_n in Model_Matvec.v. *)
Definition gemv_t_f (m n : Z) (A : mem K) (aoff lda : Z) (x : Z -> P K) (acc : bool) (y : mem K) : P (mem K) :=
  if ((m =? 0) || (n =? 0))%bool then @Ret (mstore cells) _ y else
  for_ 0 n (fun c y =>
    v <-- for_ 0 m (fun r v => a <-- lift (ld A (aoff + r * lda + c)%Z); b <-- x r; @Ret (mstore cells) _ (v + a * b)) c0;
    lift (if acc then madd y c v else st y c v)) y.
Definition gemv_n_f (m n : Z) (A : mem K) (aoff lda : Z) (x : Z -> P K) (acc : bool) (y : mem K) (yoff : Z) : P (mem K) :=
  if ((m =? 0) || (n =? 0))%bool then @Ret (mstore cells) _ y else
  for_ 0 m (fun r y =>
    v <-- for_ 0 n (fun c v => a <-- lift (ld A (aoff + r * lda + c)%Z); b <-- x c; @Ret (mstore cells) _ (v + a * b)) c0;
    lift (if acc then madd y (yoff + r)%Z v else st y (yoff + r)%Z v)) y.

(** H2Pack_matvec.c:26-65 CBLAS_BI_GEMV: the accesses to x_in_0, x_in_1,
    x_out_0 and x_out_1 one by one, in the order of the C code. *)
Definition bi_gemv_f (nrow ncol : Z) (mat : mem K) (moff ldm : Z) (in0 in1 : Z -> P K) (add0 add1 : Z -> K -> P unit) : P unit :=
  _ <-- for_ 0 (nrow / 2) (fun i2 (_ : unit) =>
    let i := (2 * i2)%Z in
    a0 <-- in1 i;
    a1 <-- in1 (i + 1)%Z;
    '(sum0, sum1) <-- for_ 0 ncol (fun j (x : K * K) => let '(sum0, sum1) := x in
       xj <-- in0 j;
       m0 <-- lift (ld mat (moff + i * ldm + j)%Z);
       m1 <-- lift (ld mat (moff + (i + 1) * ldm + j)%Z);
       _ <-- add1 j (a0 * m0 + a1 * m1);
       @Ret (mstore cells) _ (sum0 + m0 * xj, sum1 + m1 * xj)) (c0, c0);
    _ <-- add0 i sum0;
    add0 (i + 1)%Z sum1) tt;
  for_ (2 * (nrow / 2)) nrow (fun i (_ : unit) =>
    a <-- in1 i;
    sum <-- for_ 0 ncol (fun j sum =>
       m <-- lift (ld mat (moff + i * ldm + j)%Z);
       xj <-- in0 j;
       _ <-- add1 j (a * m);
       @Ret (mstore cells) _ (sum + m * xj)) c0;
    add0 i sum) tt.

(** H2Pack_matvec.c:127-161: forward sweep, iteration for [node]. *)
Definition fwd_node_f (h : h2rep F K) (node : Z) : P unit :=
  nc <-- lift (ld (a_nchild (h_t h)) node);
  U <-- lift (getz (h_U h) node);
  yn <-- rdD (LY0 node);
  let yn := dm_resize yn (dm_ncol U) 1 in
  d <-- (if nc =? 0 then
           xs <-- lift (ld (h_mcl h) (node * 2));
           gemv_t_f (dm_nrow U) (dm_ncol U) (dm_data U) 0 (dm_ld U) (fun r => rdC (LPX (xs + r))) false (dm_data yn)
         else
           '(_, d) <-- for_ 0 nc (fun k (x : Z * mem K) => let '(srow, d) := x in
              c <-- lift (ld (a_children (h_t h)) (node * h_maxchild h + k));
              yk <-- rdD (LY0 c);
              d <-- gemv_t_f (dm_nrow yk) (dm_ncol U) (dm_data U) (srow * dm_ld U) (dm_ld U)
                     (fun r => lift (ld (dm_data yk) r)) (negb (k =? 0)%Z) d;
              @Ret (mstore cells) _ ((srow + dm_nrow yk)%Z, d)) (0, dm_data yn);
           @Ret (mstore cells) _ d);
  wrV (LY0 node) (VD (dm_set_data yn d)).

(** H2Pack_matvec.c:258-268: thread [tid] zeroes its row of each y1[i]. *)
Definition init_y1_zero_f (h : h2rep F K) (tid : Z) : P unit :=
  for_ 0 (h_nnode h) (fun i (_ : unit) =>
    '(ncol, ldm) <-- rdH i;
    if ldm =? 0 then @Ret (mstore cells) _ tt else
    for_ 0 ncol (fun k (_ : unit) => wrV (LY1c i (tid * ncol + k)) (VC (Some c0))) tt) tt.

(** H2Pack_matvec.c:285-296: iteration [i] of H2P_matvec_sum_y1_thread. *)
Definition sum_y1_node_f (h : h2rep F K) (i : Z) : P unit :=
  m <-- rdD (LY1 i);
  if dm_ld m =? 0 then @Ret (mstore cells) _ tt else
  let ncol := dm_ncol m in
  d <-- lift (zfor 1 (h_nthread h) (fun j d =>
          zfor 0 ncol (fun k d => v <- ld d (j * ncol + k)%Z; madd d k v) d) (dm_data m));
  wrV (LY1 i) (VD (dm_set_data m d)).

(** thread_buf[tid]->y[off + k] += v. *)
Definition addT (tid off k : Z) (v : K) : P unit :=
  y <-- rdM (LTY tid); y <-- lift (madd y (off + k)%Z v); wrV (LTY tid) (VM y).

(** y0[node]->data[k]. *)
Definition rdY0 (node k : Z) : P K := m <-- rdD (LY0 node); lift (ld (dm_data m) k).

(** H2Pack_matvec.c:324-379: pair [i] on thread [tid]. *)
Definition mid_pair_f (h : h2rep F K) (tid i : Z) : P unit :=
  '(node0, node1) <-- lift (getz (h_adm h) i);
  level0 <-- lift (ld (a_level (h_t h)) node0);
  level1 <-- lift (ld (a_level (h_t h)) node1);
  ptr <-- lift (ld (h_Bptr h) i);
  nrow <-- lift (ld (h_Bnrow h) i);
  ncol <-- lift (ld (h_Bncol h) i);
  if level0 =? level1 then
    '(w0, _) <-- rdH node0;
    '(w1, _) <-- rdH node1;
    bi_gemv_f nrow ncol (h_Bdata h) ptr ncol (rdY0 node1) (rdY0 node0)
      (fun k => addC (LY1c node0 (tid * w0 + k))) (fun k => addC (LY1c node1 (tid * w1 + k)))
  else if level1 <? level0 then
    vs1 <-- lift (ld (h_mcl h) (node1 * 2));
    '(w0, _) <-- rdH node0;
    bi_gemv_f nrow ncol (h_Bdata h) ptr ncol (fun k => rdC (LPX (vs1 + k))) (rdY0 node0)
      (fun k => addC (LY1c node0 (tid * w0 + k))) (addT tid vs1)
  else
    vs0 <-- lift (ld (h_mcl h) (node0 * 2));
    '(w1, _) <-- rdH node1;
    bi_gemv_f nrow ncol (h_Bdata h) ptr ncol (rdY0 node1) (fun k => rdC (LPX (vs0 + k)))
      (addT tid vs0) (fun k => addC (LY1c node1 (tid * w1 + k))).

(** H2Pack_matvec.c:795-842: backward sweep, iteration for [node] on thread [tid]. *)
Definition bwd_node_f (h : h2rep F K) (tid node : Z) : P unit :=
  nc <-- lift (ld (a_nchild (h_t h)) node);
  m <-- rdD (LY1 node);
  if dm_ld m =? 0 then @Ret (mstore cells) _ tt else
  U <-- lift (getz (h_U h) node);
  t0 <-- rdD (LM0 tid);
  let t := dm_resize t0 (dm_nrow U) 1 in
  td <-- gemv_n_f (dm_nrow U) (dm_ncol U) (dm_data U) 0 (dm_ld U) (fun c => lift (ld (dm_data m) c)) false (dm_data t) 0;
  _ <-- wrV (LM0 tid) (VD (dm_set_data t td));
  if nc =? 0 then
    si <-- lift (ld (h_mcl h) (2 * node));
    ei <-- lift (ld (h_mcl h) (2 * node + 1));
    for_ 0 (ei - si + 1) (fun k (_ : unit) => v <-- lift (ld td k); addC (LPY (si + k)) v) tt
  else
    _ <-- for_ 0 nc (fun k idx =>
       c <-- lift (ld (a_children (h_t h)) (node * h_maxchild h + k));
       Uc <-- lift (getz (h_U h) c);
       let len := dm_ncol Uc in
       mc <-- rdD (LY1 c);
       mc <-- (if dm_ld mc =? 0 then
                 let mc := dm_resize mc len 1 in
                 d <-- lift (mcpy (dm_data mc) 0 td idx len);
                 @Ret (mstore cells) _ (dm_set_data mc d)
               else
                 d <-- lift (zfor 0 len (fun l d => v <- ld td (idx + l)%Z; madd d l v) (dm_data mc));
                 @Ret (mstore cells) _ (dm_set_data mc d));
       _ <-- wrV (LY1 c) (VD mc);
       @Ret (mstore cells) _ (idx + len)%Z) 0;
    @Ret (mstore cells) _ tt.

(** H2Pack_matvec.c:880-897: diagonal block [i] on thread [tid]. *)
Definition dense_diag_f (h : h2rep F K) (tid i : Z) : P unit :=
  node <-- lift (ld (a_height_nodes (h_t h)) i);
  vs <-- lift (ld (h_mcl h) (node * 2));
  ptr <-- lift (ld (h_Dptr h) i);
  nrow <-- lift (ld (h_Dnrow h) i);
  ncol <-- lift (ld (h_Dncol h) i);
  y <-- rdM (LTY tid);
  y <-- gemv_n_f nrow ncol (h_Ddata h) ptr ncol (fun c => rdC (LPX (vs + c))) true y vs;
  wrV (LTY tid) (VM y).

(** H2Pack_matvec.c:914-933: inadmissible pair [i] on thread [tid]. *)
Definition dense_off_f (h : h2rep F K) (tid i : Z) : P unit :=
  '(node0, node1) <-- lift (getz (h_inadm h) i);
  vs0 <-- lift (ld (h_mcl h) (2 * node0));
  vs1 <-- lift (ld (h_mcl h) (2 * node1));
  ptr <-- lift (ld (h_Dptr h) (h_nleaf h + i));
  nrow <-- lift (ld (h_Dnrow h) (h_nleaf h + i));
  ncol <-- lift (ld (h_Dncol h) (h_nleaf h + i));
  bi_gemv_f nrow ncol (h_Ddata h) ptr ncol (fun k => rdC (LPX (vs1 + k))) (fun k => rdC (LPX (vs0 + k)))
    (addT tid vs0) (addT tid vs1).

(** H2Pack_matvec.c:1247-1258: thread [tid] in step 7. *)
Definition reduce_y_f (h : h2rep F K) (tid : Z) : P unit :=
  '(spos, len) <-- lift (calc_block_spos_len (h_kms h) (h_nthread h) tid);
  for_ 0 (h_nthread h) (fun t (_ : unit) =>
    src <-- rdM (LTY t);
    for_ spos (spos + len) (fun i (_ : unit) => v <-- lift (ld src i); addC (LPY i) v) tt) tt.
End Progs.

(** ** The regions and the whole product *)

(** A parallel region: thread [t] does its items in order, each access of each
    thread being one step, until all are done (the barrier at the end of the
    region); then [Q].  [par] also says that no data race and nothing undefined
    can happen on the way. *)
Definition par {I} (cells : bool) (item : I -> prog (mstore cells) unit) (ths : list (list I)) (s : mvst K) (Q : mvst K -> Prop) : Prop :=
  safe (mstore cells) (map (fun t => pseq (mstore cells) (map item t)) ths) s Q.

(** Steps one after the other. *)
Fixpoint through {A} (l : list A) (one : A -> mvst K -> (mvst K -> Prop) -> Prop) (s : mvst K) (Q : mvst K -> Prop) : Prop :=
  match l with [] => Q s | a :: l' => one a s (fun s' => through l' one s' Q) end.
Definition after (o : option (mvst K)) (Q : mvst K -> Prop) : Prop := match o with Some s => Q s | None => False end.

(** Iterations of a worksharing loop as distributed on threads: [asg] lists, per
    thread, the iterations it gets, in the order it gets them. *)
Definition tagged {A} (asg : list (list A)) : list (list (Z * A)) := map (fun '(t, js) => map (pair t) js) (number asg).

(** One level of a sweep (H2Pack_matvec.c:116-160, 786-844). *)
Definition level_par (h : h2rep F K) (item : Z -> Z -> prog (mstore false) unit) (asg : Z -> list (list Z)) (i : Z) (s : mvst K) (Q : mvst K -> Prop) : Prop :=
  par false (fun '(tid, j) => pbind (mstore false) (lift false (ld (a_level_nodes (h_t h)) (i * h_nleaf h + j))) (fun node => item tid node))
    (tagged (asg i)) s Q.

(** What the OpenMP runtime decides: which thread gets which iterations (of the
    sweeps, per level, and of the summation) and which blocks. *)
Record choices := Choices {
  fc_fwd : Z -> list (list Z); fc_mid : list (list Z); fc_sum : list (list Z);
  fc_bwd : Z -> list (list Z); fc_den0 : list (list Z); fc_den1 : list (list Z)
}.

(** Every thread of the team, once. *)
Definition team (n : Z) : list (list Z) := map (fun t => [t]) (zrange 0 n).
(** Diagonal blocks, then, without a barrier, inadmissible pairs. *)
Definition den_items (h : h2rep F K) (a0 a1 : list (list Z)) : list (list (Z * (bool * Z))) :=
  map (fun '(l0, l1) => map (fun '(t, i) => (t, (false, i))) l0 ++ map (fun '(t, i) => (t, (true, i))) l1)
    (combine (thread_items (h_D0blk h) a0) (thread_items (h_D1blk h) a1)).

(** H2Pack_matvec.c:1162-1284 H2P_matvec with BD_JIT == 0: [Q] holds of the
    buffers and the result however the accesses of the threads interleave in the
    regions of steps 3-7.  The permutations and the reset (steps 1, 2 and 8) are
    the sequential ones of Model_Matvec.v. *)
Definition matvec_fine (h : h2rep F K) (fc : choices) (s : mvst K) (x y : mem K) (Q : mvst K -> mem K -> Prop) : Prop :=
  after (px <- gather_vector_elements (h_kms h) (h_fwd h) x 0 (s_px s) 0; reset_y h (set_px s px)) (fun s =>
  through (map (fun k => h_maxlevel h - k)%Z (zrange 0 (h_maxlevel h - h_minlevel h + 1)))
    (level_par h (fun _ node => fwd_node_f false h node) (fc_fwd fc)) (init_y0 h s) (fun s =>
  after (init_y1_shape h s) (fun s =>
  par true (init_y1_zero_f true h) (team (h_nthread h)) s (fun s =>
  par true (fun '(tid, i) => mid_pair_f true h tid i) (thread_items (h_Bblk h) (fc_mid fc)) s (fun s =>
  par false (fun '(_, i) => sum_y1_node_f false h i) (tagged (fc_sum fc)) s (fun s =>
  through (zrange (h_minlevel h) (h_maxlevel h + 1)) (level_par h (bwd_node_f false h) (fc_bwd fc)) s (fun s =>
  par false (fun '(tid, (isoff, i)) => if (isoff : bool) then dense_off_f false h tid i else dense_diag_f false h tid i)
    (den_items h (fc_den0 fc) (fc_den1 fc)) s (fun s =>
  par false (reduce_y_f false h) (team (h_nthread h)) s (fun s =>
  match gather_vector_elements (h_kms h) (h_bwd h) (s_py s) 0 y 0 with Some y => Q s y | None => False end))))))))).

(** Iterations 0 .. n-1 distributed on [nth] threads. *)
Definition omp_assign (nth n : Z) (asg : list (list Z)) : Prop :=
  zlen asg = nth /\ Permutation.Permutation (concat asg) (zrange 0 n).
Record choices_ok (h : h2rep F K) (fc : choices) : Prop := {
  co_fwd : forall i n, h_minlevel h <= i <= h_maxlevel h -> ld (a_level_n (h_t h)) i = Some n -> omp_assign (Z.min n (h_nthread h)) n (fc_fwd fc i);
  co_mid : block_assignment (h_nthread h) (iv_len (h_Bblk h) - 1) (fc_mid fc);
  co_sum : omp_assign (h_nthread h) (h_nnode h) (fc_sum fc);
  co_bwd : forall i n, h_minlevel h <= i <= h_maxlevel h -> ld (a_level_n (h_t h)) i = Some n -> omp_assign (Z.min n (h_nthread h)) n (fc_bwd fc i);
  co_den0 : block_assignment (h_nthread h) (iv_len (h_D0blk h) - 1) (fc_den0 fc);
  co_den1 : block_assignment (h_nthread h) (iv_len (h_D1blk h) - 1) (fc_den1 fc)
}.
End Fine.
Arguments mval : clear implicits.
