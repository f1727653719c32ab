(** Reading: what steps 1 to 12 of H2P_read_from_file make of the files. *)
From Coq Require Import ZArith QArith List Lia Bool Permutation Sorted.
From Verif Require Import Base Mem Num CRing Conc Model_Utils Spec_Utils Proof_Utils Model_Dense Spec_Dense Proof_Dense Proof_Dense3 Proof_Bucket Model_Partition Spec_Tree Spec_Partition
  Model_Pairs Spec_Pairs Model_Matvec Spec_Matvec Proof_MvTree Model_Build Spec_Build Proof_Build Model_Matmul Model_UJ Model_FileIO Proof_FileIO.
Import ListNotations.
Open Scope Z_scope.

Lemma st_ex {A} (m : mem A) i v n : zlen m = n -> 0 <= i < n -> exists m', st m i v = Some m' /\ zlen m' = n /\ forall k, ld m' k = if i =? k then Some v else ld m k.
Proof.
  intros Hz Hi. destruct (st_Some m i v) as [m' E]; [lia|]. exists m'. split; auto. split; [rewrite (st_zlen _ _ _ _ E); auto|]. intros k. apply (ld_st _ _ _ _ k E).
Qed.

(** ** The general loops *)
Lemma fread_spec {K : cring} (m : mem K) off (l rest : list K) : 0 <= off -> off + zlen l <= zlen m -> exists m', fread m off (zlen l) (l ++ rest) = Some (m', rest) /\ zlen m' = zlen m /\
  (forall j, 0 <= j < zlen l -> ld m' (off + j) = getz l j) /\ forall k, ~ (off <= k < off + zlen l) -> ld m' k = ld m k.
Proof.
  intros Ho Hz. unfold fread. pose proof (zlen_nonneg l). rewrite Z.min_l by zlia.
  destruct (zfor_inv (fun j (d : mem K) => zlen d = zlen m /\ (forall q, 0 <= q < j -> ld d (off + q) = getz l q) /\ forall k, ~ (off <= k < off + j) -> ld d k = ld m k)
    0 (zlen l) (fun j m => v <- getz (l ++ rest) j; st m (off + j) v) m) as (d & E & Zd & G & O).
  - lia.
  - split; auto. split; [intros; lia|auto].
  - intros j d Hj (Zd & G & O). rewrite getz_app1 by lia. destruct (getz_in l j Hj) as [v Ev]. rewrite Ev. cbn [bind].
    destruct (st_ex d (off + j) v (zlen m) Zd ltac:(lia)) as (d' & E' & Zd' & L'). exists d'. split; auto. split; auto. split.
    + intros q Hq. rewrite L'. destruct (Z.eqb_spec (off + j) (off + q)); [replace q with j by lia; auto|apply G; lia].
    + intros k Hk. rewrite L'. destruct (Z.eqb_spec (off + j) k); [lia|]. apply O. lia.
  - rewrite E. cbn [bind]. exists d. split.
    + do 2 f_equal. unfold zlen. rewrite Nat2Z.id. rewrite skipn_app, skipn_all, Nat.sub_diag. reflexivity.
    + auto.
Qed.

Section Pairs.
Context {F : num}.
Variables (more : bool) (first n : Z) (pr : Z -> Z * Z) (r c x : Z -> Z).
Definition pL k : list (tok F) := map TI ([fst (pr k); snd (pr k); r k; c k] ++ (if more then [x k] else [])).
Lemma read_pairs_spec nr nc ptr m rest : 0 <= first -> 0 <= n -> first + n <= m -> zlen nr = m -> zlen nc = m -> zlen ptr = m + 1 ->
  exists nr' nc' ptr', read_pairs more first n ([], nr, nc, ptr, 0, concat (map pL (zrange 0 n)) ++ rest) = Some (map pr (zrange 0 n), nr', nc', ptr', zsumf (fun k => r k * c k) 0 n, rest) /\
    zlen nr' = m /\ zlen nc' = m /\ zlen ptr' = m + 1 /\
    (forall k, 0 <= k < n -> ld nr' (first + k) = Some (r k) /\ ld nc' (first + k) = Some (c k) /\ ld ptr' (first + k + 1) = Some (r k * c k)) /\
    (forall k, k < first -> ld nr' k = ld nr k /\ ld nc' k = ld nc k /\ ld ptr' (k + 1) = ld ptr (k + 1)) /\ ld ptr' 0 = ld ptr 0.
Proof.
  intros Hf Hn Hm Z1 Z2 Z3. unfold read_pairs.
  set (P := fun i (s : list (Z * Z) * mem Z * mem Z * mem Z * Z * list (tok F)) => exists nr' nc' ptr',
    s = (map pr (zrange 0 i), nr', nc', ptr', zsumf (fun k => r k * c k) 0 i, concat (map pL (zrange i n)) ++ rest) /\
    zlen nr' = m /\ zlen nc' = m /\ zlen ptr' = m + 1 /\
    (forall k, 0 <= k < i -> ld nr' (first + k) = Some (r k) /\ ld nc' (first + k) = Some (c k) /\ ld ptr' (first + k + 1) = Some (r k * c k)) /\
    (forall k, k < first -> ld nr' k = ld nr k /\ ld nc' k = ld nc k /\ ld ptr' (k + 1) = ld ptr (k + 1)) /\ ld ptr' 0 = ld ptr 0).
  match goal with |- exists _ _ _, zfor 0 n ?b ?s = _ /\ _ => destruct (zfor_inv P 0 n b s) as (s' & E & nr' & nc' & ptr' & -> & Q) end.
  - auto.
  - exists nr, nc, ptr. split; [now rewrite zsumf_empty by lia|]. do 3 (split; auto). split; [intros; lia|auto].
  - intros i s Hi (nr' & nc' & ptr' & -> & Y1 & Y2 & Y3 & G & O & G0). rewrite (zrange_cons i n) by lia. cbn [map concat].
    unfold pL at 1. rewrite map_app, <- !app_assoc. cbn [map app rdi bind].
    destruct (st_ex nr' (first + i) (r i) m Y1 ltac:(lia)) as (nr2 & E1 & W1 & L1). rewrite E1. cbn [rdi bind].
    destruct (st_ex nc' (first + i) (c i) m Y2 ltac:(lia)) as (nc2 & E2 & W2 & L2). rewrite E2. cbn [bind].
    assert (Em : (if more then '(_, ts) <- rdi (map TI (if more then [x i] else []) ++ concat (map pL (zrange (i + 1) n)) ++ rest); Some ts
      else Some (map TI (if more then [x i] else []) ++ concat (map pL (zrange (i + 1) n)) ++ rest)) = Some (concat (map pL (zrange (i + 1) n)) ++ rest)) by (destruct more; reflexivity).
    rewrite Em. cbn [bind].
    destruct (st_ex ptr' (first + i + 1) (r i * c i) (m + 1) Y3 ltac:(lia)) as (ptr2 & E3 & W3 & L3). rewrite E3. cbn [bind].
    eexists. split; [reflexivity|]. exists nr2, nc2, ptr2. split; [rewrite zrange_snoc, map_app, zsumf_snoc by lia; cbn [map]; rewrite <- surjective_pairing; reflexivity|].
    do 3 (split; auto). split; [|split].
    + intros k Hk. rewrite L1, L2, L3. destruct (Z.eqb_spec (first + i) (first + k)); [replace k with i by lia; rewrite Z.eqb_refl; auto|].
      destruct (Z.eqb_spec (first + i + 1) (first + k + 1)); [lia|]. apply G. lia.
    + intros k Hk. rewrite L1, L2, L3. destruct (Z.eqb_spec (first + i) k); [lia|]. destruct (Z.eqb_spec (first + i + 1) (k + 1)); [lia|]. auto.
    + rewrite L3. destruct (Z.eqb_spec (first + i + 1) 0); [lia|auto].
  - exists nr', nc', ptr'. split; [rewrite E; rewrite (zrange_empty n n) by lia; reflexivity|auto].
Qed.
End Pairs.

Section Leaves.
Context {F : num}.
Variables (n : Z) (lfn r : Z -> Z).
Definition lL k : list (tok F) := map TI [lfn k; lfn k; r k; r k].
Lemma read_leaves_spec lf nr nc ptr m rest : 0 <= n <= m -> n <= zlen lf -> zlen nr = m -> zlen nc = m -> zlen ptr = m + 1 -> ld ptr 0 = Some 0 ->
  exists lf' nr' nc' ptr', read_leaves n (lf, nr, nc, ptr, 0, concat (map lL (zrange 0 n)) ++ rest) = Some (lf', nr', nc', ptr', zsumf (fun k => r k * r k) 0 n, rest) /\
    zlen lf' = zlen lf /\ zlen nr' = m /\ zlen nc' = m /\ zlen ptr' = m + 1 /\
    (forall k, 0 <= k < n -> ld lf' k = Some (lfn k) /\ ld nr' k = Some (r k) /\ ld nc' k = Some (r k) /\ ld ptr' (k + 1) = Some (r k * r k)) /\ ld ptr' 0 = Some 0.
Proof.
  intros Hn Hl Z1 Z2 Z3 Z4. unfold read_leaves.
  set (P := fun i (s : mem Z * mem Z * mem Z * mem Z * Z * list (tok F)) => exists lf' nr' nc' ptr',
    s = (lf', nr', nc', ptr', zsumf (fun k => r k * r k) 0 i, concat (map lL (zrange i n)) ++ rest) /\
    zlen lf' = zlen lf /\ zlen nr' = m /\ zlen nc' = m /\ zlen ptr' = m + 1 /\
    (forall k, 0 <= k < i -> ld lf' k = Some (lfn k) /\ ld nr' k = Some (r k) /\ ld nc' k = Some (r k) /\ ld ptr' (k + 1) = Some (r k * r k)) /\ ld ptr' 0 = Some 0).
  match goal with |- exists _ _ _ _, zfor 0 n ?b ?s = _ /\ _ => destruct (zfor_inv P 0 n b s) as (s' & E & lf' & nr' & nc' & ptr' & -> & Q) end.
  - lia.
  - exists lf, nr, nc, ptr. split; [now rewrite zsumf_empty by lia|]. do 4 (split; auto). split; [intros; lia|auto].
  - intros i s Hi (lf' & nr' & nc' & ptr' & -> & Y0 & Y1 & Y2 & Y3 & G & G0). rewrite (zrange_cons i n) by lia. cbn [map concat].
    unfold lL at 1. cbn [map app rdi bind].
    destruct (st_ex lf' i (lfn i) _ Y0 ltac:(lia)) as (lf2 & E0 & W0 & L0). rewrite E0. cbn [rdi bind].
    destruct (st_ex lf2 i (lfn i) _ W0 ltac:(lia)) as (lf3 & E0' & W0' & L0'). rewrite E0'. cbn [rdi bind].
    destruct (st_ex nr' i (r i) m Y1 ltac:(lia)) as (nr2 & E1 & W1 & L1). rewrite E1. cbn [rdi bind].
    destruct (st_ex nc' i (r i) m Y2 ltac:(lia)) as (nc2 & E2 & W2 & L2). rewrite E2. cbn [bind].
    destruct (st_ex ptr' (i + 1) (r i * r i) (m + 1) Y3 ltac:(lia)) as (ptr2 & E3 & W3 & L3). rewrite E3. cbn [bind].
    eexists. split; [reflexivity|]. exists lf3, nr2, nc2, ptr2. split; [rewrite zsumf_snoc by lia; reflexivity|].
    do 4 (split; auto). split.
    + intros k Hk. rewrite L0', L0, L1, L2, L3. destruct (Z.eqb_spec i k); [replace k with i by lia; rewrite Z.eqb_refl; auto|].
      destruct (Z.eqb_spec (i + 1) (k + 1)); [lia|]. apply G. lia.
    + rewrite L3. destruct (Z.eqb_spec (i + 1) 0); [lia|auto].
  - exists lf', nr', nc', ptr'. split; [rewrite E; rewrite (zrange_empty n n) by lia; reflexivity|auto].
Qed.
End Leaves.

Section Data.
Context {K : cring}.
Variables (r c : Z -> Z) (dat : Z -> list K) (nr nc : mem Z).
Notation S := (zsumf (fun k => r k * c k) 0).
Lemma read_data_spec lo hi d rest : 0 <= lo <= hi -> (forall k, lo <= k < hi -> ld nr k = Some (r k) /\ ld nc k = Some (c k)) ->
  (forall k, 0 <= k < hi -> 0 <= r k /\ 0 <= c k /\ zlen (dat k) = r k * c k) -> S hi <= zlen d ->
  exists d', read_data lo hi nr nc (d, S lo, concat (map dat (zrange lo hi)) ++ rest) = Some (d', S hi, rest) /\ zlen d' = zlen d /\
    (forall k q, lo <= k < hi -> 0 <= q < r k * c k -> ld d' (S k + q) = getz (dat k) q) /\ forall q, q < S lo -> ld d' q = ld d q.
Proof.
  intros Hlo Hs Hd Hz. unfold read_data.
  assert (Sm : forall a b, 0 <= a <= b -> b <= hi -> S a <= S b).
  { intros a b Hab Hb. rewrite (zsumf_split _ 0 a b) by lia. assert (0 <= zsumf (fun k => r k * c k) a b) by (apply zsumf_nonneg; intros k Hk; destruct (Hd k ltac:(lia)); nia). lia. }
  assert (S0 : 0 <= S lo) by (apply zsumf_nonneg; intros k Hk; destruct (Hd k ltac:(lia)); nia).
  set (P := fun i (s : mem K * Z * list K) => exists d', s = (d', S i, concat (map dat (zrange i hi)) ++ rest) /\ zlen d' = zlen d /\
    (forall k q, lo <= k < i -> 0 <= q < r k * c k -> ld d' (S k + q) = getz (dat k) q) /\ forall q, q < S lo -> ld d' q = ld d q).
  match goal with |- exists _, zfor lo hi ?b ?s = _ /\ _ => destruct (zfor_inv P lo hi b s) as (s' & E & d' & -> & Q) end.
  - lia.
  - exists d. split; auto. split; auto. split; [intros; lia|auto].
  - intros i s Hi (d' & -> & Z1 & G & O). destruct (Hs i ltac:(lia)) as (E1 & E2). rewrite E1, E2. cbn [bind]. destruct (Hd i ltac:(lia)) as (H1 & H2 & H3).
    rewrite (zrange_cons i hi) by lia. cbn [map concat]. rewrite <- app_assoc. rewrite <- H3.
    pose proof (Sm lo i ltac:(lia) ltac:(lia)). pose proof (Sm (i + 1) hi ltac:(lia) ltac:(lia)) as Si. rewrite zsumf_snoc in Si by lia.
    destruct (fread_spec d' (S i) (dat i) (concat (map dat (zrange (i + 1) hi)) ++ rest)) as (d2 & E' & W & L1 & L2); [lia|lia|].
    rewrite E'. cbn [bind]. eexists. split; [reflexivity|]. exists d2. split; [rewrite zsumf_snoc by lia; now rewrite H3|]. split; [lia|]. split.
    + intros k q Hk Hq. destruct (Z.eq_dec k i) as [->|Ne]; [apply L1; lia|]. rewrite L2; [apply G; auto; lia|].
      pose proof (Sm (k + 1) i ltac:(lia) ltac:(lia)) as Sk. rewrite zsumf_snoc in Sk by lia. lia.
    + intros q Hq. rewrite L2 by lia. auto.
  - exists d'. split; [rewrite E; rewrite (zrange_empty hi hi) by lia; reflexivity|auto].
Qed.
End Data.

Lemma sorted_filter_aux (l : list Z) : Sorted.StronglySorted Z.lt l -> forall k k' x y, 0 <= k < k' -> getz l k = Some x -> getz l k' = Some y -> x < y.
Proof.
  induction 1 as [|a l S IH Fa]; intros k k' x y Hk Hx Hy; [apply getz_range in Hx; zlia|]. rewrite Forall_forall in Fa.
  rewrite getz_cons in Hy by lia. destruct (Z.eq_dec k 0) as [->|Ne].
  - rewrite getz_0 in Hx. injection Hx as <-. apply Fa. eapply getz_In; eauto.
  - rewrite getz_cons in Hx by lia. apply (IH (k - 1) (k' - 1)); auto; lia.
Qed.
Lemma sorted_filter p l : Sorted.StronglySorted Z.lt l -> forall k k' x y, 0 <= k < k' -> getz (filter p l) k = Some x -> getz (filter p l) k' = Some y -> x < y.
Proof.
  intros S. apply sorted_filter_aux. induction S as [|a l S IH Fa]; cbn [filter]; [constructor|]. destruct (p a); auto. constructor; auto.
  rewrite Forall_forall in *. intros x Hx. apply filter_In in Hx as (Hx & _). auto.
Qed.
Lemma sorted_zrange lo hi : Sorted.StronglySorted Z.lt (zrange lo hi).
Proof.
  destruct (Z.le_ge_cases hi lo) as [H|H]; [rewrite zrange_empty by lia; constructor|].
  replace lo with (hi - Z.of_nat (Z.to_nat (hi - lo))) by lia. induction (Z.to_nat (hi - lo)) as [|n IH]; [rewrite zrange_empty by lia; constructor|].
  rewrite zrange_cons by lia. replace (hi - Z.of_nat (S n) + 1) with (hi - Z.of_nat n) by lia. constructor; auto.
  rewrite Forall_forall. intros x Hx. apply In_zrange in Hx. lia.
Qed.

Lemma tiles_parent {F : num} (a : tarrays F) p lv cs : forall s e, tiles a p lv s e cs -> forall c, In c cs -> ld (a_parent a) c = Some p.
Proof.
  induction cs as [|c cs IH]; intros s e H c' Hc; [contradiction|]. cbn [tiles] in H. destruct H as (ce & hc & nc & D & Ep & H1 & H2 & H3). destruct Hc as [<-|Hc]; auto. eapply IH; eauto.
Qed.

(** ** The tree *)
Section Tree.
Context {F : num} {K : cring}.
Variables (h : h2rep F K).
Hypothesis R : rep_ok h.
Notation tok := (tok F).
Notation N := (h_nnode h).
Notation mc := (h_maxchild h).
Notation nL := (h_nleaf h).
Notation clf := (clf h).
Notation cll := (cll h).
Notation nodeL := (nodeL h).

Definition childv i j := if j <? nchild h i then child h i j else -1.

Lemma child_parent i k : 0 <= i < N -> 0 <= k < nchild h i -> ld (a_parent (h_t h)) (child h i k) = Some i.
Proof.
  intros Hi Hk. destruct (node_at h R i Hi) as (s & e & hh & D & _).
  destruct (ct_children _ _ _ _ _ _ (ro_tree _ R) i _ _ _ _ _ Hi D ltac:(lia)) as (cs & Zc & Lc & Tc & _).
  destruct (getz_in cs k) as [c Hc]; [lia|]. destruct (ro_dims _ R) as (_ & _ & _ & Dm & _).
  assert (E : child h i k = c) by (unfold child; rewrite Dm, Lc by lia; now rewrite Hc). rewrite E.
  eapply tiles_parent; eauto. eapply getz_In; eauto.
Qed.
Lemma nchild_le i : 0 <= i < N -> 0 <= nchild h i <= mc.
Proof. intros Hi. destruct (node_at h R i Hi) as (s & e & hh & _ & _ & _ & _ & H & _). destruct (ro_dims _ R) as (_ & _ & _ & Dm & _). lia. Qed.
Lemma child_cells i j : 0 <= i < N -> 0 <= j < mc -> ld (a_children (h_t h)) (i * mc + j) = Some (childv i j).
Proof.
  intros Hi Hj. unfold childv. destruct (Z.ltb_spec j (nchild h i)); [apply child_at; auto; lia|].
  destruct (ro_dims _ R) as (_ & _ & _ & Dm & _). rewrite Dm. apply (ct_unused _ _ _ _ _ _ (ro_tree _ R) i j (nchild h i)); auto; [now apply ld_nchild|lia].
Qed.

Record tree_read (i : Z) (t : rtree) : Prop := {
  tr_len : zlen (rt_level t) = N /\ zlen (rt_cluster t) = N * 2 /\ zlen (rt_mcl t) = N * 2 /\ zlen (rt_nchild t) = N /\ zlen (rt_children t) = N * mc /\ zlen (rt_parent t) = N;
  tr_node : forall k, 0 <= k < i -> ld (rt_level t) k = Some (level h k) /\ ld (rt_cluster t) (k * 2) = Some (clf k) /\ ld (rt_cluster t) (k * 2 + 1) = Some (cll k) /\
    ld (rt_mcl t) (k * 2) = Some (h_kdim h * clf k) /\ ld (rt_mcl t) (k * 2 + 1) = Some (h_kdim h * (cll k + 1) - 1) /\ ld (rt_nchild t) k = Some (nchild h k);
  tr_child : forall k j, 0 <= k < i -> 0 <= j < mc -> ld (rt_children t) (k * mc + j) = Some (childv k j);
  tr_parent : forall k j, 0 <= k < i -> 0 <= j < nchild h k -> ld (rt_parent t) (child h k j) = Some k;
  tr_nleaf : rt_nleaf t = zcount (fun k => nchild h k =? 0) (zrange 0 i)
}.

Lemma read_node_spec i t rest : 0 <= i < N -> tree_read i t -> exists t', read_node (h_kdim h) mc i (t, nodeL i ++ rest) = Some (t', rest) /\ tree_read (i + 1) t'.
Proof.
  intros Hi [(Z1 & Z2 & Z3 & Z4 & Z5 & Z6) G C P L]. pose proof (nchild_le i Hi) as Hc. unfold read_node, Proof_FileIO.nodeL, nodeZ, kids. rewrite !map_app, <- !app_assoc. cbn [map app rdi bind].
  destruct (st_ex (rt_cluster t) (2 * i) (clf i) _ Z2 ltac:(lia)) as (cl1 & E1 & W1 & L1). rewrite E1. cbn [rdi bind].
  destruct (st_ex cl1 (2 * i + 1) (cll i) _ W1 ltac:(lia)) as (cl2 & E2 & W2 & L2). rewrite E2. cbn [rdi bind].
  destruct (st_ex (rt_nchild t) i (nchild h i) _ Z4 ltac:(lia)) as (nc1 & E3 & W3 & L3). rewrite E3. cbn [rdi bind].
  destruct (st_ex (rt_mcl t) (2 * i) (h_kdim h * clf i) _ Z3 ltac:(lia)) as (m1 & E4 & W4 & L4). rewrite E4. cbn [rdi bind].
  destruct (st_ex m1 (2 * i + 1) (h_kdim h * (cll i + 1) - 1) _ W4 ltac:(lia)) as (m2 & E5 & W5 & L5). rewrite E5. cbn [rdi bind].
  destruct (st_ex (rt_level t) i (level h i) _ Z1 ltac:(lia)) as (lv1 & E6 & W6 & L6). rewrite E6. cbn [rdi bind].
  set (ts2 := map TI (map (fun _ => -1) (zrange (nchild h i) mc)) ++ rest).
  set (CH := fun jj (ch : mem Z) => forall k j, 0 <= j < mc -> (0 <= k < i \/ k = i /\ j < jj) -> ld ch (k * mc + j) = Some (childv k j)).
  match goal with |- exists _, ('(x, ts) <- zfor 0 _ ?b ?s; _) = _ /\ _ =>
    destruct (zfor_inv (fun jj (y : mem Z * mem Z * list tok) => exists ch pa, y = (ch, pa, map TI (map (child h i) (zrange jj (nchild h i))) ++ ts2) /\
      zlen ch = N * mc /\ zlen pa = N /\ CH jj ch /\ (forall k j, (0 <= k < i /\ 0 <= j < nchild h k) \/ (k = i /\ 0 <= j < jj) -> ld pa (child h k j) = Some k))
      0 (nchild h i) b s) as (y & Ey & ch & pa & -> & V1 & V2 & V3 & V4) end.
  - lia.
  - exists (rt_children t), (rt_parent t). split; [reflexivity|]. do 2 (split; auto). split.
    + intros k j Hj [Hk|(-> & Hk)]; [auto|lia].
    + intros k j [(Hk & Hj)|(-> & Hj)]; [auto|lia].
  - intros j y Hj (ch & pa & -> & V1 & V2 & V3 & V4). rewrite (zrange_cons j) by lia. cbn [map app rdi bind].
    destruct (child_at h R i j Hi Hj) as (_ & Cr & _). 
    destruct (st_ex ch (i * mc + j) (child h i j) _ V1 ltac:(nia)) as (ch' & E & W & L'). rewrite E. cbn [bind].
    destruct (st_ex pa (child h i j) i _ V2 Cr) as (pa' & E' & W' & L2'). rewrite E'. cbn [bind].
    eexists. split; [reflexivity|]. exists ch', pa'. split; [reflexivity|]. do 2 (split; auto). split.
    + intros k j' Hj' Hk. rewrite L'. destruct (Z.eqb_spec (i * mc + j) (k * mc + j')) as [Eq|Ne].
      * destruct (cell_inj i j k j' mc ltac:(lia) Hj' Eq) as (<- & <-). unfold childv. destruct (Z.ltb_spec j (nchild h i)); [auto|lia].
      * apply V3; auto. destruct Hk as [Hk|(-> & Hk)]; [auto|right; split; [auto|]; destruct (Z.eq_dec j' j); [subst; lia|lia]].
    + intros k j' Hk. rewrite L2'. destruct (Z.eqb_spec (child h i j) (child h k j')) as [Eq|Ne].
      * assert (Hkk : 0 <= k < N /\ 0 <= j' < nchild h k) by (destruct Hk as [Hk|(-> & Hk)]; lia). destruct Hkk as (Q1 & Q2).
        pose proof (child_parent i j Hi Hj) as X. rewrite Eq, (child_parent k j' Q1 Q2) in X. congruence.
      * apply V4. destruct Hk as [Hk|(-> & Hk)]; [auto|right; split; [auto|]; destruct (Z.eq_dec j' j); [subst; congruence|lia]].
  - rewrite Ey. cbn [bind]. rewrite (zrange_empty (nchild h i) (nchild h i)) by lia. cbn [map app]. unfold ts2 at 1.
    match goal with |- exists _, ('(x, ts) <- zfor _ _ ?b ?s; _) = _ /\ _ =>
      destruct (zfor_inv (fun jj (y : mem Z * list tok) => exists ch, y = (ch, map TI (map (fun _ => -1) (zrange jj mc)) ++ rest) /\ zlen ch = N * mc /\ CH jj ch)
        (nchild h i) mc b s) as (y' & Ey' & ch' & -> & V1' & V3') end.
    + lia.
    + exists ch. auto.
    + intros j y (Hj1 & Hj2) (ch1 & -> & U1 & U2). rewrite (zrange_cons j) by lia. cbn [map app rdi bind].
      destruct (st_ex ch1 (i * mc + j) (-1) _ U1 ltac:(nia)) as (ch2 & E & W & L'). rewrite E. cbn [bind]. eexists. split; [reflexivity|]. exists ch2. split; [reflexivity|]. split; auto.
      intros k j' Hj' Hk. rewrite L'. destruct (Z.eqb_spec (i * mc + j) (k * mc + j')) as [Eq|Ne].
      * destruct (cell_inj i j k j' mc ltac:(lia) Hj' Eq) as (<- & <-). unfold childv. destruct (Z.ltb_spec j (nchild h i)); [lia|auto].
      * apply U2; auto. destruct Hk as [Hk|(-> & Hk)]; [auto|right; split; [auto|]; destruct (Z.eq_dec j' j); [subst; lia|lia]].
    + rewrite Ey'. cbn [bind]. rewrite (zrange_empty mc mc) by lia. cbn [map app]. eexists. split; [reflexivity|].
      constructor; cbn [rt_level rt_cluster rt_mcl rt_nchild rt_children rt_parent rt_nleaf].
      * auto 10.
      * intros k Hk. rewrite L6, L3. repeat rewrite L2. repeat rewrite L1. repeat rewrite L5. repeat rewrite L4.
        destruct (Z.eqb_spec i k) as [->|Ne].
        -- rewrite (Z.mul_comm 2 k), !Z.eqb_refl. destruct (Z.eqb_spec (k * 2 + 1) (k * 2)); [lia|]. auto 10.
        -- destruct (Z.eqb_spec (2 * i + 1) (k * 2)); [lia|]. destruct (Z.eqb_spec (2 * i) (k * 2)); [lia|].
           destruct (Z.eqb_spec (2 * i + 1) (k * 2 + 1)); [lia|]. destruct (Z.eqb_spec (2 * i) (k * 2 + 1)); [lia|]. apply G. lia.
      * intros k j Hk Hj. apply V3'; auto. lia.
      * intros k j Hk Hj. apply V4. destruct (Z.eq_dec k i); [subst; auto|left; lia].
      * rewrite zrange_snoc, zcount_app, zcount_cons, zcount_nil, L by lia. destruct (nchild h i =? 0); lia.
Qed.

Lemma read_tree_spec rest : exists t, read_tree N (h_kdim h) mc (concat (map nodeL (zrange 0 N)) ++ rest) = Some (t, rest) /\ tree_read N t.
Proof.
  destruct (ct_root _ _ _ _ _ _ (ro_tree _ R)) as (HN & _). pose proof (nchild_le 0 ltac:(lia)) as Hc.
  unfold read_tree. match goal with |- exists _, zfor 0 N ?b ?s = _ /\ _ =>
    destruct (zfor_inv (fun i (x : rtree * list tok) => exists t, x = (t, concat (map nodeL (zrange i N)) ++ rest) /\ tree_read i t) 0 N b s) as (x & Ex & t & -> & T) end.
  - lia.
  - eexists. split; [reflexivity|]. constructor; cbn [rt_level rt_cluster rt_mcl rt_nchild rt_children rt_parent rt_nleaf]; try (intros; lia).
    + rewrite !zlen_alloc by nia. repeat split; auto.
    + rewrite zrange_empty by lia. reflexivity.
  - intros i x Hi (t & -> & T). rewrite (zrange_cons i) by lia. cbn [map concat]. rewrite <- app_assoc. destruct (read_node_spec i t (concat (map nodeL (zrange (i + 1) N)) ++ rest) Hi T) as (t' & E & T').
    rewrite E. eexists. split; [reflexivity|]. eauto.
  - exists t. rewrite Ex, (zrange_empty N N) by lia. auto.
Qed.

Lemma nLn : 0 <= nL.
Proof.
  destruct (ro_dims _ R) as (_ & _ & _ & _ & _ & Hl). destruct (ct_levels _ _ _ _ _ _ (ro_tree _ R) 0 ltac:(lia)) as (ns & _ & H & _). zlia.
Qed.

(** Levels fit in arrays of n_node cells. *)
Lemma height_le i : 0 <= i -> i < N -> forall s e lv hh nc, node_data (h_t h) i s e lv hh nc -> hh <= i.
Proof.
  intros Hi. pattern i. apply Zlt_0_ind; auto. clear i Hi. intros i IH Hi HN s e lv hh nc D.
  destruct (Z.eq_dec nc 0) as [->|Ne].
  - destruct (ct_node _ _ _ _ _ _ (ro_tree _ R) i ltac:(lia)) as (s' & e' & lv' & hh' & nc' & D' & _ & _ & _ & _ & _ & Hz).
    destruct D as (_ & _ & _ & D4 & D5). destruct D' as (_ & _ & _ & D4' & D5'). rewrite D4 in D4'. rewrite D5 in D5'. injection D4' as <-. injection D5' as <-. lia.
  - destruct (ct_children _ _ _ _ _ _ (ro_tree _ R) i _ _ _ _ _ ltac:(lia) D Ne) as (cs & _ & _ & T & _ & (c & Hc & Eh)).
    assert (X : 0 <= c < i /\ exists s e lv nc, node_data (h_t h) c s e lv (hh - 1) nc).
    { destruct (tiles_child h i _ cs _ _ T c Hc) as (B & _). split; auto. destruct (ct_node _ _ _ _ _ _ (ro_tree _ R) c ltac:(lia)) as (s' & e' & lv' & hh' & nc' & D' & _).
      exists s', e', lv', nc'. pose proof D' as (_ & _ & _ & D4 & _). rewrite Eh in D4. injection D4 as <-. auto. }
    destruct X as (B & s' & e' & lv' & nc' & D'). specialize (IH c ltac:(lia) ltac:(lia) _ _ _ _ _ D'). lia.
Qed.
Lemma maxlevel_lt : h_maxlevel h < N.
Proof.
  destruct (ct_root _ _ _ _ _ _ (ro_tree _ R)) as (HN & _ & nc & D). pose proof (height_le (N - 1) ltac:(lia) ltac:(lia) _ _ _ _ _ D). lia.
Qed.

Lemma filter_zlen_le {A} (f : A -> bool) l m : zlen (filter f (l ++ m)) >= zlen (filter f l).
Proof. rewrite filter_app. unfold zlen. rewrite app_length. lia. Qed.

Lemma read_levels_spec lev : zlen lev = N -> (forall k, 0 <= k < N -> ld lev k = Some (level h k)) -> exists ln lns, read_levels N nL (h_maxlevel h) lev = Some (ln, lns) /\
  forall l, 0 <= l <= h_maxlevel h -> lists lns ln nL l (fun i => 0 <= i < N /\ ld lev i = Some l).
Proof.
  intros Zl Gl. destruct (ct_root _ _ _ _ _ _ (ro_tree _ R)) as (HN & _). pose proof maxlevel_lt as Hml. destruct (ro_dims _ R) as (_ & _ & _ & _ & _ & Hm).
  unfold read_levels. destruct (zfill_spec (fun _ => 0) (fun i m => st m i 0) 0 N (alloc N)) as (ln0 & En & Zn & Ln); [auto|lia|lia|rewrite zlen_alloc; lia|].
  rewrite zlen_alloc in Zn by lia. rewrite En. cbn [bind].
  set (on := fun l i => filter (fun k => level h k =? l) (zrange 0 i)).
  assert (Cap : forall l, 0 <= l <= h_maxlevel h -> zlen (on l N) <= nL).
  { intros l Hl. destruct (level_list h R l Hl) as (ns & _ & _ & ND & In_). destruct (ct_levels _ _ _ _ _ _ (ro_tree _ R) l Hl) as (ns' & C & Le & _ & In' & _).
    assert (P : Permutation (on l N) ns).
    { apply NoDup_Permutation; [apply NoDup_filter, NoDup_zrange|auto|]. intros i. unfold on. rewrite filter_In, In_zrange, In_, Z.eqb_eq. tauto. }
    apply Permutation_length in P. unfold zlen in *. rewrite P.
    assert (Q : (length ns <= length ns')%nat). { apply NoDup_incl_length; auto. intros i Hi'. apply In_ in Hi' as (H1 & H2). apply In'. split; auto. rewrite (ld_level h R i H1). now f_equal. }
    lia. }
  destruct (zfor_inv (fun i (x : mem Z * mem Z) => zlen (fst x) = N /\ zlen (snd x) = nL * (h_maxlevel h + 1) /\ forall l, 0 <= l <= h_maxlevel h ->
      ld (fst x) l = Some (zlen (on l i)) /\ forall k, 0 <= k < zlen (on l i) -> ld (snd x) (l * nL + k) = getz (on l i) k)
    0 N (fun node (x : mem Z * mem Z) => let '(ln, lns) := x in level <- ld lev node; idx <- ld ln level; lns <- st lns (level * nL + idx) node; ln <- bump ln level; Some (ln, lns))
    (ln0, alloc (nL * (h_maxlevel h + 1)))) as ([ln lns] & E & Z1 & Z2 & G).
  - lia.
  - cbn [fst snd]. split; auto. split; [apply zlen_alloc; pose proof nLn; nia|]. intros l Hl. unfold on. rewrite (zrange_empty 0 0) by lia. cbn [filter].
    split; [rewrite Ln; destruct (Z.leb_spec 0 l); [|lia]; destruct (Z.ltb_spec l N); [reflexivity|lia]|intros; zlia].
  - intros i [ln lns] Hi (Z1 & Z2 & G). cbn [fst snd] in *. rewrite Gl by auto. cbn [bind]. pose proof (level_range h R i Hi) as Hlv. set (lv := level h i) in *.
    destruct (G lv Hlv) as (G1 & G2). rewrite G1. cbn [bind].
    assert (Son : forall l, on l (i + 1) = on l i ++ (if level h i =? l then [i] else [])).
    { intros l. unfold on. rewrite zrange_snoc, filter_app by lia. cbn [filter]. reflexivity. }
    assert (Hc : zlen (on lv i) < nL).
    { pose proof (Cap lv Hlv) as C. unfold on in C. rewrite (zrange_app 0 (i + 1) N) in C by lia. pose proof (filter_zlen_le (fun k => level h k =? lv) (zrange 0 (i + 1)) (zrange (i + 1) N)).
      fold (on lv (i + 1)) in *. rewrite Son in *. unfold lv in *. rewrite Z.eqb_refl in *. rewrite zlen_app in *. zlia. }
    pose proof (zlen_nonneg (on lv i)).
    destruct (st_ex lns (lv * nL + zlen (on lv i)) i _ Z2 ltac:(nia)) as (lns' & E1 & W1 & L1). rewrite E1. cbn [bind].
    destruct (bump_spec ln lv _ G1) as (ln' & E2 & W2 & L2). rewrite E2. cbn [bind]. eexists. split; [reflexivity|]. cbn [fst snd]. split; [lia|]. split; auto.
    intros l Hl. rewrite L2, Son. destruct (G l Hl) as (G3 & G4). fold lv. destruct (Z.eqb_spec lv l) as [Q|Ne].
    + subst l. rewrite zlen_app. split; [f_equal; zlia|]. intros k Hk. rewrite L1. destruct (Z.eqb_spec (lv * nL + zlen (on lv i)) (lv * nL + k)).
      * replace k with (zlen (on lv i)) by lia. rewrite getz_app2 by lia. now rewrite Z.sub_diag, getz_0.
      * assert (k < zlen (on lv i)) by zlia. rewrite getz_app1 by lia. apply G4. lia.
    + rewrite app_nil_r. split; auto. intros k Hk. rewrite L1. destruct (Z.eqb_spec (lv * nL + zlen (on lv i)) (l * nL + k)) as [Eq|_]; [exfalso|auto].
      assert (k < nL). { pose proof (Cap l Hl) as C. unfold on in C. rewrite (zrange_app 0 i N) in C by lia. pose proof (filter_zlen_le (fun k => level h k =? l) (zrange 0 i) (zrange i N)). fold (on l i) in *. lia. }
      destruct (cell_inj lv (zlen (on lv i)) l k nL) as (? & _); auto; lia.
  - rewrite E. exists ln, lns. split; auto. intros l Hl. cbn [fst snd] in *. destruct (G l Hl) as (G1 & G2). exists (on l N). do 2 (split; auto). split; auto. split.
    + intros i. unfold on. rewrite filter_In, In_zrange, Z.eqb_eq. split; [intros (Hi & <-)|intros (Hi & Ei)]; (split; [auto|]); [now apply Gl|rewrite Gl in Ei by auto; congruence].
    + unfold on. apply sorted_filter, sorted_zrange.
Qed.
End Tree.
