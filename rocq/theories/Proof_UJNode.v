(** Proofs for Model_UJ.v: the step for one node and the sweep over the nodes. *)
From Coq Require Import ZArith QArith List Lia Bool Permutation.
From Verif Require Import Base Mem Num FNum Conc Model_Utils Spec_Utils Proof_Utils Model_Dense Spec_Dense Proof_Dense Proof_Dense3 Model_Partition Spec_Tree Spec_Pairs Spec_Matvec
  Model_Build Spec_Build Proof_Build Proof_BuildFill Model_ID Spec_ID Proof_IDQR Proof_IDFinal Proof_Bucket Model_UJ Spec_UJ Proof_UJ.
Import ListNotations.
Open Scope Z_scope.

(** The orders a team of one thread takes are schedules. *)
Lemma seq_schedules kdim n m : schedules kdim n m (zrange 0 n) (fun i => if kdim =? 1 then zrange 0 (n - i - 1) else zrange (i + 1) (n / kdim)).
Proof. split; [apply Permutation_refl|]. intros. destruct (kdim =? 1); apply Permutation_refl. Qed.

Lemma id_compress_ok {F : fnum} dbl (stp : @stop F) kdim nblk n m want_U ord0 ord A J l a A' J' U : 1 <= kdim -> 1 <= n -> n = nblk * kdim -> dm_holds A n m a -> (1 < kdim -> n * dm_ld A <= zlen (dm_data A)) ->
  iv_holds J l -> schedules kdim n m ord0 ord -> id_compress dbl stp kdim want_U ord0 ord A J = Some (A', J', U) -> dm_ok A'.
Proof.
  intros Hk Hn Enb (Aok & An & Am & Fit & HA) Hbuf HJ Hord. unfold id_compress. rewrite An, Am.
  destruct (iv_set_capacity_spec J l n HJ) as (J1 & -> & HJ1 & Ecap). cbn [bind].
  assert (HR : colmat (dm_data A) (dm_ld A) m n (fun r c => a c r)) by (intros r c Hr Hc; apply HA; auto).
  destruct Fit as (F1 & F2 & _ & F3 & _). assert (Hnb : 0 <= nblk) by (apply (Z.mul_le_mono_pos_r _ _ kdim); lia).
  assert (Zj : zlen (iv_data J1) = iv_cap J1) by (destruct HJ1; auto).
  destruct (id_qr_spec dbl stp kdim m n nblk (dm_ld A) ord0 ord (dm_data A) (fun r c => a c r) (iv_data J1) ltac:(lia) Hnb Enb ltac:(lia) Hbuf Hord HR ltac:(lia))
    as [(R' & p' & M & p & r & E & ZR & _)|(E & _)]; rewrite E; cbn [bind]; [|discriminate].
  destruct (id_index n r p') as [((Jd & i0) & p1)|]; cbn [bind]; [|discriminate].
  match goal with |- context [if negb want_U then ?x else ?y] => destruct (if negb want_U then x else y) as [V|] end; cbn [bind]; [|discriminate].
  destruct (id_points kdim r Jd) as [(? & ?)|]; cbn [bind]; [|discriminate]. intros Eq. injection Eq as <- _ _. unfold dm_ok in *. cbn. lia.
Qed.

Section Node.
Context {F : num} {E : fnum}.
Variable kern : list F -> list F -> Z -> Z -> E.
Variable c : uctx F E.
Variables n_node max_level n_leaf minlevel n_thread : Z.
Hypothesis UI : uj_input c n_node max_level n_leaf minlevel.
Variable Q : Z -> list Z -> list Z -> (Z -> Z -> E) -> Prop.
Variable may_fail : Prop.

Notation a := (c_t c).
Notation dim := (c_dim c).
Notation npt := (c_npoint c).
Notation coord := (c_coord c).
Notation kdim := (c_kdim c).
Notation pts := (node_pts (c_t c) (c_ptdim c)).

Definition seq_ord (n i : Z) : list Z := if kdim =? 1 then zrange 0 (n - i - 1) else zrange (i + 1) (n / kdim).

(** What the decomposition of the blocks at hand delivers ([may_fail]: when it may return nothing). *)
Definition id_delivers : Prop := forall i ps A J l, 0 <= i < n_node -> minlevel <= lev a i -> 1 <= zlen ps -> (forall p, In p ps -> owns a i p = true) ->
  let n := zlen ps * kdim in let m := n_proxy (c_pp c) (lev a i) * kdim in
  dm_holds A n m (proxy_block kern c ps i) -> dm_ld A = m -> n * m <= zlen (dm_data A) -> iv_holds J l ->
  (id_compress (c_dbl c) (c_stop c) kdim true (zrange 0 n) (seq_ord n) A J = None /\ may_fail) \/
  exists A' J' U sk u, id_compress (c_dbl c) (c_stop c) kdim true (zrange 0 n) (seq_ord n) A J = Some (A', J', Some U) /\
    iv_holds J' sk /\ dm_holds U n (zlen sk * kdim) u /\ skeleton_of kdim (zlen ps) sk u /\ Q i ps sk u.
Hypothesis Hid : id_delivers.

Lemma owns_iff i p : 0 <= i < n_node -> owns a i p = true <-> exists s, ld (a_cluster a) (i * 2) = Some s /\ s <= p < s + npts a i.
Proof.
  intros Hi. destruct (node_facts c n_node max_level n_leaf minlevel UI i Hi) as (s & h & nc & (N1 & N2 & _) & _).
  unfold owns. rewrite N1, N2. rewrite Z.add_0_r in N1. rewrite andb_true_iff, !Z.leb_le. split.
  - intros. exists s. split; auto. lia.
  - intros (s' & E' & H'). rewrite N1 in E'. injection E' as <-. lia.
Qed.
Lemma owns_range i p : 0 <= i < n_node -> owns a i p = true -> 0 <= p < npt.
Proof.
  intros Hi H. apply owns_iff in H; auto. destruct H as (s & Es & Hs). destruct (node_facts c n_node max_level n_leaf minlevel UI i Hi) as (s' & h & nc & (N1 & _) & B).
  rewrite Z.add_0_r, Es in N1. injection N1 as <-. lia.
Qed.
Lemma owns_child i k p : 0 <= i < n_node -> 0 <= k < nch a i -> owns a (chd a (c_ptdim c) i k) p = true -> owns a i p = true.
Proof.
  intros Hi Hk Ho. destruct (node_facts c n_node max_level n_leaf minlevel UI i Hi) as (s & h & nc & N & _ & _ & _ & _ & En & _).
  destruct (ct_children _ _ _ _ _ _ (ctree c n_node max_level n_leaf minlevel UI) i _ _ _ _ _ Hi N ltac:(lia)) as (cs & Zc & Hc & T & _).
  destruct N as (N1 & N2 & _). unfold owns at 1. rewrite N1, N2.
  assert (G : exists x, getz cs k = Some x) by (apply getz_in; lia). destruct G as [x Gx].
  assert (Ech : ld (a_children a) (i * 2 ^ c_ptdim c + k) = Some x) by (rewrite Hc, Gx; auto; lia).
  assert (Ex : chd a (c_ptdim c) i k = x) by (unfold chd; now rewrite Ech). rewrite Ex in Ho. apply getz_In in Gx.
  clear - T Gx Ho. set (e := s + npts a i - 1) in *. clearbody e. rewrite andb_true_iff, !Z.leb_le. revert s T. induction cs as [|y cs IH]; intros s T; [inversion Gx|].
  destruct T as (ce & h' & nc' & (L1 & L2 & _) & P & B & Hle & T).
  assert (Le : ce <= e). { clear - T. revert ce T. induction cs as [|z cs IH]; intros ce T; cbn in T; [lia|]. destruct T as (ce' & ? & ? & _ & _ & _ & Hle & T). apply IH in T. lia. }
  destruct Gx as [->|Gx].
  - unfold owns in Ho. rewrite L1, L2 in Ho. apply andb_true_iff in Ho. rewrite !Z.leb_le in Ho. lia.
  - destruct (IH Gx (ce + 1) T) as [H1 H2]. lia.
Qed.

(** The points a node starts from are its own. *)
Lemma pts_own js i : 0 <= i < n_node -> (forall k p, 0 <= k < nch a i -> In p (js (chd a (c_ptdim c) i k)) -> owns a (chd a (c_ptdim c) i k) p = true) ->
  forall p, In p (pts js i) -> owns a i p = true.
Proof.
  intros Hi Hch p Hp. unfold node_pts in Hp. destruct (Z.eqb_spec (nch a i) 0).
  - destruct (node_facts c n_node max_level n_leaf minlevel UI i Hi) as (s & h & nc & (N1 & _) & _). rewrite Z.add_0_r in N1. rewrite N1 in Hp. cbn [val] in Hp.
    apply In_zrange in Hp. apply owns_iff; eauto.
  - apply in_flat_map in Hp as (k & Hk & Hp). apply In_zrange in Hk. apply (owns_child i k); auto.
Qed.

(** State of node i once it is processed. *)
Definition done_ok (js : Z -> list Z) (s : ust F E) (i : Z) : Prop :=
  exists V v m, getz (u_U s) i = Some (Some V) /\ getz (u_J s) i = Some (Some v) /\ getz (u_Jc s) i = Some (Some m) /\
    iv_holds v (js i) /\ jc_ok c m (js i) /\ basis_of c js i V Q.

Lemma done_left js s i : done_ok js s i -> left_ok c js (u_J s) (u_Jc s) i.
Proof. intros (V & v & m & _ & H1 & H2 & H3 & H4 & _). exists v, m. auto. Qed.

Record uj_inv (dn : list Z) (js : Z -> list Z) (s : ust F E) : Prop := {
  v_len : zlen (u_U s) = n_node /\ zlen (u_J s) = n_node /\ zlen (u_Jc s) = n_node /\ zlen (u_tb s) = n_thread;
  v_tb : forall t b, getz (u_tb s) t = Some b -> tbuf_ok b;
  v_done : forall i, In i dn -> 0 <= i < n_node /\ minlevel <= lev a i /\ done_ok js s i /\ (forall p, In p (js i) -> owns a i p = true) /\
    forall k, 0 <= k < nch a i -> In (chd a (c_ptdim c) i k) dn;
  v_todo : forall i, 0 <= i < n_node -> ~ In i dn -> getz (u_U s) i = Some None /\ getz (u_J s) i = Some None /\ getz (u_Jc s) i = Some None /\ js i = []
}.

Lemma zlen_pts_pos js i : 0 <= i < n_node -> (forall k, 0 <= k < nch a i -> js (chd a (c_ptdim c) i k) <> []) -> 1 <= zlen (pts js i).
Proof.
  intros Hi Hne. destruct (node_facts c n_node max_level n_leaf minlevel UI i Hi) as (s & h & nc & (N1 & _) & _ & Hp & _ & _ & En & Hnc & _). unfold node_pts. destruct (Z.eqb_spec (nch a i) 0).
  - rewrite zlen_zrange; lia.
  - rewrite (zrange_cons 0) by lia. cbn [flat_map]. rewrite zlen_app. pose proof (zlen_nonneg (flat_map (fun k => js (chd a (c_ptdim c) i k)) (zrange (0 + 1) (nch a i)))).
    specialize (Hne 0 ltac:(lia)). destruct (js (chd a (c_ptdim c) i 0)); [congruence|]. rewrite zlen_cons. zlia.
Qed.

Lemma step_ok dn js s tid i : uj_inv dn js s -> 0 <= tid < n_thread -> 0 <= i < n_node -> minlevel <= lev a i -> ~ In i dn ->
  (forall k, 0 <= k < nch a i -> In (chd a (c_ptdim c) i k) dn) -> (forall j, In j dn -> js j <> []) ->
  (uj_node kern c tid i s = None /\ may_fail) \/ exists s' js', uj_node kern c tid i s = Some s' /\ uj_inv (i :: dn) js' s' /\ forall j, In j dn -> js' j = js j.
Proof.
  intros [(L1 & L2 & L3 & L4) Htb Hdn Htodo] Ht Hi Hlv Hni Hch Hne.
  destruct UI as [(D1 & D2 & D3) _ _ _ Hpp].
  destruct (node_facts c n_node max_level n_leaf minlevel UI i Hi) as (s0 & h & nc & (N1 & N2 & N3 & N4 & N5) & Hs & Hp & He & Hl & En & Hnc & Hh).
  assert (Hleft : forall k, 0 <= k < nch a i -> left_ok c js (u_J s) (u_Jc s) (chd a (c_ptdim c) i k)) by (intros k Hk; apply done_left, Hdn; auto).
  assert (Hown : forall p, In p (pts js i) -> owns a i p = true) by (apply pts_own; auto; intros k p Hk; apply Hdn; auto).
  assert (Hpos : 1 <= zlen (pts js i)) by (apply zlen_pts_pos; auto).
  unfold uj_node. destruct (getz_in (u_tb s) tid ltac:(lia)) as [tb Etb]. rewrite Etb. cbn [bind]. rewrite N4, N3. cbn [bind].
  destruct (Htb tid tb Etb) as (T1 & T2 & lt & T3).
  set (P := pts js i) in *.
  assert (S1 : exists v jc, (if h =? 0 then '(v, m) <- uj_leaf c i; Some (v, Some m) else v <- uj_parent c (u_J s) i; Some (v, None)) = Some (v, jc) /\ iv_holds v P /\
     (forall m, jc = Some m -> nch a i = 0 /\ jc_ok c m P) /\ (jc = None -> nch a i <> 0)).
  { destruct (Z.eqb_spec h 0).
    - destruct (uj_leaf_spec c n_node max_level n_leaf minlevel UI js i Hi ltac:(lia)) as (v & m & Ev & Hv & Hm). rewrite Ev. cbn [bind]. exists v, (Some m). split; auto. split; auto. split; [|discriminate]. intros m' [= <-]. split; auto; lia.
    - destruct (uj_parent_spec c n_node max_level n_leaf minlevel UI js (u_J s) (u_Jc s) i Hi ltac:(lia) Hleft) as (v & Ev & Hv). rewrite Ev. cbn [bind]. exists v, None. split; auto. split; auto. split; [discriminate|lia]. }
  destruct S1 as (v & jc & -> & Hv & Hjc & Hjn). cbn [bind].
  assert (Elen : iv_len v = zlen P) by apply Hv. rewrite Elen.
  destruct (dm_resize_ok (tb_mat1 tb) dim (zlen P) T2 ltac:(lia) ltac:(lia)) as (M1 & M2 & M3 & M4 & M5). set (m1 := dm_resize (tb_mat1 tb) dim (zlen P)) in *.
  assert (S2 : exists d1, match jc with Some m => copy_matrix dim (zlen P) (dm_data m) 0 (dm_ld m) (dm_data m1) 0 (dm_ld m1) | None => uj_gather c (u_J s) (u_Jc s) i (dm_ncol m1) (dm_data m1) end = Some d1 /\
     zlen d1 = zlen (dm_data m1) /\ skel_ok c d1 P).
  { rewrite M3, M4. destruct jc as [m|].
    - destruct (Hjc m eq_refl) as (_ & J1 & J2 & J3 & J4 & J5 & J6). rewrite J4.
      destruct (copy_matrix_spec dim (zlen P) (dm_data m) 0 (zlen P) (dm_data m1) 0 (zlen P)) as (d1 & E1 & Z1 & G1 & _); try (apply fits_resized; lia).
      exists d1. split; auto. split; auto. split; [lia|]. intros x k Hx Hk. rewrite <- J6 by auto. unfold ld. rewrite <- (Z.add_0_l (x * zlen P)), G1; auto.
    - apply uj_gather_spec with (n_node := n_node) (max_level := max_level) (n_leaf := n_leaf) (minlevel := minlevel); auto. }
  destruct S2 as (d1 & -> & Z1 & Hd1). cbn [bind].
  destruct (uj_shift_spec c n_node max_level n_leaf minlevel UI i P d1 Hi Hd1) as (d2 & -> & Z2 & Hd2). cbn [bind].
  destruct (Hpp (lev a i) ltac:(lia)) as (pm & Epp & Hpm & Hpv). rewrite Epp. cbn [bind].
  assert (Enp : n_proxy (c_pp c) (lev a i) = dm_ncol pm) by (unfold n_proxy; now rewrite Epp). set (npp := dm_ncol pm) in *.
  assert (B1 : 0 <= zlen P * kdim) by (apply Z.mul_nonneg_nonneg; lia). assert (B2 : 0 <= npp * kdim) by (apply Z.mul_nonneg_nonneg; lia).
  destruct (dm_resize_ok (tb_mat0 tb) (zlen P * kdim) (npp * kdim) T1 B1 B2) as (A1 & A2 & A3 & A4 & A5). set (A := dm_resize (tb_mat0 tb) (zlen P * kdim) (npp * kdim)) in *. rewrite A4, A2.
  destruct (krnl_eval_spec kern dim kdim d2 0 (zlen P) (zlen P) (dm_data pm) 0 npp npp (fun k => centred a (c_ptdim c) dim npt coord i (nthz P k)) (proxy_pt dim (c_pp c) (lev a i)) (dm_data A) 0) as (dA & EA & ZA & GA); auto; try lia.
  { intros k Hk. unfold point. rewrite (all_some_map _ (fun d => if d <? c_ptdim c then nsub (val (nlit 0%Q) (ld coord (d * npt + nthz P k))) (centre a (c_ptdim c) i d) else val (nlit 0%Q) (ld coord (d * npt + nthz P k)))); [reflexivity|].
    intros d Hd. apply In_zrange in Hd. rewrite Z.add_0_l. apply Hd2; auto. }
  { intros k Hk. unfold point, proxy_pt. rewrite Epp. fold npp. apply all_some_map. intros d Hd. apply In_zrange in Hd. rewrite Z.add_0_l. destruct (Hpv d k Hd Hk) as [x Ex]. now rewrite Ex. }
  rewrite EA. cbn [bind].
  assert (HA : dm_holds (dm_set_data A dA) (zlen P * kdim) (npp * kdim) (proxy_block kern c P i)).
  { unfold dm_holds. cbn [dm_set_data dm_nrow dm_ncol dm_ld dm_data]. split; [unfold dm_ok in *; cbn; lia|]. split; auto. split; auto. rewrite A4. split; [apply fits_resized; lia|].
    intros r q Hr Hq. destruct (GA (r * (npp * kdim) + q)) as [(_ & V)|(Hn & _)].
    - rewrite V, Z.sub_0_r. replace (r * (npp * kdim) + q) with (q + r * (npp * kdim)) by lia. rewrite (Z.div_add q r), (Z.mod_add q r), (Z.div_small q (npp * kdim)), (Z.mod_small q (npp * kdim)), Z.add_0_l by lia. reflexivity.
    - exfalso. apply Hn. unfold in_reg. assert (r * (npp * kdim) <= (zlen P * kdim - 1) * (npp * kdim)) by (apply Z.mul_le_mono_nonneg_r; lia). lia. }
  assert (EnA : dm_nrow (dm_set_data A dA) = zlen P * kdim) by auto.
  destruct (Hid i P (dm_set_data A dA) (tb_idx0 tb) lt Hi Hlv Hpos Hown) as [(Enone & Hmf)|(A' & J' & U & sk & u & Eid & HJ' & HU & Hsk & HQ)]; rewrite ?Enp; auto.
  { cbn. lia. }
  { left. split; auto. unfold seq_ord in Enone. fold npp in Enone. rewrite Enone. reflexivity. }
  right. unfold seq_ord in Eid. rewrite Eid. cbn [bind].
  assert (OkA : dm_ok A').
  { eapply (id_compress_ok (c_dbl c) (c_stop c) kdim (zlen P) (zlen P * kdim) (npp * kdim) true); [| | |exact HA| |exact T3| |exact Eid]; auto; try lia.
    - intros _. cbn [dm_set_data dm_ld dm_data]. rewrite A4. lia.
    - apply seq_schedules. }
  destruct Hsk as (Hinc & Hin & Hid').
  destruct (uj_choose_spec c n_node max_level n_leaf minlevel UI v P J' sk jc Hv HJ' Hinc Hin) as (v' & m' & Ech & Hv' & Hm').
  { intros x Hx. apply (owns_range i); auto. } { intros m Em. apply (Hjc m Em). }
  rewrite Ech. cbn [bind].
  destruct (setz_Some (u_U s) i (Some U)) as [lU EU]; [lia|]. rewrite EU. cbn [bind].
  destruct (setz_Some (u_J s) i (Some v')) as [lJ EJ]; [lia|]. rewrite EJ. cbn [bind].
  destruct (setz_Some (u_Jc s) i (Some m')) as [lJc EJc]; [lia|]. rewrite EJc. cbn [bind].
  destruct (setz_Some (u_tb s) tid (TBuf A' (dm_set_data m1 d2) J')) as [ltb Et]; [lia|]. rewrite Et. cbn [bind].
  set (js' := fun j => if i =? j then map (nthz P) sk else js j).
  assert (Hjs : forall j, In j dn -> js' j = js j) by (intros j Hj; unfold js'; destruct (Z.eqb_spec i j); [subst; contradiction|auto]).
  assert (Hpts : forall j, (forall k, 0 <= k < nch a j -> In (chd a (c_ptdim c) j k) dn) -> pts js' j = pts js j).
  { intros j Hj. unfold node_pts. destruct (Z.eqb_spec (nch a j) 0); auto. assert (Hj' : forall k, In k (zrange 0 (nch a j)) -> js' (chd a (c_ptdim c) j k) = js (chd a (c_ptdim c) j k)) by (intros k Hk; apply In_zrange in Hk; auto).
    clear - Hj'. induction (zrange 0 (nch a j)); cbn; auto. rewrite Hj' by now left. rewrite IHl; auto. intros; apply Hj'. now right. }
  eexists _, js'. split; [reflexivity|]. split; auto. constructor; cbn [u_U u_J u_Jc u_tb].
  - rewrite (setz_zlen _ _ _ _ EU), (setz_zlen _ _ _ _ EJ), (setz_zlen _ _ _ _ EJc), (setz_zlen _ _ _ _ Et). auto.
  - intros t b Hb. rewrite (getz_setz _ _ _ _ t Et) in Hb. destruct (Z.eqb_spec tid t).
    + injection Hb as <-. split; [|split; [|exists sk]]; auto. unfold dm_ok in *. cbn. lia.
    + eapply Htb; eauto.
  - intros j [<-|Hj].
    + split; auto. split; auto. split.
      { exists U, v', m'. cbn [u_U u_J u_Jc]. rewrite (getz_setz _ _ _ _ i EU), (getz_setz _ _ _ _ i EJ), (getz_setz _ _ _ _ i EJc), Z.eqb_refl.
        assert (Ejs : js' i = map (nthz P) sk) by (unfold js'; now rewrite Z.eqb_refl). rewrite Ejs. do 5 (split; auto). unfold basis_of. rewrite (Hpts i Hch). fold P. exists sk, u. split; auto. split; auto. split; auto. split; auto. }
      split.
      { intros p Hp'. unfold js' in Hp'. rewrite Z.eqb_refl in Hp'. apply in_map_iff in Hp' as (x & <- & Hx). apply Hown. apply (getz_In P x), getz_nthz. auto. }
      intros k Hk. right. auto.
    + destruct (Hdn j Hj) as (Hj1 & Hj2 & (V & w & m & G1 & G2 & G3 & G4 & G5 & G6) & Hj4 & Hj5). assert (i <> j) by (intros ->; contradiction).
      split; auto. split; auto. rewrite !(Hjs j Hj). split.
      { exists V, w, m. cbn [u_U u_J u_Jc]. rewrite (getz_setz _ _ _ _ j EU), (getz_setz _ _ _ _ j EJ), (getz_setz _ _ _ _ j EJc). destruct (Z.eqb_spec i j); [contradiction|].
        rewrite (Hjs j Hj). do 5 (split; auto). unfold basis_of. rewrite (Hpts j Hj5), (Hjs j Hj). exact G6. }
      split; auto. intros k Hk. right. auto.
  - intros j Hj Hn. assert (i <> j) by (intros ->; apply Hn; now left). assert (~ In j dn) by (intros X; apply Hn; now right).
    destruct (Htodo j Hj H0) as (G1 & G2 & G3 & G4). rewrite (getz_setz _ _ _ _ j EU), (getz_setz _ _ _ _ j EJ), (getz_setz _ _ _ _ j EJc). unfold js'.
    destruct (Z.eqb_spec i j); [contradiction|]. auto.
Qed.
End Node.
