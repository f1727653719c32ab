(** The pivoted QR of Model_ID.v on abstract matrices: each step of the model is
    the step [fq_step] on functions, for any arithmetic and any order of the
    column updates. *)
From Coq Require Import ZArith QArith List Lia Bool Permutation.
From Verif Require Import Base Mem FNum Model_Utils Model_Dense Model_CSR Model_Build Model_ID Proof_IDMem.
Import ListNotations.
Open Scope Z_scope.

Definition holdsv {A} (m : mem A) (n : Z) (f : Z -> A) : Prop := forall j, 0 <= j < n -> ld m j = Some (f j).
(** Column-major matrix. *)
Definition colmat {A} (R : mem A) (ldR nrow ncol : Z) (M : Z -> Z -> A) : Prop :=
  forall r c, 0 <= r < nrow -> 0 <= c < ncol -> ld R (c * ldR + r) = Some (M r c).
Definition sw (i j c : Z) : Z := if c =? i then j else if c =? j then i else c.

Lemma cell_in ldR nrow c i c' r' len : 0 <= i -> i + len <= nrow -> nrow <= ldR -> 0 <= r' < nrow -> c * ldR + i <= c' * ldR + r' < c * ldR + i + len -> c' = c /\ i <= r' < i + len.
Proof.
  intros Hi Hl Hld Hr H. assert (c' = c).
  { destruct (Z.lt_trichotomy c' c) as [L|[E|L]]; auto.
    - assert ((c' + 1) * ldR <= c * ldR) by (apply Z.mul_le_mono_nonneg_r; lia). lia.
    - assert ((c + 1) * ldR <= c' * ldR) by (apply Z.mul_le_mono_nonneg_r; lia). lia. }
  subst. lia.
Qed.
(** Two different columns do not overlap. *)
Lemma cols_apart ldR nrow c c' i len : 0 <= i -> 0 <= len -> i + len <= nrow -> nrow <= ldR -> c <> c' -> c * ldR + i + len <= c' * ldR + i \/ c' * ldR + i + len <= c * ldR + i.
Proof.
  intros Hi Hl0 Hl Hld Hc. destruct (Z.lt_ge_cases c c') as [L|L].
  - left. assert ((c + 1) * ldR <= c' * ldR) by (apply Z.mul_le_mono_nonneg_r; lia). lia.
  - right. assert ((c' + 1) * ldR <= c * ldR) by (apply Z.mul_le_mono_nonneg_r; lia). lia.
Qed.
Lemma colmat_out {A} (R R' : mem A) ldR nrow ncol M c i len : colmat R ldR nrow ncol M -> 0 <= i -> i + len <= nrow -> nrow <= ldR -> same_out (c * ldR + i) (c * ldR + i + len) R R' ->
  forall r' c', 0 <= r' < nrow -> 0 <= c' < ncol -> ~ (c' = c /\ i <= r' < i + len) -> ld R' (c' * ldR + r') = Some (M r' c').
Proof.
  intros H Hi Hl Hld S r' c' Hr Hc N. rewrite (same_out_ld _ _ _ _ _ S); [auto|]. intros HH. apply N. eapply cell_in; eauto.
Qed.
Lemma colmat_ext {A} (R : mem A) ldR nrow ncol M M' : colmat R ldR nrow ncol M -> (forall r c, 0 <= r < nrow -> 0 <= c < ncol -> M r c = M' r c) -> colmat R ldR nrow ncol M'.
Proof. intros H E r c Hr Hc. rewrite <- E by auto. auto. Qed.
Lemma holdsv_ext {A} (m : mem A) n f f' : holdsv m n f -> (forall j, 0 <= j < n -> f j = f' j) -> holdsv m n f'.
Proof. intros H E j Hj. rewrite <- E by auto. auto. Qed.

Lemma swap_holdsv {A} (m : mem A) n f i j : holdsv m n f -> 0 <= i < n -> 0 <= j < n -> i <> j ->
  exists m', swap_cells m i j 1 = Some m' /\ zlen m' = zlen m /\ holdsv m' n (fun k => f (sw i j k)).
Proof.
  intros H Hi Hj N. pose proof (ld_range _ _ _ (H i Hi)). pose proof (ld_range _ _ _ (H j Hj)).
  destruct (swap_spec m i j 1) as (m' & E & Zm & G); try lia. exists m'. split; auto. split; auto. intros k Hk.
  unfold ld. rewrite G. unfold sw. destruct (Z.leb_spec i k); destruct (Z.ltb_spec k (i + 1)); cbn [andb].
  1: { assert (k = i) by lia. subst k. rewrite Z.eqb_refl. replace (j + (i - i)) with j by lia. apply (H j Hj). }
  all: destruct (Z.eqb_spec k i); try lia.
  all: destruct (Z.leb_spec j k); destruct (Z.ltb_spec k (j + 1)); cbn [andb].
  all: try (destruct (Z.eqb_spec k j); [|lia]; subst k; replace (i + (j - j)) with i by lia; apply (H i Hi)).
  all: destruct (Z.eqb_spec k j); try lia; apply (H k Hk).
Qed.
Lemma swap_cols {A} (R : mem A) ldR nrow ncol M i j : colmat R ldR nrow ncol M -> 1 <= nrow <= ldR -> 0 <= i < ncol -> 0 <= j < ncol -> i <> j ->
  exists R', swap_cells R (i * ldR) (j * ldR) nrow = Some R' /\ zlen R' = zlen R /\ colmat R' ldR nrow ncol (fun r c => M r (sw i j c)).
Proof.
  intros H Hn Hi Hj N. pose proof (ld_range _ _ _ (H (nrow - 1) i ltac:(lia) Hi)). pose proof (ld_range _ _ _ (H (nrow - 1) j ltac:(lia) Hj)).
  pose proof (ld_range _ _ _ (H 0 i ltac:(lia) Hi)). pose proof (ld_range _ _ _ (H 0 j ltac:(lia) Hj)).
  destruct (cols_apart ldR nrow i j 0 nrow) as [D|D]; try lia.
  all: destruct (swap_spec R (i * ldR) (j * ldR) nrow) as (R' & E & Zm & G); try lia; exists R'; split; auto; split; auto; intros r c Hr Hc; unfold ld; rewrite G; unfold sw.
  all: destruct (Z.eqb_spec c i) as [->|N1]; [destruct (Z.leb_spec (i * ldR) (i * ldR + r)); destruct (Z.ltb_spec (i * ldR + r) (i * ldR + nrow)); cbn [andb]; try lia;
         replace (j * ldR + (i * ldR + r - i * ldR)) with (j * ldR + r) by lia; apply (H r j Hr Hj)|].
  all: assert (N1' : ~ (i * ldR <= c * ldR + r < i * ldR + nrow)) by (intros HH; apply N1; eapply (cell_in ldR nrow i 0 c r nrow); lia).
  all: destruct (Z.leb_spec (i * ldR) (c * ldR + r)); destruct (Z.ltb_spec (c * ldR + r) (i * ldR + nrow)); cbn [andb]; try lia.
  all: destruct (Z.eqb_spec c j) as [->|N2]; [destruct (Z.leb_spec (j * ldR) (j * ldR + r)); destruct (Z.ltb_spec (j * ldR + r) (j * ldR + nrow)); cbn [andb]; try lia;
         replace (i * ldR + (j * ldR + r - j * ldR)) with (i * ldR + r) by lia; apply (H r i Hr Hi)|].
  all: assert (N2' : ~ (j * ldR <= c * ldR + r < j * ldR + nrow)) by (intros HH; apply N2; eapply (cell_in ldR nrow j 0 c r nrow); lia).
  all: destruct (Z.leb_spec (j * ldR) (c * ldR + r)); destruct (Z.ltb_spec (c * ldR + r) (j * ldR + nrow)); cbn [andb]; try lia; apply (H r c Hr Hc).
Qed.

Section QR.
Context {F : fnum}.
Variables (dbl : bool) (nrow ncol ldR : Z).

(** Column vector from row i down. *)
Definition colv (M : Z -> Z -> F) (i c n : Z) : list F := map (fun k => M (i + k) c) (zrange 0 n).
(** Reflecting the columns right of column i with v; column i itself becomes d
    followed by zeros. *)
Definition reflected (M : Z -> Z -> F) (i : Z) (v : Z -> F) (d : F) (r c : Z) : F :=
  if (c <? i) || (r <? i) then M r c else
  if c =? i then (if r =? i then d else flit 0%Q) else
  fsub (M r c) (fmul (fmul (flit 2%Q) (fdot (map v (zrange 0 (nrow - i))) (colv M i c (nrow - i)))) (v (r - i))).
Definition renorm (sn : F) (M : Z -> Z -> F) (cn : Z -> F) (i c : Z) : F :=
  if flt (cn c) sn then flit 0%Q else
  let tmp := fsub (fmul (cn c) (cn c)) (fmul (M i c) (M i c)) in
  if fle tmp (fast_thr dbl) then fnrm2 (colv M (i + 1) c (nrow - i - 1)) else fsqrt tmp.

Record fst_ := FSt { f_M : Z -> Z -> F; f_p : Z -> Z; f_cn : Z -> F; f_piv : Z; f_np : F; f_rank : Z }.
Definition fq_step (stop_rank : Z) (sn : F) (i : Z) (s : fst_) : option fst_ :=
  if negb (f_rank s =? -1) then Some s else
  if flt (f_np s) sn || (stop_rank <=? i) then Some (FSt (f_M s) (f_p s) (f_cn s) (f_piv s) (f_np s) i) else
  let M := fun r c => f_M s r (sw i (f_piv s) c) in
  let cn := fun c => f_cn s (sw i (f_piv s) c) in
  let x := fun k => M (i + k) i in
  inv <- hinv x (nrow - i);
  let M' := reflected M i (fun k => fmul (hraw x (nrow - i) k) inv) (fmul (fsub (flit 0%Q) (hsign x)) (hnorm x (nrow - i))) in
  let cn' := fun c => if c <=? i then cn c else renorm sn M' cn i c in
  let pv := fpiv cn' (i + 1) ncol in
  Some (FSt M' (fun c => f_p s (sw i (f_piv s) c)) cn' (fst pv) (snd pv) (-1)).

Definition qrel (Rn pn : Z) (i : Z) (m : qst) (s : fst_) : Prop :=
  colmat (q_R m) ldR nrow ncol (f_M s) /\ holdsv (q_p m) ncol (f_p s) /\ holdsv (q_cn m) ncol (f_cn s) /\
  zlen (q_R m) = Rn /\ zlen (q_p m) = pn /\
  q_piv m = f_piv s /\ q_np m = f_np s /\ q_rank m = f_rank s /\ (i < ncol -> f_rank s = -1 -> i <= f_piv s < ncol).


Lemma qr_cols_spec sn i v d (ord : list Z) (R cn0 : mem F) M cn : 0 <= i < nrow -> i < ncol -> nrow <= ldR -> Permutation ord (zrange 0 (ncol - i - 1)) ->
  (forall r c, 0 <= r < nrow -> 0 <= c < ncol -> ld R (c * ldR + r) = Some (if (c =? i) && (i <=? r) then v (r - i) else M r c)) -> holdsv cn0 ncol cn ->
  exists R' cn', par_for ord (qr_col dbl nrow ldR sn i) (R, cn0) = Some (R', cn') /\ zlen R' = zlen R /\
    (forall r c, 0 <= r < nrow -> 0 <= c < ncol -> ld R' (c * ldR + r) = Some (if (c =? i) && (i <=? r) then v (r - i) else reflected M i v d r c)) /\
    holdsv cn' ncol (fun c => if c <=? i then cn c else renorm sn (reflected M i v d) cn i c).
Proof.
  intros Hi Hic Hld HP HR Hcn.
  set (M' := reflected M i v d).
  set (dn := fun (done : list Z) c => if in_dec Z.eq_dec (c - i - 1) done then true else false).
  destruct (par_for_inv (fun done (x : mem F * mem F) => zlen (fst x) = zlen R /\
    (forall r c, 0 <= r < nrow -> 0 <= c < ncol -> ld (fst x) (c * ldR + r) = Some (if (c =? i) && (i <=? r) then v (r - i) else if dn done c then M' r c else M r c)) /\
    holdsv (snd x) ncol (fun c => if dn done c then renorm sn M' cn i c else cn c)) ord (qr_col dbl nrow ldR sn i) (R, cn0) []) as ((R' & cn') & E & Zr & G & C).
  - cbn [fst snd]. auto.
  - intros done j todo (R1 & cn1) Ed (Z1 & G1 & C1). cbn [fst snd app] in *.
    assert (Hin : In j (zrange 0 (ncol - i - 1))) by (apply (Permutation_in _ HP); rewrite Ed; apply in_or_app; right; now left).
    apply In_zrange in Hin.
    assert (Hnd : ~ In j done).
    { pose proof (Permutation_NoDup (Permutation_sym HP) (NoDup_zrange _ _)) as ND. rewrite Ed in ND. apply NoDup_remove_2 in ND. intros Hj. apply ND. apply in_or_app. now left. }
    set (c := j + i + 1). assert (Hc : i < c < ncol) by (unfold c; lia).
    assert (Dc : dn done c = false) by (unfold dn, c; destruct (in_dec Z.eq_dec _ done) as [H|]; auto; replace (j + i + 1 - i - 1) with j in H by lia; contradiction).
    unfold qr_col. fold c.
    destruct (reflect_spec R1 (i * ldR + i) (c * ldR + i) (nrow - i) v (fun k => M (i + k) c)) as (R2 & E2 & S2 & G2); try lia.
    { destruct (cols_apart ldR nrow i c i (nrow - i)); lia. }
    { intros k Hk. replace (i * ldR + i + k) with (i * ldR + (i + k)) by lia. rewrite G1 by lia. rewrite Z.eqb_refl. destruct (Z.leb_spec i (i + k)); [|lia]. cbn [andb]. do 2 f_equal. lia. }
    { intros k Hk. replace (c * ldR + i + k) with (c * ldR + (i + k)) by lia. rewrite G1 by lia. destruct (Z.eqb_spec c i); [lia|]. cbn [andb]. rewrite Dc. reflexivity. }
    rewrite E2. cbn [bind].
    assert (G2' : forall r, i <= r < nrow -> ld R2 (c * ldR + r) = Some (M' r c)).
    { intros r Hr. replace (c * ldR + r) with (c * ldR + i + (r - i)) by lia. rewrite G2 by lia. f_equal. unfold M', reflected.
      destruct (Z.ltb_spec c i); [lia|]. destruct (Z.ltb_spec r i); [lia|]. cbn [orb]. destruct (Z.eqb_spec c i); [lia|]. replace (i + (r - i)) with r by lia. reflexivity. }
    assert (N2 : forall R3, zlen R3 = zlen R -> R3 = R2 -> zlen R3 = zlen R /\
      (forall r c', 0 <= r < nrow -> 0 <= c' < ncol -> ld R3 (c' * ldR + r) = Some (if (c' =? i) && (i <=? r) then v (r - i) else if dn (done ++ [j]) c' then M' r c' else M r c'))).
    { intros R3 Z3 ->. split; auto. intros r c' Hr Hc'. destruct (Z.eq_dec c' c) as [->|N].
      - destruct (Z.eqb_spec c i); [lia|]. cbn [andb]. assert (dn (done ++ [j]) c = true) as ->.
        { unfold dn, c. destruct (in_dec Z.eq_dec _ (done ++ [j])) as [|H]; auto. exfalso. apply H. apply in_or_app. right. left. lia. }
        destruct (Z.lt_ge_cases r i).
        + rewrite (same_out_ld _ _ _ _ _ S2) by lia. rewrite G1 by lia. destruct (Z.eqb_spec c i); [lia|]. cbn [andb]. rewrite Dc. unfold M', reflected.
          destruct (Z.ltb_spec r i); [|lia]. now rewrite orb_true_r.
        + apply G2'. lia.
      - rewrite (same_out_ld _ _ _ _ _ S2).
        2:{ intros HH. apply N. apply (cell_in ldR nrow c i c' r (nrow - i)); lia. }
        rewrite G1 by lia. assert (dn (done ++ [j]) c' = dn done c') as ->; auto.
        unfold dn. destruct (in_dec Z.eq_dec _ (done ++ [j])) as [H|H]; destruct (in_dec Z.eq_dec _ done) as [H'|H']; auto.
        + apply in_app_or in H as [H|[H|[]]]; [contradiction|]. exfalso. apply N. unfold c. lia.
        + exfalso. apply H. apply in_or_app. now left. }
    destruct (N2 R2) as (Z2 & G3); [rewrite (proj1 S2); auto|auto|].
    assert (N3 : forall cn2, st cn1 c (renorm sn M' cn i c) = Some cn2 -> holdsv cn2 ncol (fun c' => if dn (done ++ [j]) c' then renorm sn M' cn i c' else cn c')).
    { intros cn2 Es c' Hc'. rewrite (ld_st _ _ _ _ c' Es). destruct (Z.eqb_spec c c') as [<-|N].
      - assert (dn (done ++ [j]) c = true) as ->; auto.
        unfold dn, c. destruct (in_dec Z.eq_dec _ (done ++ [j])) as [|H]; auto. exfalso. apply H. apply in_or_app. right. left. lia.
      - rewrite (C1 c' Hc'). assert (dn (done ++ [j]) c' = dn done c') as ->; auto.
        unfold dn. destruct (in_dec Z.eq_dec _ (done ++ [j])) as [H|H]; destruct (in_dec Z.eq_dec _ done) as [H'|H']; auto.
        + apply in_app_or in H as [H|[H|[]]]; [contradiction|]. exfalso. apply N. unfold c. lia.
        + exfalso. apply H. apply in_or_app. now left. }
    pose proof (C1 c ltac:(lia)) as Ec. cbn beta in Ec. rewrite Dc in Ec. rewrite Ec. cbn [bind]. pose proof (ld_range _ _ _ Ec) as Bc.
    destruct (st_Some cn1 c (renorm sn M' cn i c) Bc) as (cn2 & Es). pose proof (N3 _ Es) as N4.
    unfold renorm in Es at 1. destruct (flt (cn c) sn).
    + rewrite Es. cbn [bind]. exists (R2, cn2). cbn [fst snd]. auto.
    + rewrite (G2' i) by lia. cbn [bind]. cbv zeta in Es.
      destruct (fle (fsub (fmul (cn c) (cn c)) (fmul (M' i c) (M' i c))) (fast_thr dbl)).
      * rewrite (nrm2_spec R2 (c * ldR + i + 1) (nrow - i - 1) (fun k => M' (i + 1 + k) c)).
        2:{ intros k Hk. replace (c * ldR + i + 1 + k) with (c * ldR + (i + 1 + k)) by lia. apply G2'. lia. }
        cbn [bind]. change (map (fun k => M' (i + 1 + k) c) (zrange 0 (nrow - i - 1))) with (colv M' (i + 1) c (nrow - i - 1)). rewrite Es. cbn [bind]. exists (R2, cn2). cbn [fst snd]. auto.
      * cbn [bind]. rewrite Es. cbn [bind]. exists (R2, cn2). cbn [fst snd]. auto.
  - exists R', cn'. cbn [fst snd app] in *. split; auto. split; auto.
    assert (D : forall c, 0 <= c < ncol -> dn ord c = negb (c <=? i)).
    { intros c Hc. unfold dn. destruct (in_dec Z.eq_dec _ ord) as [H|H].
      - apply (Permutation_in _ HP) in H. apply In_zrange in H. destruct (Z.leb_spec c i); auto; lia.
      - destruct (Z.leb_spec c i); auto. exfalso. apply H. apply (Permutation_in _ (Permutation_sym HP)). apply In_zrange. lia. }
    split.
    + intros r c Hr Hc. rewrite G by auto. destruct ((c =? i) && (i <=? r)) eqn:Ec; auto. rewrite D by auto. destruct (Z.leb_spec c i); cbn [negb]; auto.
      unfold M', reflected. destruct (Z.ltb_spec c i); cbn [orb]; auto. destruct (Z.ltb_spec r i); auto. exfalso. assert (c = i) by lia. subst c. rewrite Z.eqb_refl in Ec. cbn [andb] in Ec. apply Z.leb_gt in Ec. lia.
    + intros c Hc. rewrite C by auto. rewrite D by auto. destruct (Z.leb_spec c i); reflexivity.
Qed.

Lemma qr_step_sim Rn pn stop_rank sn ord i m s : 0 <= i < Z.min nrow ncol -> nrow <= ldR -> Permutation (ord i) (zrange 0 (ncol - i - 1)) -> qrel Rn pn i m s ->
  match fq_step stop_rank sn i s with
  | Some s' => exists m', qr_step dbl nrow ncol ldR stop_rank sn ord i m = Some m' /\ qrel Rn pn (i + 1) m' s'
  | None => qr_step dbl nrow ncol ldR stop_rank sn ord i m = None
  end.
Proof.
  intros Hi Hld HP (HR & Hp & Hc & Zr & Zp & Ev & En & Er & Hpv). unfold fq_step, qr_step. rewrite Er, En, Ev.
  destruct (Z.eqb_spec (f_rank s) (-1)) as [Erk|Erk]; cbn [negb].
  2:{ exists m. split; auto. repeat (split; [assumption|]). intros _ HH; contradiction. }
  destruct (flt (f_np s) sn || (stop_rank <=? i)) eqn:Estop.
  { eexists. split; [reflexivity|]. cbn [q_R q_p q_cn q_piv q_np q_rank]. unfold qrel. cbn [q_R q_p q_cn q_piv q_np q_rank f_M f_p f_cn f_piv f_np f_rank]. repeat (split; [assumption || reflexivity|]). lia. }
  specialize (Hpv ltac:(lia) Erk). cbv zeta. set (piv := f_piv s) in *.
  set (M := fun r c => f_M s r (sw i piv c)). set (cn := fun c => f_cn s (sw i piv c)).
  assert (SW : exists R p cn0, (if i =? piv then Some (q_R m, q_p m, q_cn m) else
     p <- swap_cells (q_p m) i piv 1; cn <- swap_cells (q_cn m) i piv 1; R <- swap_cells (q_R m) (i * ldR) (piv * ldR) nrow; Some (R, p, cn)) = Some (R, p, cn0) /\
     colmat R ldR nrow ncol M /\ holdsv p ncol (fun c => f_p s (sw i piv c)) /\ holdsv cn0 ncol cn /\ zlen R = Rn /\ zlen p = pn).
  { destruct (Z.eqb_spec i piv) as [E|N].
    - eexists _, _, _. split; [reflexivity|]. assert (SI : forall c, sw i piv c = c) by (intros c; unfold sw; destruct (Z.eqb_spec c i); destruct (Z.eqb_spec c piv); lia).
      split; [apply (colmat_ext _ _ _ _ _ _ HR); intros; unfold M; now rewrite SI|]. split; [apply (holdsv_ext _ _ _ _ Hp); intros; now rewrite SI|].
      split; [apply (holdsv_ext _ _ _ _ Hc); intros; unfold cn; now rewrite SI|]. auto.
    - destruct (swap_holdsv (q_p m) ncol (f_p s) i piv) as (p & Ep & Zp' & Hp'); auto; try lia. rewrite Ep. cbn [bind].
      destruct (swap_holdsv (q_cn m) ncol (f_cn s) i piv) as (cn1 & Ec & Zc' & Hc'); auto; try lia. rewrite Ec. cbn [bind].
      destruct (swap_cols (q_R m) ldR nrow ncol (f_M s) i piv) as (R & ER & ZR' & HR'); auto; try lia. rewrite ER. cbn [bind].
      exists R, p, cn1. split; auto. split; auto. split; auto. split; auto. split; congruence. }
  destruct SW as (R & p & cn0 & -> & HR1 & Hp1 & Hc1 & Zr1 & Zp1). cbn [bind].
  set (x := fun k => M (i + k) i). change (fun k : Z => f_M s (i + k) (sw i piv i)) with x.
  pose proof (house_spec R (i * ldR + i) (nrow - i) x ltac:(lia)) as HS.
  assert (Hx : forall k, 0 <= k < nrow - i -> ld R (i * ldR + i + k) = Some (x k)).
  { intros k Hk. replace (i * ldR + i + k) with (i * ldR + (i + k)) by lia. apply HR1; lia. }
  specialize (HS Hx). revert HS. destruct (hinv x (nrow - i)) as [inv|] eqn:Einv; intros HS; cbn [bind].
  2:{ rewrite HS. reflexivity. }
  destruct HS as (R1 & E1 & S1 & G1). rewrite E1. cbn [bind].
  set (v := fun k => fmul (hraw x (nrow - i) k) inv). set (d := fmul (fsub (flit 0%Q) (hsign x)) (hnorm x (nrow - i))).
  destruct (qr_cols_spec sn i v d (ord i) R1 cn0 M cn) as (R2 & cn2 & E2 & Z2 & G2 & C2); auto; try lia.
  { intros r c Hr Hcc. destruct (Z.eqb_spec c i) as [->|N]; cbn [andb].
    - destruct (Z.leb_spec i r); cbn [andb].
      + replace (i * ldR + r) with (i * ldR + i + (r - i)) by lia. rewrite G1 by lia. reflexivity.
      + apply (colmat_out R R1 ldR nrow ncol M i i (nrow - i) HR1 ltac:(lia) ltac:(lia) Hld S1 r i); lia.
    - apply (colmat_out R R1 ldR nrow ncol M i i (nrow - i) HR1 ltac:(lia) ltac:(lia) Hld S1 r c); lia. }
  rewrite E2. cbn [bind].
  pose proof (ld_range _ _ _ (G2 (nrow - 1) i ltac:(lia) ltac:(lia))). pose proof (ld_range _ _ _ (G2 i i ltac:(lia) ltac:(lia))).
  destruct (finish_col_spec R2 (i * ldR + i) (nrow - i) (hsign x) (hnorm x (nrow - i))) as (R3 & E3 & S3 & G3); try lia. rewrite E3. cbn [bind].
  set (M' := reflected M i v d) in *. set (cn' := fun c => if c <=? i then cn c else renorm sn M' cn i c) in *.
  change (fun c : Z => if c <=? i then f_cn s (sw i piv c) else renorm sn M' cn i c) with cn'.
  rewrite (find_pivot_spec cn2 (i + 1) ncol cn'); try lia.
  2:{ intros j Hj. apply C2. lia. }
  cbn [bind]. destruct (fpiv cn' (i + 1) ncol) as (pv, np) eqn:Epv. cbn [bind].
  eexists. split; [reflexivity|]. unfold qrel. cbn [q_R q_p q_cn q_piv q_np q_rank f_M f_p f_cn f_piv f_np f_rank fst snd].
  split; [|split; [exact Hp1|]]; [|split; [exact C2|]].
  - intros r c Hr Hcc. destruct (Z.eq_dec c i) as [->|N].
    + destruct (Z.lt_ge_cases r i).
      * rewrite (same_out_ld _ _ _ _ _ S3) by lia. rewrite G2 by lia. destruct (Z.leb_spec i r); [lia|]. rewrite andb_false_r. reflexivity.
      * replace (i * ldR + r) with (i * ldR + i + (r - i)) by lia. rewrite G3 by lia. unfold M', reflected. rewrite Z.ltb_irrefl. destruct (Z.ltb_spec r i); [lia|]. cbn [orb]. rewrite Z.eqb_refl.
        destruct (Z.eqb_spec (r - i) 0); destruct (Z.eqb_spec r i); try lia; reflexivity.
    + rewrite (same_out_ld _ _ _ _ _ S3).
      2:{ intros HH. apply N. apply (cell_in ldR nrow i i c r (nrow - i)); lia. }
      rewrite G2 by lia. destruct (Z.eqb_spec c i); [lia|]. reflexivity.
  - split; [rewrite (proj1 S3), Z2, (proj1 S1); exact Zr1|]. split; [exact Zp1|]. do 3 (split; [reflexivity|]).
    intros Hlt _. pose proof (fpiv_range cn' (i + 1) ncol Hlt) as B. rewrite Epv in B. exact B.
Qed.

(** ** The whole factorisation *)
Definition fq_init (A : Z -> Z -> F) : fst_ :=
  let cn := fun c => fnrm2 (colv A 0 c nrow) in
  let pv := fpiv cn 0 ncol in FSt A (fun c => c) cn (fst pv) (snd pv) (-1).
Definition fq_run (rel : bool) (tol_rank : Z) (tol_norm : F) (A : Z -> Z -> F) : option fst_ :=
  let s := fq_init A in
  zfor 0 (Z.min nrow ncol) (fq_step (Z.min (Z.min nrow ncol) tol_rank) (stop_norm dbl rel nrow tol_norm (f_np s))) s.
Definition final_rank (s : fst_) : Z := if f_rank s =? -1 then Z.min nrow ncol else f_rank s.

Lemma qr_init_spec (ord0 : list Z) (R : mem F) A (p : mem Z) : 0 <= nrow <= ldR -> 0 <= ncol -> Permutation ord0 (zrange 0 ncol) -> colmat R ldR nrow ncol A -> ncol <= zlen p ->
  exists p' cn, par_for ord0 (qr_init nrow ldR R) (p, alloc ncol) = Some (p', cn) /\ zlen p' = zlen p /\ holdsv p' ncol (fun c => c) /\ holdsv cn ncol (fun c => fnrm2 (colv A 0 c nrow)).
Proof.
  intros Hn Hnc HP HR Hp.
  destruct (par_for_inv (fun done (x : mem Z * mem F) => zlen (fst x) = zlen p /\ zlen (snd x) = ncol /\
    forall j, In j done -> ld (fst x) j = Some j /\ ld (snd x) j = Some (fnrm2 (colv A 0 j nrow))) ord0 (qr_init nrow ldR R) (p, alloc ncol) []) as ((p' & cn) & E & Zp & Zc & G).
  - cbn [fst snd]. split; auto. split; [apply zlen_alloc; lia|]. intros j [].
  - intros done j todo (p1 & c1) Ed (Z1 & Z2 & G). cbn [fst snd app] in *.
    assert (Hin : In j (zrange 0 ncol)) by (apply (Permutation_in _ HP); rewrite Ed; apply in_or_app; right; now left). apply In_zrange in Hin.
    unfold qr_init. destruct (st_Some p1 j j) as (p2 & E2); [lia|]. rewrite E2. cbn [bind].
    rewrite (nrm2_spec R (j * ldR) nrow (fun k => A (0 + k) j)).
    2:{ intros k Hk. rewrite HR by lia. do 2 f_equal; lia. }
    cbn [bind]. fold (colv A 0 j nrow). destruct (st_Some c1 j (fnrm2 (colv A 0 j nrow))) as (c2 & E3); [lia|]. rewrite E3. cbn [bind].
    exists (p2, c2). split; auto. cbn [fst snd]. split; [rewrite (st_zlen _ _ _ _ E2); auto|]. split; [rewrite (st_zlen _ _ _ _ E3); auto|].
    intros k Hk. rewrite (ld_st _ _ _ _ k E2), (ld_st _ _ _ _ k E3). destruct (Z.eqb_spec j k) as [->|N]; auto.
    apply in_app_or in Hk as [Hk|[Hk|[]]]; [auto|lia].
  - cbn [fst snd app] in *. exists p', cn. split; auto. split; auto.
    assert (In_ord : forall j, 0 <= j < ncol -> In j ord0) by (intros j Hj; apply (Permutation_in _ (Permutation_sym HP)); apply In_zrange; lia).
    split; intros j Hj; apply G; auto.
Qed.

Theorem pivot_qr_sim rel tol_rank tol_norm ord0 ord (R : mem F) A (p : mem Z) : 0 <= nrow <= ldR -> 0 <= ncol ->
  Permutation ord0 (zrange 0 ncol) -> (forall i, 0 <= i < Z.min nrow ncol -> Permutation (ord i) (zrange 0 (ncol - i - 1))) -> colmat R ldR nrow ncol A -> ncol <= zlen p ->
  match fq_run rel tol_rank tol_norm A with
  | Some s => exists R' p', pivot_qr dbl rel nrow ncol ldR tol_rank tol_norm ord0 ord R p = Some (R', p', final_rank s) /\
      zlen R' = zlen R /\ zlen p' = zlen p /\ colmat R' ldR nrow ncol (f_M s) /\ holdsv p' ncol (f_p s)
  | None => pivot_qr dbl rel nrow ncol ldR tol_rank tol_norm ord0 ord R p = None
  end.
Proof.
  intros Hn Hnc HP0 HP HR Hp. unfold pivot_qr, fq_run.
  destruct (qr_init_spec ord0 R A p Hn Hnc HP0 HR Hp) as (p1 & cn & -> & Zp & Hp1 & Hc). cbn [bind].
  rewrite (find_pivot_spec cn 0 ncol (fun c => fnrm2 (colv A 0 c nrow))) by auto. cbn [bind].
  assert (Hpv : 0 < ncol -> 0 <= fst (fpiv (fun c => fnrm2 (colv A 0 c nrow)) 0 ncol) < ncol) by apply fpiv_range.
  change (snd (fpiv (fun c => fnrm2 (colv A 0 c nrow)) 0 ncol)) with (f_np (fq_init A)).
  unfold fq_init in *. destruct (fpiv (fun c => fnrm2 (colv A 0 c nrow)) 0 ncol) as (pv & np). cbn [fst snd f_np bind] in *.
  set (sn := stop_norm dbl rel nrow tol_norm np). set (sr := Z.min (Z.min nrow ncol) tol_rank).
  pose proof (zfor_sim (qrel (zlen R) (zlen p)) (qr_step dbl nrow ncol ldR sr sn ord) (fq_step sr sn) 0 (Z.min nrow ncol)
    (QSt R p1 cn pv np (-1)) (FSt A (fun c => c) (fun c => fnrm2 (colv A 0 c nrow)) pv np (-1))) as SIM.
  destruct (zfor 0 (Z.min nrow ncol) (fq_step sr sn) _) as [s|].
  - destruct SIM as (m & E & (H1 & H2 & H3 & H4 & H5 & H6 & H7 & H8 & H9)); [lia| |intros; apply qr_step_sim; auto; lia|].
    { unfold qrel. cbn [q_R q_p q_cn q_piv q_np q_rank f_M f_p f_cn f_piv f_np f_rank]. repeat (split; [assumption || reflexivity|]). auto. }
    rewrite E. cbn [bind]. unfold final_rank. rewrite H8. exists (q_R m), (q_p m). auto.
  - rewrite SIM; [reflexivity|lia| |intros; apply qr_step_sim; auto; lia].
    unfold qrel. cbn [q_R q_p q_cn q_piv q_np q_rank f_M f_p f_cn f_piv f_np f_rank]. repeat (split; [assumption || reflexivity|]). auto.
Qed.
End QR.
