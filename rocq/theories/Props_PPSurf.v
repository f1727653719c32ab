(** Properties of the proxy points on box surfaces (C69). *)
From Coq Require Import ZArith Reals List Lia Lra Bool.
From Verif Require Import Base Mem Model_Dense Model_Nys Proof_BJLeaf Proof_FSAIKnn Model_PPSurf Spec_PPSurf Proof_PPSurf.
Import ListNotations.
Open Scope Z_scope.

(** C69: in 2 or 3 dimensions, with at most one extra coordinate, every level from
    min_level to max_level gets the same number npt of points, the smallest number of
    the form 2 d m^(d-1) that is at least min_npt; the points of a level lie on the
    surface of the box of half width (1 + 2 ALPHA_H2) (max_L / 2^level) / 2 around 0, cover
    the m^(d-1) grid points of each of its 2 d sides, and have extra coordinate 0;
    lower levels get none. *)
Theorem C69_surface_proxy_points d xpt min_npt max_level min_level max_L :
  2 <= d <= 3 -> d <= xpt <= d + 1 -> 1 <= min_npt -> 0 <= min_level <= max_level + 1 -> (0 < max_L)%R ->
  exists pp m npt, gen_pp_surface d xpt min_npt max_level min_level max_L = Some (Some pp) /\ zlen pp = max_level + 1 /\
    1 <= m /\ npt = 2 * d * m ^ (d - 1) /\ 2 * d * (m - 1) ^ (d - 1) < min_npt <= npt /\
    (forall level, 0 <= level < min_level -> getz pp level = Some None) /\
    forall level, min_level <= level <= max_level -> exists M P, ld pp level = Some M /\ point_matrix M xpt npt P /\
      let a := ((1 + 2 * alpha_H2) * (max_L / 2 ^ Z.to_nat level) / 2)%R in
      (forall k, 0 <= k < npt -> on_box d a (P k) /\ forall r, d <= r < xpt -> P k r = 0%R) /\
      forall ax s c, 0 <= ax < d -> (s = 1 \/ s = -1)%R -> (forall r, 0 <= r < d -> 0 <= c r < m) ->
        exists k, 0 <= k < npt /\ forall r, 0 <= r < d -> P k r = grid_point m ax s a c r.
Proof.
  intros Hd Hx Hn Hl HL. unfold gen_pp_surface.
  destruct (Z.ltb_spec d 2); [lia|]. destruct (Z.ltb_spec 3 d); [lia|]. cbn [orb].
  (* the extra coordinate *)
  assert (Ext : forall npt L (u : mem R), 0 <= npt -> npt = zlen L -> zlen u = xpt * npt -> hL d npt u L ->
    exists u', (if d <? xpt then zfor 0 npt (fun i u => st u (npt * d + i) 0%R) u else Some u) = Some u' /\
      forall r k P, 0 <= r < xpt -> getz L k = Some P -> ld u' (r * npt + k) = Some (if r <? d then nR P r else 0%R)).
  { intros npt L u H1 H2 H3 H4. destruct (Z.ltb_spec d xpt).
    - destruct (st_loop (fun _ => 0%R) (npt * d) npt u) as (u' & E & Zu & Lu); try nia. exists u'. split; auto.
      intros r k P Hr HP. pose proof (getz_range _ _ _ HP) as Hk. rewrite Lu. destruct (Z.ltb_spec r d).
      + destruct (Z.leb_spec (npt * d) (r * npt + k)); [nia|]. cbn [andb]. apply H4; auto. lia.
      + assert (r = d) by lia. subst r. destruct (Z.leb_spec (npt * d) (d * npt + k)), (Z.ltb_spec (d * npt + k) (npt * d + npt)); cbn [andb]; auto; nia.
    - exists u. split; auto. intros r k P Hr HP. destruct (Z.ltb_spec r d); [|lia]. apply H4; auto. lia. }
  destruct (Z.eq_dec d 2) as [->|Hd2].
  - change (2 =? 2) with true. change (2 =? 3) with false. cbv iota zeta. set (m := Z.quot (min_npt + 3) 4).
    assert (Hm : 4 * m <= min_npt + 3 < 4 * m + 4). { pose proof (Z.quot_rem' (min_npt + 3) 4). pose proof (Z.rem_bound_pos (min_npt + 3) 4). unfold m. lia. }
    clearbody m. unfold Rdiv_opt. destruct (Req_EM_T (IZR (m + 1)) 0) as [Q|_]; [apply eq_IZR in Q; lia|]. cbn [bind].
    destruct (unit2_spec m (2 / IZR (m + 1)) ltac:(lia) (alloc (xpt * (m * 4))) (m * 4)) as (u & Eu & Zu & Hu); auto; [rewrite zlen_alloc; nia|].
    cbn [bind]. rewrite Eu. cbn [bind]. rewrite zlen_alloc in Zu by nia.
    pose proof (L2_len (2 / IZR (m + 1)) m ltac:(lia)) as LL.
    destruct (Ext (m * 4) (L2 (2 / IZR (m + 1)) m) u) as (u' & Eu' & Hu'); auto; try lia. rewrite Eu'. cbn [bind].
    destruct (levels_spec 2 xpt m (m * 4) (L2 (2 / IZR (m + 1)) m) u' max_level min_level max_L) as (pp & Ep & Zp & P1 & P2); auto; try lia.
    { apply good2. lia. }
    exists pp, m, (m * 4). split; [exact Ep|]. split; auto. split; [lia|]. change (2 - 1) with 1. rewrite !Z.pow_1_r. split; [lia|]. split; [lia|]. auto.
  - assert (d = 3) by lia. subst d. change (3 =? 2) with false. change (3 =? 3) with true. cbv iota zeta. set (m := ceil (sqrt (IZR min_npt / 6))).
    destruct (axis3 min_npt Hn) as (M1 & M2 & M3). fold m in M1, M2, M3.
    clearbody m. unfold Rdiv_opt. destruct (Req_EM_T (IZR (m + 1)) 0) as [Q|_]; [apply eq_IZR in Q; lia|]. cbn [bind].
    destruct (unit3_spec m (2 / IZR (m + 1)) ltac:(lia) (alloc (xpt * (m * m * 6))) (m * m * 6)) as (u & Eu & Zu & Hu); auto; [rewrite zlen_alloc; nia|].
    rewrite Eu. cbn [bind]. rewrite zlen_alloc in Zu by nia.
    pose proof (L3_len m (2 / IZR (m + 1)) ltac:(lia) m ltac:(lia)) as LL.
    destruct (Ext (m * m * 6) (L3 m (2 / IZR (m + 1)) m) u) as (u' & Eu' & Hu'); auto; try nia. rewrite Eu'. cbn [bind].
    destruct (levels_spec 3 xpt m (m * m * 6) (L3 m (2 / IZR (m + 1)) m) u' max_level min_level max_L) as (pp & Ep & Zp & P1 & P2); auto; try nia.
    { apply good3. lia. }
    exists pp, m, (m * m * 6). split; [exact Ep|]. split; auto. split; [lia|]. change (3 - 1) with 2. rewrite !Z.pow_2_r. split; [lia|]. split; [lia|]. auto.
Qed.
Print Assumptions C69_surface_proxy_points.

(** Other dimensions are refused: the pointer is not set. *)
Theorem C69_other_dimensions d xpt min_npt max_level min_level max_L : ~ 2 <= d <= 3 ->
  gen_pp_surface d xpt min_npt max_level min_level max_L = Some None.
Proof. intros H. unfold gen_pp_surface. destruct (Z.ltb_spec d 2), (Z.ltb_spec 3 d); cbn [orb]; auto; lia. Qed.
Print Assumptions C69_other_dimensions.

(** C69 fails with two extra coordinates: the second one is read without having been set. *)
Theorem C69_two_extra_coordinates_refuted : gen_pp_surface 2 4 1 0 0 1 = None.
Proof.
  unfold gen_pp_surface. cbv -[Rplus Rmult Rinv Rdiv IZR Req_EM_T alpha_H2 Ropp].
  repeat match goal with |- context [Req_EM_T ?a ?b] => destruct (Req_EM_T a b) end; reflexivity.
Qed.
Print Assumptions C69_two_extra_coordinates_refuted.

(** Example: 3 dimensions, at least 20 points: m = 2 and 24 points per level. *)
Example ex_points : exists pp m npt, gen_pp_surface 3 3 20 4 2 10 = Some (Some pp) /\ npt = 6 * m ^ 2 /\ 6 * (m - 1) ^ 2 < 20 <= npt /\ m = 2 /\ npt = 24.
Proof.
  destruct (C69_surface_proxy_points 3 3 20 4 2 10) as (pp & m & npt & E & _ & M1 & N1 & N2 & _); try lia; try lra.
  change (3 - 1) with 2 in *. exists pp, m, npt. assert (m = 2) by nia. subst m. repeat split; auto; nia.
Qed.
