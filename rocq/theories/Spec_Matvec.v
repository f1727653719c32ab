(** What the matvec must compute: the H2 matrix described by the stored blocks. *)
From Coq Require Import ZArith List Lia Bool Permutation.
From Verif Require Import Base Mem Num CRing Model_Utils Spec_Utils Model_Dense Spec_Dense Model_Partition Spec_Tree Model_Pairs Spec_Pairs Model_Matvec.
Import ListNotations.
Open Scope Z_scope.

Definition val {A} (d : A) (o : option A) : A := match o with Some v => v | None => d end.

Section Spec.
Context {F : num} {K : cring}.
Local Open Scope ring_K.
Implicit Type h : h2rep F K.

(** ** Reading the representation *)
Definition nchild h i : Z := val 0 (ld (a_nchild (h_t h)) i).
Definition child h i k : Z := val 0 (ld (a_children (h_t h)) (i * h_maxchild h + k)).
Definition level h i : Z := val 0 (ld (a_level (h_t h)) i).
(** First and last row of the matrix belonging to node i, and their number. *)
Definition mfirst h i : Z := val 0 (ld (h_mcl h) (i * 2)).
Definition mlast h i : Z := val 0 (ld (h_mcl h) (i * 2 + 1)).
Definition msize h i : Z := mlast h i - mfirst h i + 1.
Definition inside h i p : bool := (mfirst h i <=? p) && (p <=? mlast h i).
(** Entry (r, c) and number of columns of U of node i. *)
Definition Uval h i r c : K :=
  match getz (h_U h) i with Some U => val c0 (ld (dm_data U) (r * dm_ld U + c)%Z) | None => c0 end.
Definition rank h i : Z := match getz (h_U h) i with Some U => dm_ncol U | None => 0 end.
(** Entry (r, c) of the k-th stored B block, D block. *)
Definition Bval h k r c : K := val c0 (ld (h_Bdata h) (val 0 (ld (h_Bptr h) k) + r * val 0 (ld (h_Bncol h) k) + c)%Z).
Definition Dval h k r c : K := val c0 (ld (h_Ddata h) (val 0 (ld (h_Dptr h) k) + r * val 0 (ld (h_Dncol h) k) + c)%Z).
Definition Bnrow h k : Z := val 0 (ld (h_Bnrow h) k).
Definition Bncol h k : Z := val 0 (ld (h_Bncol h) k).
Definition Dnrow h k : Z := val 0 (ld (h_Dnrow h) k).
Definition Dncol h k : Z := val 0 (ld (h_Dncol h) k).
(** The k-th leaf. *)
Definition leaf h k : Z := val 0 (ld (a_height_nodes (h_t h)) k).

(** ** The matrix *)

(** Rows of U of a non-leaf node are those of its children's columns, one child
    after the other; the k-th child's start at [choff h i k]. *)
Definition choff h i k : Z := zsumf (fun k' => rank h (child h i k')) 0 k.

(** The nested basis: entry (p, c) of the expanded basis matrix of node i, for a
    row p of the whole matrix. [n] bounds the depth below i. *)
Fixpoint basis_n h (n : nat) (i p c : Z) : K :=
  match n with
  | O => c0
  | S n' =>
    if nchild h i =? 0 then if inside h i p then Uval h i (p - mfirst h i) c else c0
    else rsum 0 (nchild h i) (fun k => rsum 0 (rank h (child h i k)) (fun d =>
           basis_n h n' (child h i k) p d * Uval h i (choff h i k + d) c))
  end.
Definition basis h (i p c : Z) : K := basis_n h (Z.to_nat (h_maxlevel h + 1 - level h i)) i p c.

(** The factor by which the pair (n, m) enters on n's side: n's expanded basis
    if n is not above m; otherwise n is not compressed and the block's k-th
    row/column is n's k-th own row. *)
Definition side h (n m k p : Z) : K :=
  if level h m <=? level h n then basis h n p k else if p =? mfirst h n + k then c1 else c0.

(** The block of the k-th admissible pair (n0, n1): side * B * side^T. *)
Definition adm_block h (k p q : Z) : K :=
  match getz (h_adm h) k with
  | Some (n0, n1) => rsum 0 (Bnrow h k) (fun r => rsum 0 (Bncol h k) (fun c =>
      side h n0 n1 r p * Bval h k r c * side h n1 n0 c q))
  | None => c0
  end.
(** The block of the k-th inadmissible pair and of the k-th leaf. *)
Definition inadm_block h (k p q : Z) : K :=
  match getz (h_inadm h) k with
  | Some (n0, n1) => if inside h n0 p && inside h n1 q
      then Dval h (h_nleaf h + k) (p - mfirst h n0) (q - mfirst h n1) else c0
  | None => c0
  end.
Definition diag_block h (k p q : Z) : K :=
  if inside h (leaf h k) p && inside h (leaf h k) q
  then Dval h k (p - mfirst h (leaf h k)) (q - mfirst h (leaf h k)) else c0.

(** The H2 matrix, in H2Pack's own ordering of the rows: the diagonal blocks, and
    each pair's block and its transpose. *)
Definition Hmat h (p q : Z) : K :=
  rsum 0 (h_nleaf h) (fun k => diag_block h k p q)
  + rsum 0 (zlen (h_inadm h)) (fun k => inadm_block h k p q + inadm_block h k q p)
  + rsum 0 (zlen (h_adm h)) (fun k => adm_block h k p q + adm_block h k q p).

(** ** Well-formed representations *)

(** Cells [p, p+n) of the array are set. *)
Definition filled_at {A} (m : mem A) (p n : Z) : Prop := 0 <= p /\ forall k, 0 <= k < n -> exists v, ld m (p + k) = Some v.

(** Block boundaries of the items 0..n-1: non-decreasing from 0, and the items
    left out at the end are empty. *)
Definition blocks_ok (blk : int_vec) (n : Z) (size : Z -> Z) : Prop :=
  exists b, iv_holds blk b /\ 1 <= zlen b /\ getz b 0 = Some 0 /\
    (forall k, 0 <= k -> k + 1 < zlen b -> nthz b k <= nthz b (k + 1)) /\
    nthz b (zlen b - 1) <= n /\
    forall k, nthz b (zlen b - 1) <= k < n -> size k = 0.

(** [rmin] is the least rank a node on a compressed level may have; see [rep_ok]
    below. *)
Record rep_ok_rank (rmin : Z) h : Prop := {
  ro_dims : 1 <= h_ptdim h /\ 1 <= h_kdim h /\ 1 <= h_nthread h /\ h_maxchild h = 2 ^ h_ptdim h /\
    h_kms h = (h_kdim h * h_npoint h)%Z /\ 0 <= h_minlevel h <= h_maxlevel h;
  ro_tree : cluster_tree (h_ptdim h) (h_npoint h) (h_nnode h) (h_maxlevel h) (h_nleaf h) (h_t h);
  (* mat_cluster: point ranges times krnl_dim *)
  ro_mcl : forall i s e, 0 <= i < h_nnode h -> ld (a_cluster (h_t h)) (i * 2 + 0) = Some s ->
    ld (a_cluster (h_t h)) (i * 2 + 1) = Some e ->
    ld (h_mcl h) (i * 2) = Some (h_kdim h * s)%Z /\ ld (h_mcl h) (i * 2 + 1) = Some (h_kdim h * (e + 1) - 1)%Z;
  (* bases: present, of rank at least rmin and matching the children, from min_adm_level on; empty above *)
  ro_U : zlen (h_U h) = h_nnode h /\ forall i U, getz (h_U h) i = Some U ->
    (level h i < h_minlevel h -> dm_ncol U = 0) /\
    (h_minlevel h <= level h i -> rmin <= dm_ncol U /\
       dm_nrow U = (if nchild h i =? 0 then msize h i else choff h i (nchild h i)) /\
       fits (dm_nrow U) (dm_ncol U) 0 (dm_ld U) (zlen (dm_data U)) /\
       forall r c, 0 <= r < dm_nrow U -> 0 <= c < dm_ncol U -> exists v, ld (dm_data U) (r * dm_ld U + c) = Some v);
  (* admissible pairs and their blocks *)
  ro_adm : forall k n0 n1, getz (h_adm h) k = Some (n0, n1) ->
    0 <= n0 < h_nnode h /\ 0 <= n1 < h_nnode h /\ n0 <> n1 /\ h_minlevel h <= Z.max (level h n0) (level h n1);
  ro_nr : zlen (h_nr h) = h_nnode h /\ forall i, 0 <= i < h_nnode h -> exists n, ld (h_nr h) i = Some n /\
    ((exists k n0 n1, getz (h_adm h) k = Some (n0, n1) /\ (i = n0 \/ i = n1)) -> n <> 0);
  ro_B : forall k n0 n1, getz (h_adm h) k = Some (n0, n1) -> exists p nrow ncol,
    ld (h_Bptr h) k = Some p /\ ld (h_Bnrow h) k = Some nrow /\ ld (h_Bncol h) k = Some ncol /\
    nrow = (if level h n1 <=? level h n0 then rank h n0 else msize h n0) /\
    ncol = (if level h n0 <=? level h n1 then rank h n1 else msize h n1) /\
    filled_at (h_Bdata h) p (nrow * ncol);
  ro_Bblk : blocks_ok (h_Bblk h) (zlen (h_adm h)) (fun k => (Bnrow h k * Bncol h k)%Z);
  (* inadmissible pairs, leaves and their blocks *)
  ro_inadm : forall k n0 n1, getz (h_inadm h) k = Some (n0, n1) -> 0 <= n0 < h_nnode h /\ 0 <= n1 < h_nnode h;
  ro_D : forall k n0 n1, getz (h_inadm h) k = Some (n0, n1) -> exists p,
    ld (h_Dptr h) (h_nleaf h + k) = Some p /\ ld (h_Dnrow h) (h_nleaf h + k) = Some (msize h n0) /\
    ld (h_Dncol h) (h_nleaf h + k) = Some (msize h n1) /\ filled_at (h_Ddata h) p (msize h n0 * msize h n1);
  ro_D0 : forall k, 0 <= k < h_nleaf h -> exists p,
    ld (h_Dptr h) k = Some p /\ ld (h_Dnrow h) k = Some (msize h (leaf h k)) /\
    ld (h_Dncol h) k = Some (msize h (leaf h k)) /\ filled_at (h_Ddata h) p (msize h (leaf h k) * msize h (leaf h k));
  ro_D0blk : blocks_ok (h_D0blk h) (h_nleaf h) (fun k => (Dnrow h k * Dncol h k)%Z);
  ro_D1blk : blocks_ok (h_D1blk h) (zlen (h_inadm h)) (fun k => (Dnrow h (h_nleaf h + k) * Dncol h (h_nleaf h + k))%Z);
  (* the two permutations *)
  ro_pmt : zlen (h_fwd h) = h_kms h /\ zlen (h_bwd h) = h_kms h /\
    forall i, 0 <= i < h_kms h -> 0 <= nthz (h_fwd h) i < h_kms h /\ 0 <= nthz (h_bwd h) i < h_kms h /\
      nthz (h_bwd h) (nthz (h_fwd h) i) = i /\ nthz (h_fwd h) (nthz (h_bwd h) i) = i
}.

(** The working buffers have their sizes; their contents do not matter. *)
Definition mats_ok (n : Z) (o : option (list (dmat K))) : Prop :=
  match o with None => True | Some l => zlen l = n /\ Forall dm_ok l end.
(** ... and, for y1, the recorded size never exceeds what is allocated. *)
Definition mok (m : dmat K) : Prop := dm_ok m /\ 0 <= dm_nrow m * dm_ncol m <= zlen (dm_data m).
Definition mats_mok (n : Z) (o : option (list (dmat K))) : Prop :=
  match o with None => True | Some l => zlen l = n /\ Forall mok l end.
Record state_ok h (s : mvst K) : Prop := {
  st_y0 : mats_ok (h_nnode h) (s_y0 s);
  st_y1 : mats_mok (h_nnode h) (s_y1 s);
  st_ty : zlen (s_ty s) = h_nthread h /\ Forall (fun y => zlen y = h_kms h) (s_ty s);
  st_m0 : zlen (s_m0 s) = h_nthread h /\ Forall dm_ok (s_m0 s);
  st_px : h_kms h <= zlen (s_px s); st_py : h_kms h <= zlen (s_py s); st_yT : zlen (s_yT s) = h_kms h
}.
End Spec.
Arguments ro_dims {F K rmin} h _.
Arguments ro_tree {F K rmin} h _.
Arguments ro_mcl {F K rmin} h _.
Arguments ro_U {F K rmin} h _.
Arguments ro_adm {F K rmin} h _.
Arguments ro_nr {F K rmin} h _.
Arguments ro_B {F K rmin} h _.
Arguments ro_Bblk {F K rmin} h _.
Arguments ro_inadm {F K rmin} h _.
Arguments ro_D {F K rmin} h _.
Arguments ro_D0 {F K rmin} h _.
Arguments ro_D0blk {F K rmin} h _.
Arguments ro_D1blk {F K rmin} h _.
Arguments ro_pmt {F K rmin} h _.
(** Every node on a compressed level has positive rank (see Props_Matvec.v for what
    happens otherwise). *)
Notation rep_ok := (rep_ok_rank 1).

(** ** Exact compression (C22) *)
Section Exact.
Context {F : num} {K : cring}.
Local Open Scope ring_K.
Variable h : h2rep F K.
(** The kernel matrix, in the user's ordering. *)
Variable KM : Z -> Z -> K.

(** Entry (p, q) of the kernel matrix in H2Pack's ordering: row p there is the
    user's row fwd[p]. *)
Definition KMp (p q : Z) : K := KM (nthz (h_fwd h) p) (nthz (h_fwd h) q).

(** Every unordered pair of points is in exactly one block: a leaf's diagonal
    block, an inadmissible pair, or an admissible pair (what C17 establishes). *)
Definition covered_once : Prop := forall p q, 0 <= p < h_npoint h -> 0 <= q < h_npoint h ->
  let cov l := (coverage (h_t h) l p q + coverage (h_t h) l q p)%Z in
  (same_leaf (h_t h) (h_nnode h) p q /\ cov (h_adm h) = 0 /\ cov (h_inadm h) = 0) \/
  (~ same_leaf (h_t h) (h_nnode h) p q /\
    (cov (h_adm h) = 1 /\ cov (h_inadm h) = 0 \/ cov (h_adm h) = 0 /\ cov (h_inadm h) = 1)).

(** Each stored block is the kernel block; compressed ones after expansion. *)
Definition blocks_exact : Prop :=
  (forall k p q, 0 <= k < h_nleaf h -> inside h (leaf h k) p = true -> inside h (leaf h k) q = true ->
     Dval h k (p - mfirst h (leaf h k)) (q - mfirst h (leaf h k)) = KMp p q) /\
  (forall k n0 n1 p q, getz (h_inadm h) k = Some (n0, n1) -> inside h n0 p = true -> inside h n1 q = true ->
     Dval h (h_nleaf h + k) (p - mfirst h n0) (q - mfirst h n1) = KMp p q) /\
  (forall k n0 n1 p q, getz (h_adm h) k = Some (n0, n1) -> inside h n0 p = true -> inside h n1 q = true ->
     adm_block h k p q = KMp p q).
End Exact.
