(** Model of the AFN preconditioner of src/AFN_precond.c: farthest point sampling
    (748-856), the construction (1017-1213) and application (1240-1293), and the
    application of a Nystrom preconditioner (159-174).

    Conventions as in Model_FSAI.v.  The estimated rank (AFNi_rank_est, which uses
    random numbers) is a parameter, and so is the Nystrom branch of the
    construction (an eigenvalue decomposition).  [big] is DBL_MAX; LAPACK's potri
    is given by its contract.  Timers and deallocation are left out. *)
From Coq Require Import ZArith QArith List Lia Bool Permutation.
From Verif Require Import Base Mem Num CRing Conc Model_Utils Model_Dense Model_CSR Model_Partition Model_Matvec Model_Build Model_Matmul Spec_Lapack Blk Model_ULV Model_FSAI.
Import ListNotations.
Open Scope Z_scope.

Section FPS.
Context {F : num}.
Variable big : F.

(** AFN_precond.c:757-763: the centre of the points. *)
Definition fps_center (npt dim : Z) (coord : mem F) : option (mem F) :=
  c <- zfor 0 dim (fun i c => st c i (nlit 0%Q)) (alloc dim);
  zfor 0 dim (fun i c =>
    c <- zfor 0 npt (fun j c => a <- ld c i; x <- ld coord (i * npt + j); st c i (nadd a x)) c;
    a <- ld c i; st c i (ndiv a (nlit (inject_Z npt)))) c.

(** AFN_precond.c:777-792 (ref d = center[d]) and 819-830 (ref d = coord[d * npt +
    min_d_idx0]): squared distances of points spos, ..., epos-1 to a point. *)
Definition fps_dist (npt dim : Z) (coord : mem F) (ref : Z -> option F) (spos epos : Z) (t : mem F) : option (mem F) :=
  t <- zfor spos epos (fun j t => st t j (nlit 0%Q)) t;
  zfor 0 dim (fun d t => r <- ref d;
    zfor spos epos (fun j t => x <- ld coord (d * npt + j); a <- ld t j; let diff := nsub x r in st t j (nadd a (nmul diff diff))) t) t.

(** AFN_precond.c:794-797 (better = <) and 832-835 (better = >): the first best
    entry of v among spos, ..., epos-1. *)
Definition fps_best (better : F -> F -> bool) (v : mem F) (spos epos : Z) : option (Z * F) :=
  v0 <- ld v spos;
  zfor (spos + 1) epos (fun j (s : Z * F) => let '(idx, val) := s in x <- ld v j; Some (if better x val then (j, x) else (idx, val))) (spos, v0).

(** AFN_precond.c:804-809 and 842-847: the best of the threads' results. *)
Definition fps_reduce (better : F -> F -> bool) (nt : Z) (midx : mem Z) (mval : mem F) : option Z :=
  v0 <- ld mval 0;
  '(i2, _) <- zfor 1 nt (fun t (s : Z * F) => let '(idx, val) := s in x <- ld mval t; Some (if better x val then (t, x) else (idx, val))) (0, v0);
  ld midx i2.

(** The arrays of AFNi_FPS: tmp_d, min_d, min_d_idx, min_d_val. *)
Definition fpsst := (mem F * mem F * mem Z * mem F)%type.

(** AFN_precond.c:774-799: the first pass of thread tid. *)
Definition fps_first (npt dim nt : Z) (coord center : mem F) (tid : Z) (s : fpsst) : option fpsst :=
  let '(tmp_d, min_d, midx, mval) := s in
  '(spos, len) <- calc_block_spos_len npt nt tid;
  min_d <- zfor spos (spos + len) (fun j m => st m j big) min_d;
  tmp_d <- fps_dist npt dim coord (fun d => ld center d) spos (spos + len) tmp_d;
  '(bi, bv) <- fps_best nlt tmp_d spos (spos + len);
  midx <- st midx tid bi; mval <- st mval tid bv;
  Some (tmp_d, min_d, midx, mval).

(** AFN_precond.c:816-837: a later pass of thread tid; last is min_d_idx0. *)
Definition fps_next (npt dim nt : Z) (coord : mem F) (last : Z) (tid : Z) (s : fpsst) : option fpsst :=
  let '(tmp_d, min_d, midx, mval) := s in
  '(spos, len) <- calc_block_spos_len npt nt tid;
  tmp_d <- fps_dist npt dim coord (fun d => ld coord (d * npt + last)) spos (spos + len) tmp_d;
  min_d <- zfor spos (spos + len) (fun j m => a <- ld tmp_d j; b <- ld m j; st m j (if nlt a b then a else b)) min_d;
  '(bi, bv) <- fps_best (fun a b => nlt b a) min_d spos (spos + len);
  midx <- st midx tid bi; mval <- st mval tid bv;
  Some (tmp_d, min_d, midx, mval).

(** AFN_precond.c:748-856 AFNi_FPS with nt threads; between two barriers the
    threads run in the order ord i (i: number of the pass). *)
Definition FPS (nt : Z) (ord : Z -> list Z) (npt dim : Z) (coord : mem F) (k : Z) (idx : mem Z) : option (mem Z) :=
  center <- fps_center npt dim coord;
  s <- in_order (ord 0) (fps_first npt dim nt coord center) (alloc npt, alloc npt, alloc nt, alloc nt);
  m <- (let '(_, _, midx, mval) := s in fps_reduce nlt nt midx mval);
  idx <- st idx 0 m;
  r <- zfor 1 k (fun i (r : fpsst * Z * mem Z) =>
      let '(s, last, idx) := r in
      s <- in_order (ord i) (fps_next npt dim nt coord last) s;
      m <- (let '(_, _, midx, mval) := s in fps_reduce (fun a b => nlt b a) nt midx mval);
      idx <- st idx i m;
      Some (s, m, idx)) (s, m, idx);
  Some (snd r).

(** AFN_precond.c:1156-1160: the points not selected are appended. *)
Definition fps_perm (n n1 : Z) (perm : mem Z) : option (mem Z) :=
  flag <- zfor 0 n (fun i f => st f i 0) (alloc n);
  flag <- zfor 0 n1 (fun i f => p <- ld perm i; st f p 1) flag;
  '(perm, _) <- zfor 0 n (fun i (s : mem Z * Z) => let '(perm, idx) := s in
      f <- ld flag i; if f =? 0 then perm <- st perm idx i; Some (perm, idx + 1) else Some (perm, idx)) (perm, n1);
  Some perm.
End FPS.

Section AFN.
Context {F : num} {K : cring}.
Local Open Scope ring_K.
Variable kern : list F -> list F -> Z -> Z -> K.
Variable la : lapack K.
Variable rsq : K -> option K.

(** H2Pack_utils.c:47-66 H2P_eval_kernel_matrix_OMP with nt threads, running in
    the order ord; the coordinates at offsets o0, o1 of their arrays. *)
Definition eval_kernel_OMP (nt : Z) (ord : list Z) (dim : Z) (c0 : mem F) (o0 ld0 n0 : Z) (c1 : mem F) (o1 ld1 n1 : Z) (kmat : mem K) (ldk : Z) : option (mem K) :=
  in_order ord (fun tid m =>
    '(spos, len) <- calc_block_spos_len n0 nt tid;
    krnl_eval kern dim 1 c0 (o0 + spos)%Z ld0 len c1 o1 ld1 n1 m (spos * ldk)%Z ldk) kmat.

(** LAPACKE_?potri(ROW_MAJOR, 'L', n, A, n): the lower triangle of A, a Cholesky
    factor L, becomes the lower triangle of (L L^T)^-1 = L^-T L^-1. *)
Definition potri_low (n : Z) (A : mem K) : option (mem K) :=
  a <- rd n n A 0 n;
  let iL := l_trsm la true true false false n n a delta in
  wr n n (fun i j => if (j <=? i)%Z then rsum 0 n (fun k => iL k i * iL k j) else a i j) A 0 n.

(** The fields of AFN_precond_s that the application uses: AFN (invK11, K12, G,
    G^T) or Nystrom (nys_M, nys_U). *)
Inductive afn_kind := IsAfn (invK11 K12 : mem K) (g : fsai K) | IsNys (M U : mem K).
Record afn := Afn { a_n : Z; a_n1 : Z; a_n2 : Z; a_perm : mem Z; a_kind : afn_kind }.

(** AFN_precond.c:1017-1108 AFNi_AFN_precond_build, h2mat = NULL; coord is
    coord_perm, whose points n1, n1 + 1, ... are coord2. *)
Definition AFN_build_afn (n1 n2 : Z) (mu : K) (K11 K12 : mem K) (coord : mem F) (dim fsai_npt : Z) (o : fsai_ord) : option afn_kind :=
  K11 <- zfor 0 n1 (fun i d => madd d (i * n1 + i)%Z mu) K11;
  '(info, K11) <- potrf_low la n1 K11;
  if negb (info =? 0)%Z then None else
  invL <- mset0 (alloc (n1 * n1)) 0 (n1 * n1)%Z;
  invL <- zfor 0 n1 (fun i d => st d (i * n1 + i)%Z c1) invL;
  invL <- trsm la true true false false n1 n1 K11 0 n1 invL 0 n1;
  V21 <- gemm true true n2 n1 n1 K12 0 n2 invL 0 n1 false (alloc (n2 * n1)) 0 n1;
  '(invK11, K12_) <- zfor 0 n1 (fun i (s : mem K * mem K) => let '(a, b) := s in
      a <- mcpy a (i * n1)%Z K11 (i * n1)%Z n1;
      b <- mcpy b (i * n2)%Z K12 (i * n2)%Z n2;
      Some (a, b)) (alloc (n1 * n1), alloc (n1 * n2));
  invK11 <- potri_low n1 invK11;
  invK11 <- zfor 0 (n1 - 1) (fun i d => zfor (i + 1) n1 (fun j d => v <- ld d (j * n1 + i)%Z; st d (i * n1 + j)%Z v) d) invK11;
  g <- FSAI_precond_build kern la rsq fsai_npt n2 dim coord n1 (n1 + n2)%Z n1 V21 mu o;
  Some (IsAfn invK11 K12_ g).

(** The orders of the parallel regions of the construction. *)
Record afn_ord := AOrd { ao_fps : Z -> list Z; ao_k11 : list Z; ao_k12 : list Z; ao_fsai : fsai_ord }.

(** AFN_precond.c:1111-1213 AFN_precond_build; est_rank is the result of
    AFNi_rank_est and nys the result of Nys_precond_build_ on K11 and K12. *)
Definition AFN_precond_build (big : F) (nt npt dim : Z) (coord : mem F) (mu : K) (max_k fsai_npt : Z) (est_rank : Z)
    (nys : Z -> Z -> mem K -> mem K -> option (mem K * mem K)) (o : afn_ord) : option afn :=
  let n := npt in
  let n1 := if (est_rank <? max_k)%Z then est_rank else max_k in
  let n2 := (n - n1)%Z in
  perm <- FPS big nt (ao_fps o) npt dim coord n1 (alloc n);
  perm <- fps_perm n n1 perm;
  coord_perm <- gather_columns dim npt coord 0 npt perm 0 (alloc (npt * dim)) npt;
  K11 <- eval_kernel_OMP nt (ao_k11 o) dim coord_perm 0 n n1 coord_perm 0 n n1 (alloc (n1 * n1)) n1;
  K12 <- eval_kernel_OMP nt (ao_k12 o) dim coord_perm 0 n n1 coord_perm n1 n n2 (alloc (n1 * n2)) n2;
  if (est_rank <? max_k)%Z then
    '(M, U) <- nys n1 n2 K11 K12;
    Some (Afn n n1 n2 perm (IsNys M U))
  else
    k <- AFN_build_afn n1 n2 mu K11 K12 coord_perm dim fsai_npt (ao_fsai o);
    Some (Afn n n1 n2 perm k).

(** AFN_precond.c:159-174 Nys_precond_apply_: y and t. *)
Definition Nys_precond_apply (n1 n : Z) (M U : mem K) (x y t : mem K) : option (mem K * mem K) :=
  t <- gemm true false n1 1 n U 0 n1 x 0 1 false t 0 1;
  y <- mcpy y 0 x 0 n;
  y <- gemm_neg false n 1 n1 U 0 n1 t 0 1 y 0 1;
  t <- zfor 0 n1 (fun i t => a <- ld t i; b <- ld M i; st t i (a * b)) t;
  y <- gemm false false n 1 n1 U 0 n1 t 0 1 true y 0 1;
  Some (y, t).

(** AFN_precond.c:1240-1293 AFN_precond_apply: y and the work arrays px, py, t1,
    t2 of the object. *)
Definition AFN_precond_apply (a : afn) (x y px py t1 t2 : mem K) : option (mem K * (mem K * mem K * mem K * mem K)) :=
  let n := a_n a in let n1 := a_n1 a in let n2 := a_n2 a in
  px <- zfor 0 n (fun i d => p <- ld (a_perm a) i; v <- ld x p; st d i v) px;
  '(py, t1, t2) <- match a_kind a with
    | IsNys M U => '(py, t1) <- Nys_precond_apply n1 n M U px py t1; Some (py, t1, t2)
    | IsAfn invK11 K12 g =>
        t1 <- gemm false false n1 1 n1 invK11 0 n1 px 0 1 false t1 0 1;
        t1 <- mcpy t1 n1 px n1 n2;
        t1 <- gemm_neg true n2 1 n1 K12 0 n2 t1 0 1 t1 n1 1;
        '(py, t2) <- FSAI_precond_apply g n2 t1 n1 py n1 t2 n1;
        t2 <- mcpy t2 0 px 0 n1;
        t2 <- gemm_neg false n1 1 n2 K12 0 n2 py n1 1 t2 0 1;
        py <- gemm false false n1 1 n1 invK11 0 n1 t2 0 1 false py 0 1;
        Some (py, t1, t2)
    end;
  y <- zfor 0 n (fun i y => p <- ld (a_perm a) i; v <- ld py i; st y p v) y;
  Some (y, (px, py, t1, t2)).
End AFN.
Arguments afn K : clear implicits. Arguments afn_kind K : clear implicits.
