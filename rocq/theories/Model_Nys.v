(** Model of Nys_precond_build_ (src/AFN_precond.c:35-147; NYSTROM_SVD_DIRECT is
    not defined), the Nystrom branch of the AFN preconditioner's construction.

    Numbers are reals.  [la] gives potrf and trsm, [syevd n A] gives the
    eigenvectors (as columns) and eigenvalues of the symmetric matrix A, [gap x] is
    NEXTAFTER(x, x + 1) - x and [eps] is D_EPS.  Timers and deallocation are left
    out; the sums of the OpenMP reduction are taken in increasing order. *)
From Coq Require Import ZArith Reals List Lia Bool.
From Verif Require Import Base Mem Num CRing FNum Model_Utils Model_Dense Model_Matvec Model_Matmul Spec_Lapack Blk Model_ULV Model_FSAI Model_AFN.
Import ListNotations.
Open Scope Z_scope.

Definition Rltb (a b : R) : bool := if Rlt_dec a b then true else false.
(** Division; a zero divisor is an error. *)
Definition Rdiv_opt (a b : R) : option R := if Req_EM_T b 0 then None else Some (a / b)%R.

(** AFN_precond.c:100: cblas_?syrk(RowMajor, Upper, Trans, n, k, 1, M, n, 0, C, n):
    the upper triangle of C := M^T M. *)
Definition syrk_upper (n k : Z) (M C : mem Rring) : option (mem Rring) :=
  m <- rd k n M 0 n;
  zfor 0 n (fun i d => zfor i n (fun j d => st d (i * n + j) (@rsum Rring 0 k (fun l => m l i * m l j)%R)) d) C.

(** AFN_precond.c:104: LAPACKE_?syevd(ROW_MAJOR, 'V', 'U', n, A, n, S): the matrix is
    the symmetric one given by the upper triangle of A; eigenvectors to A,
    eigenvalues to S. *)
Definition syevd_upper (syevd : Z -> (Z -> Z -> R) -> (Z -> Z -> R) * (Z -> R)) (n : Z) (A Sv : mem Rring) : option (mem Rring * mem Rring) :=
  B <- zfor 0 n (fun i b => zfor 0 n (fun j b => v <- ld A (if i <=? j then i * n + j else j * n + i); st b (i * n + j) v) b) (alloc (n * n));
  a <- rd n n B 0 n;
  let '(V, s) := syevd n a in
  A <- @wr Rring n n V A 0 n;
  Sv <- zfor 0 n (fun i d => st d i (s i : Rring)) Sv;
  Some (A, Sv).

Section Nys.
Variable la : lapack Rring.
Variable syevd : Z -> (Z -> Z -> R) -> (Z -> Z -> R) * (Z -> R).
Variables (gap : R -> R) (eps : R).

(** AFN_precond.c:105-115: S := sqrt(S), and the reciprocals, zero below the
    tolerance. *)
Definition nys_scale (n1 : Z) (Sv : mem Rring) : option (mem Rring * mem Rring) :=
  max_S <- ld Sv (n1 - 1);
  let tol := (sqrt max_S * eps * 10)%R in
  zfor 0 n1 (fun i (p : mem Rring * mem Rring) => let '(Sv, ivS) := p in
    s <- ld Sv i;
    let s := if Rltb s 0 then (max_S * eps * eps)%R else s in
    let s := sqrt s in
    Sv <- st Sv i s;
    v <- (if Rltb s tol then Some 0%R else Rdiv_opt 1 s);
    ivS <- st ivS i v;
    Some (Sv, ivS)) (Sv, alloc n1).

(** AFN_precond.c:40-52: K1 = [K11, K12] and nu. *)
Definition nys_K1 (n1 n2 : Z) (K11 K12 : mem Rring) : option (mem Rring * R) :=
  let n := n1 + n2 in
  K1 <- copy_matrix n1 n1 K11 0 n1 (alloc (n1 * n)) 0 n;
  K1 <- copy_matrix n1 n2 K12 0 n2 K1 n1 n;
  fnorm <- zfor 0 (n * n1) (fun i (s : R) => x <- ld K1 i; Some (s + x * x)%R) 0%R;
  Some (K1, (sqrt (IZR n) * gap fnorm)%R).

(** AFN_precond.c:54-68: invL = inv(chol(K11 + nu I, 'lower')). *)
Definition nys_invL (n1 : Z) (nu : R) (K11 : mem Rring) : option (mem Rring) :=
  K11 <- zfor 0 n1 (fun i d => @madd Rring d (i * n1 + i) nu) K11;
  '(info, K11) <- potrf_low la n1 K11;
  if negb (info =? 0) then None else
  invL <- mset0 (alloc (n1 * n1)) 0 (n1 * n1);
  invL <- zfor 0 n1 (fun i d => st d (i * n1 + i) (1%R : Rring)) invL;
  trsm la true true false false n1 n1 K11 0 n1 invL 0 n1.

(** AFN_precond.c:133-146: nys_M from the singular values S. *)
Definition nys_eta (n1 : Z) (mu nu : R) (Sv : mem Rring) : option (mem Rring) :=
  Sv <- zfor 0 n1 (fun i d => s <- ld d i; let t := (s * s - nu)%R in st d i (if Rltb t 0 then 0%R else t)) Sv;
  s0 <- ld Sv 0;
  let eta := (s0 + mu)%R in
  zfor 0 n1 (fun i d => s <- ld Sv i; v <- Rdiv_opt eta (s + mu)%R; st d i v) (alloc n1).

(** AFN_precond.c:35-147 Nys_precond_build_: nys_M and nys_U. *)
Definition Nys_precond_build (mu : R) (n1 n2 : Z) (K11 K12 : mem Rring) : option (mem Rring * mem Rring) :=
  let n := n1 + n2 in
  '(K1, nu) <- nys_K1 n1 n2 K11 K12;
  invL <- nys_invL n1 nu K11;
  M <- gemm true true n n1 n1 K1 0 n invL 0 n1 false (alloc (n * n1)) 0 n1;
  MTM <- syrk_upper n1 n M (alloc (n1 * n1));
  '(MTM, Sv) <- syevd_upper syevd n1 MTM (alloc n1);
  '(Sv, ivS) <- nys_scale n1 Sv;
  MTM <- zfor 0 n1 (fun i d => zfor 0 n1 (fun j d => v <- ld d (i * n1 + j); w <- ld ivS j; st d (i * n1 + j) (v * w)%R) d) MTM;
  U <- gemm false false n n1 n1 M 0 n1 MTM 0 n1 false (alloc (n * n1)) 0 n1;
  nys_M <- nys_eta n1 mu nu Sv;
  Some (nys_M, U).
End Nys.
