(** Floating-point style arithmetic with square roots and the BLAS level-1
    reductions, as src/H2Pack_ID_compress.c uses it.  No law is assumed; [fdiv]
    may be undefined ([None]), so that exact arithmetic can refuse to divide by
    zero.  [Rnum] is exact real arithmetic.  Not a model of code. *)
From Coq Require Import ZArith QArith List Reals Qreals.
From Verif Require Import Base CRing.
Import ListNotations.

Record fnum := FNum {
  fcar :> Type;
  flit : Q -> fcar;                     (* a literal of the source, or an int conversion *)
  fadd : fcar -> fcar -> fcar;
  fsub : fcar -> fcar -> fcar;
  fmul : fcar -> fcar -> fcar;
  fdiv : fcar -> fcar -> option fcar;
  fsqrt : fcar -> fcar;                 (* DSQRT *)
  flt : fcar -> fcar -> bool;           (* a < b *)
  fle : fcar -> fcar -> bool;           (* a <= b *)
  fdot : list fcar -> list fcar -> fcar; (* CBLAS_DOT *)
  fnrm2 : list fcar -> fcar             (* CBLAS_NRM2 *)
}.
Arguments flit {f}. Arguments fadd {f}. Arguments fsub {f}. Arguments fmul {f}. Arguments fdiv {f}.
Arguments fsqrt {f}. Arguments flt {f}. Arguments fle {f}. Arguments fdot {f}. Arguments fnrm2 {f}.

(** utils.h: #define MAX(a, b) ((a) > (b) ? (a) : (b)). *)
Definition fmax {F : fnum} (a b : F) : F := if flt b a then a else b.

(** The reals. *)
Open Scope R_scope.
Definition Rltb (a b : R) : bool := if Rlt_dec a b then true else false.
Definition Rleb (a b : R) : bool := if Rle_dec a b then true else false.
Definition Rdot (x y : list R) : R := fold_right Rplus 0 (map (fun p => fst p * snd p) (combine x y)).
Definition Rnrm2 (x : list R) : R := sqrt (Rdot x x).
Definition Rnum : fnum := FNum R Q2R Rplus Rminus Rmult (fun a b => if Req_EM_T b 0 then None else Some (a / b))
  sqrt Rltb Rleb Rdot Rnrm2.
Definition Rring : cring := CRing R 0 1 Rplus Rmult Rminus Ropp RTheory.
