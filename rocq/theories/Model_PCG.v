(** Model of examples/PCG/pcg.c: the preconditioned conjugate gradient method.
    The work vectors r, z, p, s come from malloc (reading a cell that was not
    written is an error).  The two callbacks are functions from the vector they
    read to the vector they write.  [None]: an access outside an array, a read of
    an unwritten cell, or a division [fdiv] refuses (exact arithmetic: by zero).
    The "omp simd" sums are carried out in index order.  Timers and printing are
    not modelled (the "sanity check" of lines 129-138 only feeds the print). *)
From Coq Require Import ZArith QArith List Bool.
From Verif Require Import Base Mem FNum Model_Build.
Import ListNotations.
Open Scope Z_scope.

Section PCG.
Context {F : fnum}.
Variable n : Z.

(** pcg.h:16 matvec_fptr: "b := A * x"; [f] gives the n values written. *)
Definition call (f : list F -> list F) (x b : mem F) : option (mem F) :=
  v <- read_cells x 0 n;
  zfor 0 n (fun i b => y <- getz (f v) i; st b i y) b.

(** The loops "sum += x[i] * y[i]" of pcg.c:44-48, 80, 103. *)
Definition sum_prod (x y : mem F) : option F :=
  zfor 0 n (fun i s => a <- ld x i; b <- ld y i; Some (fadd s (fmul a b))) (flit 0%Q).

Record pcg_st := PSt {
  g_x : mem F; g_r : mem F; g_z : mem F; g_p : mem F; g_s : mem F;
  g_rho : F; g_rn : F;           (* rho, r_2norm *)
  g_res : option (mem F);        (* res_vec; None: NULL *)
  g_iter : Z
}.

(** pcg.c:108-115: x += alpha p, r -= alpha s, and the sum of r[i] * r[i]. *)
Definition update_xr (alpha : F) (p s x r : mem F) : option (mem F * mem F * F) :=
  zfor 0 n (fun i '(x, r, acc) =>
    xi <- ld x i; pi <- ld p i;
    x <- st x i (fadd xi (fmul alpha pi));
    ri <- ld r i; si <- ld s i;
    r <- st r i (fsub ri (fmul alpha si));
    ri <- ld r i;
    Some (x, r, fadd acc (fmul ri ri))) (x, r, flit 0%Q).

(** pcg.c:65-123: one turn of the while loop. *)
Definition pcg_step (Ax : list F -> list F) (invMx : option (list F -> list F)) (g : pcg_st) : option pcg_st :=
  z <- match invMx with
       | Some M => call M (g_r g) (g_z g)                                        (* 68 *)
       | None => mcpy (g_z g) 0 (g_r g) 0 n                                      (* 69 *)
       end;
  let rho0 := g_rho g in                                                         (* 77 *)
  rho <- sum_prod (g_r g) z;                                                     (* 78-80 *)
  beta <- fdiv rho rho0;                                                         (* 81 *)
  p <- (if g_iter g =? 0 then mcpy (g_p g) 0 z 0 n                               (* 84 *)
        else zfor 0 n (fun i p => zi <- ld z i; pi <- ld p i; st p i (fadd zi (fmul beta pi))) (g_p g)); (* 87-88 *)
  s <- call Ax p (g_s g);                                                        (* 96 *)
  tmp <- sum_prod p s;                                                           (* 101-103 *)
  alpha <- fdiv rho tmp;                                                         (* 104 *)
  '(x, r, acc) <- update_xr alpha p s (g_x g) (g_r g);                           (* 108-115 *)
  let rn := fsqrt acc in                                                         (* 116 *)
  res <- match g_res g with                                                      (* 117 *)
         | Some v => v <- st v (g_iter g) rn; Some (Some v)
         | None => Some None
         end;
  Some (PSt x r z p s rho rn res (g_iter g + 1)).                                (* 118 *)

(** pcg.c:64 "while (iter < max_iter && r_2norm > rn_stop)"; [fuel] bounds the
    number of turns (the caller passes enough). *)
Fixpoint pcg_loop (fuel : nat) (Ax : list F -> list F) (invMx : option (list F -> list F)) (max_iter : Z) (rn_stop : F) (g : pcg_st) : option pcg_st :=
  if (g_iter g <? max_iter) && flt rn_stop (g_rn g) then
    match fuel with
    | O => None
    | S fuel => g <- pcg_step Ax invMx g; pcg_loop fuel Ax invMx max_iter rn_stop g
    end
  else Some g.

(** What the caller sees: x, *flag_, *relres_, *iter_, res_vec. *)
Record pcg_out := POut { o_x : mem F; o_flag : Z; o_relres : F; o_iter : Z; o_res : option (mem F) }.

(** pcg.c:11-152. *)
Definition pcg (tol : F) (max_iter : Z) (Ax : list F -> list F) (b : mem F) (invMx : option (list F -> list F))
    (x : mem F) (res_vec : option (mem F)) : option pcg_out :=
  let r := alloc n in let z := alloc n in let p := alloc n in let s := alloc n in (* 18-22 *)
  r <- call Ax x r;                                                              (* 31 *)
  r <- zfor 0 n (fun i r => bi <- ld b i; ri <- ld r i; st r i (fsub bi ri)) r;  (* 37 *)
  b2 <- sum_prod b b;                                                            (* 42-48 *)
  r2 <- sum_prod r r;
  let b_2norm := fsqrt b2 in                                                     (* 49 *)
  let r_2norm := fsqrt r2 in                                                     (* 50 *)
  let rn_stop := fmul b_2norm tol in                                             (* 51 *)
  g <- pcg_loop (Z.to_nat max_iter) Ax invMx max_iter rn_stop
         (PSt x r z p s (flit 1%Q) r_2norm res_vec 0);                           (* 62-63 *)
  let flag := if fle (g_rn g) rn_stop then 0 else 1 in                           (* 124 *)
  relres <- fdiv (g_rn g) b_2norm;                                               (* 125 *)
  Some (POut (g_x g) flag relres (g_iter g) (g_res g)).                          (* 126 *)
End PCG.
Arguments pcg_st : clear implicits. Arguments pcg_out : clear implicits.
