(** Numbers as the code uses them: a carrier with the C operators.  No law is
    assumed: the operations may round, overflow or produce NaNs, so theorems for
    every [num] hold in particular for IEEE doubles or floats.  [Qnum] is exact
    rational arithmetic.  Not a model of code. *)
From Coq Require Import ZArith QArith Qabs Qminmax.

Record num := Num {
  ncar :> Type;
  nlit : Q -> ncar;              (* a literal of the source, or an int conversion *)
  nadd : ncar -> ncar -> ncar;
  nsub : ncar -> ncar -> ncar;
  nmul : ncar -> ncar -> ncar;
  ndiv : ncar -> ncar -> ncar;
  nabs : ncar -> ncar;           (* DABS *)
  nle : ncar -> ncar -> bool;    (* a <= b *)
  nlt : ncar -> ncar -> bool     (* a < b *)
}.
Arguments nlit {n} _.
Arguments nadd {n} _ _.
Arguments nsub {n} _ _.
Arguments nmul {n} _ _.
Arguments ndiv {n} _ _.
Arguments nabs {n} _.
Arguments nle {n} _ _.
Arguments nlt {n} _ _.

(** utils.h: #define MAX(a, b) ((a) > (b) ? (a) : (b)) and MIN with <. *)
Definition nmax {F : num} (a b : F) : F := if nlt b a then a else b.
Definition nmin {F : num} (a b : F) : F := if nlt a b then a else b.

Definition Qnum : num := Num Q (fun q => q) Qplus Qminus Qmult Qdiv Qabs Qle_bool
  (fun a b => negb (Qle_bool b a)).

Definition e10 (m : Z) (k : positive) : Q := (m # (10 ^ k))%Q.

(** Exact rational arithmetic on fractions kept in lowest terms: the same
    numbers as [Qnum], for the examples that are computed. *)
Definition Qred_num : num := Num Q Qred (fun a b => Qred (a + b)) (fun a b => Qred (a - b))
  (fun a b => Qred (a * b)) (fun a b => Qred (a / b)) Qabs Qle_bool (fun a b => negb (Qle_bool b a)).
