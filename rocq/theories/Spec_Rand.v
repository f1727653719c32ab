(** Specification vocabulary for random sampling. *)
From Coq Require Import ZArith List Lia Bool.
From Verif Require Import Base Mem Num CRing.
Import ListNotations.
Open Scope Z_scope.

(** [l] are the first [zlen l] different values of v p, v (p + 1), ..., in order of
    appearance; [q] is the position after the last of them. *)
Inductive first_different (v : Z -> Z) (p : Z) : list Z -> Z -> Prop :=
| fd_nil : first_different v p [] p
| fd_next l q q' : first_different v p l q -> q <= q' -> (forall r, q <= r < q' -> In (v r) l) -> ~ In (v q') l ->
    first_different v p (l ++ [v q']) (q' + 1).

(** rand() returns no negative value; every remainder keeps occurring. *)
Definition rand_ok (rnd : Z -> Z) : Prop := forall q, 0 <= rnd q.
Definition fair (rnd : Z -> Z) (n : Z) : Prop := forall v p, 0 <= v < n -> exists q, p <= q /\ rnd q mod n = v.

(** A has c entries per column, in different rows, each 1 or -1; the others are 0. *)
Definition sparse_signs {K : cring} (k n c : Z) (A : Z -> Z -> K) : Prop :=
  forall j, 0 <= j < n -> exists rows : list Z, NoDup rows /\ zlen rows = c /\ (forall r, In r rows -> 0 <= r < k) /\
    (forall r, In r rows -> A r j = c1 \/ A r j = copp c1) /\ (forall r, ~ In r rows -> A r j = c0).
