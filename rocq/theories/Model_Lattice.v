(** The lattice tables of periodic systems: src/H2Pack_typedef.c. *)
From Coq Require Import ZArith QArith List.
From Verif Require Import Base Mem Num.
Import ListNotations.
Open Scope Z_scope.

Section Lattice.
Context {F : num}.

(** H2Pack_typedef.c:139-149 and 151-179: per_lattices_2d, per_lattices_3d. *)
Definition per_lattices_2d : list Z :=
  [-1; -1;  -1; 0;  -1; 1;  0; -1;  0; 0;  0; 1;  1; -1;  1; 0;  1; 1].
Definition per_lattices_3d : list Z :=
  [-1; -1; -1;  -1; -1; 0;  -1; -1; 1;  -1; 0; -1;  -1; 0; 0;  -1; 0; 1;  -1; 1; -1;  -1; 1; 0;  -1; 1; 1;
    0; -1; -1;   0; -1; 0;   0; -1; 1;   0; 0; -1;   0; 0; 0;   0; 0; 1;   0; 1; -1;   0; 1; 0;   0; 1; 1;
    1; -1; -1;   1; -1; 0;   1; -1; 1;   1; 0; -1;   1; 0; 0;   1; 0; 1;   1; 1; -1;   1; 1; 0;   1; 1; 1].

(** H2Pack_typedef.c:182-207 H2P_run_RPY_Ewald: n_lattice and per_lattices; for
    other dimensions both keep their initial values (0, NULL). *)
Definition run_RPY_Ewald (pt_dim : Z) : Z * mem F :=
  if pt_dim =? 2 then (9, map (fun k => Some (nlit (inject_Z k))) per_lattices_2d)
  else if pt_dim =? 3 then (27, map (fun k => Some (nlit (inject_Z k))) per_lattices_3d)
  else (0, []).
End Lattice.
