(** What is asked of the just-in-time product. *)
From Coq Require Import ZArith List Bool.
From Verif Require Import Base Mem Num CRing Model_Dense Model_Matvec Spec_Matvec Model_JIT.
Import ListNotations.
Open Scope Z_scope.

Section Spec.
Context {F : num} {K : cring}.

(** The working buffers and xT have their sizes, and no y0 buffer has been given
    a number of rows other than the number of columns of its node's basis. *)
Definition jit_state_ok (h : h2rep F K) (sx : mvst K * mem K) : Prop :=
  state_ok h (fst sx) /\
  (forall l i m, s_y0 (fst sx) = Some l -> getz l i = Some m -> dm_ld m = 0 \/ dm_nrow m = rank h i) /\
  h_kms h <= zlen (snd sx).

(** One point's rows (krnl_dim rows of [esz]-byte entries) of every block fit in
    the 128 KB the code plans for. *)
Definition rows_fit_buffer (h : h2rep F K) (esz : Z) : Prop :=
  (forall k, 0 <= k < zlen (h_adm h) -> esz * Bncol h k * h_kdim h <= 131072) /\
  (forall k, 0 <= k < h_nleaf h + zlen (h_inadm h) -> esz * Dncol h k * h_kdim h <= 131072).
End Spec.
