(** Specification vocabulary for the AFN preconditioner. *)
From Coq Require Import ZArith QArith List Lia Bool Permutation.
From Verif Require Import Base Mem Num CRing Spec_FSAI.
Import ListNotations.
Open Scope Z_scope.

Section FPS.
Context {F : num}.

(** k is the first of the best entries of v among lo, ..., hi-1. *)
Definition first_best (better : F -> F -> bool) (v : Z -> F) (lo hi k : Z) : Prop :=
  lo <= k < hi /\ (forall j, lo <= j < hi -> better (v j) (v k) = false) /\ (forall j, lo <= j < k -> better (v k) (v j) = true).

(** The mean of n points with coordinates X. *)
Definition centroid (n dim : Z) (X : Z -> Z -> F) : list F :=
  map (fun d => ndiv (fold_left (fun a j => nadd a (X j d)) (zrange 0 n) (nlit 0%Q)) (nlit (inject_Z n))) (zrange 0 dim).

(** The smallest distance from point j to the points sel 0, ..., sel (i-1),
    starting from [big]. *)
Fixpoint min_dist (big : F) (pt : Z -> list F) (sel : Z -> Z) (i : nat) (j : Z) : F :=
  match i with
  | O => big
  | S i' => let t := dist2 (pt j) (pt (sel (Z.of_nat i'))) in let m := min_dist big pt sel i' j in if nlt t m then t else m
  end.

(** Farthest point sampling: sel 0 is the point nearest to the mean, and every
    further point is the one farthest from those selected before; the first such
    point where there are several. *)
Definition farthest_points (big : F) (n dim : Z) (X : Z -> Z -> F) (k : Z) (sel : Z -> Z) : Prop :=
  first_best nlt (fun j => dist2 (pt_of dim X j) (centroid n dim X)) 0 n (sel 0) /\
  forall i, 1 <= i < k -> first_best (fun a b => nlt b a) (min_dist big (pt_of dim X) sel (Z.to_nat i)) 0 n (sel i).

(** No point of the n points is as close to another one as to itself; distances
    stay below [big]. *)
Definition distinct_points (big : F) (n dim : Z) (X : Z -> Z -> F) : Prop :=
  forall j k l, 0 <= j < n -> 0 <= k < n -> 0 <= l < n -> k <> l ->
    nlt (dist2 (pt_of dim X j) (pt_of dim X j)) (dist2 (pt_of dim X k) (pt_of dim X l)) = true /\
    nlt (dist2 (pt_of dim X j) (pt_of dim X j)) big = true.
End FPS.

(** The cells 0..n-1 of [perm] are 0..n-1 in some order. *)
Definition perm_ok (n : Z) (perm : mem Z) (ps : Z -> Z) : Prop :=
  zlen perm = n /\ (forall i, 0 <= i < n -> ld perm i = Some (ps i) /\ 0 <= ps i < n) /\
  (forall i j, 0 <= i < n -> 0 <= j < n -> ps i = ps j -> i = j).
