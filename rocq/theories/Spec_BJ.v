(** What the block Jacobi preconditioner inverts: the diagonal blocks of the kernel
    matrix of the user's points, one block per leaf cluster of the tree. *)
From Coq Require Import ZArith List.
From Verif Require Import Base Mem Num CRing Model_Partition Spec_Lapack.
Open Scope Z_scope.

Section Spec.
Context {F : num} {K : cring}.

(** The user's point number [o] belongs to the [k]-th leaf of the tree. *)
Definition in_leaf (t : tree_result F) (k o : Z) : Prop := 0 <= k < r_n_leaf t /\
  exists node s e p, ld (a_height_nodes (r_arrays t)) k = Some node /\
    ld (a_cluster (r_arrays t)) (2 * node) = Some s /\ ld (a_cluster (r_arrays t)) (2 * node + 1) = Some e /\
    s <= p <= e /\ ld (r_idx t) p = Some o.

(** [B] is [A] (a matrix of [kdim] x [kdim] cells for each pair of points) plus
    [shift] on the diagonal for points of the same leaf, and zero otherwise. *)
Definition leaf_diagonal (t : tree_result F) (n_point kdim : Z) (A : Z -> Z -> K) (shift : K) (B : Z -> Z -> K) : Prop :=
  (forall i j k, 0 <= i < kdim * n_point -> 0 <= j < kdim * n_point -> in_leaf t k (i / kdim) -> in_leaf t k (j / kdim) ->
     B i j = cadd (A i j) (if i =? j then shift else c0)) /\
  (forall i j k l, 0 <= i < kdim * n_point -> 0 <= j < kdim * n_point -> in_leaf t k (i / kdim) -> in_leaf t l (j / kdim) -> k <> l -> B i j = c0).

(** [M] is a right inverse of [B]. *)
Definition right_inverse (n : Z) (B M : Z -> Z -> K) : Prop :=
  forall i j, 0 <= i < n -> 0 <= j < n -> rsum 0 n (fun l => cmul (B i l) (M l j)) = delta i j.
End Spec.
