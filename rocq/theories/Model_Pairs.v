(** Model of the block partition: src/H2Pack_partition.c:327-541 and
    src/H2Pack_partition_periodic.c:25-144,253-263, and of the box test
    src/H2Pack_utils.c:14-29. *)
From Coq Require Import ZArith QArith List Lia Bool.
From Verif Require Import Base Mem Num Model_Partition.
Import ListNotations.
Open Scope Z_scope.

Section Pairs.
Context {F : num}.

(** H2Pack_utils.c:14-29 H2P_check_box_admissible.  [box0], [box1] are arrays
    with the box at offsets [o0], [o1].  Once a dimension separates the boxes
    the function returns without reading further. *)
Definition check_box_admissible (box0 : mem F) (o0 : Z) (box1 : mem F) (o1 : Z) (pt_dim : Z) (alpha : F) : option bool :=
  zfor 0 pt_dim (fun i (adm : bool) => if adm then Some true else
    r0 <- ld box0 (o0 + (pt_dim + i));
    r1 <- ld box1 (o1 + (pt_dim + i));
    b0 <- ld box0 (o0 + i);
    b1 <- ld box1 (o1 + i);
    let c0 := nadd b0 (nmul (nlit (1#2)) r0) in
    let c1 := nadd b1 (nmul (nlit (1#2)) r1) in
    let min_r := nmin r0 r1 in
    let dist := nabs (nsub c0 c1) in
    Some (nle (nadd (nmul alpha min_r) (nmul (nlit (1#2)) (nadd r0 r1))) dist)) false.

(** The recursion shared by H2P_calc_reduced_adm_pairs (H2Pack_partition.c:
    327-432) and H2P_calc_reduced_adm_pairs_per (H2Pack_partition_periodic.c:
    25-144): the list of node pairs at which it stops, in order, with [true]
    for admissible ones.  [self]: pairs (n, n) are treated as self
    interactions; [test]: the admissibility condition.  What is pushed for a
    pair never influences the recursion and is added below.  [None]: undefined
    behaviour or recursion deeper than [fuel]. *)
Fixpoint walk (children n_child : mem Z) (max_child : Z) (self : bool) (test : Z -> Z -> option bool)
    (fuel : nat) (n0 n1 : Z) : option (list (bool * (Z * Z))) :=
  match fuel with
  | O => None
  | S fuel' =>
    let rec := walk children n_child max_child self test fuel' in
    if self && (n0 =? n1) then
      nc <- ld n_child n0;
      if nc =? 0 then Some [] else
      l <- zfor 0 nc (fun i l =>
             c <- ld children (n0 * max_child + i);
             m <- rec c c; Some (l ++ m)) [];
      zfor 0 nc (fun i l =>
        ci <- ld children (n0 * max_child + i);
        zfor (i + 1) nc (fun j l =>
          cj <- ld children (n0 * max_child + j);
          m <- rec ci cj; Some (l ++ m)) l) l
    else
      nc0 <- ld n_child n0;
      nc1 <- ld n_child n1;
      adm <- test n0 n1;
      if adm then Some [(true, (n0, n1))]
      else if (nc0 =? 0) && (nc1 =? 0) then Some [(false, (n0, n1))]
      else if (nc0 =? 0) && (0 <? nc1) then
        zfor 0 nc1 (fun j l =>
          cj <- ld children (n1 * max_child + j);
          m <- rec n0 cj; Some (l ++ m)) []
      else if (0 <? nc0) && (nc1 =? 0) then
        zfor 0 nc0 (fun i l =>
          ci <- ld children (n0 * max_child + i);
          m <- rec ci n1; Some (l ++ m)) []
      else if (0 <? nc0) && (0 <? nc1) then
        zfor 0 nc0 (fun i l =>
          ci <- ld children (n0 * max_child + i);
          zfor 0 nc1 (fun j l =>
            cj <- ld children (n1 * max_child + j);
            m <- rec ci cj; Some (l ++ m)) l) []
      else Some []
  end.

(** part_vars (H2Pack_aux_structs.h): the two pair vectors, as lists of pairs
    (the int vectors hold the pairs flattened), and min_adm_level. *)
Record pairs := Pairs { ps_adm : list (Z * Z); ps_inadm : list (Z * Z); ps_min_level : Z }.

(** H2Pack_partition.c:370-391: what is recorded for a pair. *)
Definition record_pair (node_level : mem Z) (ps : pairs) (ev : bool * (Z * Z)) : option pairs :=
  let '(adm, (n0, n1)) := ev in
  if adm then
    l0 <- ld node_level n0;
    l1 <- ld node_level n1;
    let m := if l1 <? l0 then l0 else l1 in
    Some (Pairs (ps_adm ps ++ [(n0, n1)]) (ps_inadm ps) (if ps_min_level ps <? m then ps_min_level ps else m))
  else Some (Pairs (ps_adm ps) (ps_inadm ps ++ [(n0, n1)]) (ps_min_level ps)).
Fixpoint record_pairs (node_level : mem Z) (evs : list (bool * (Z * Z))) (ps : pairs) : option pairs :=
  match evs with [] => Some ps | ev :: evs' => ps <- record_pair node_level ps ev; record_pairs node_level evs' ps end.

(** H2Pack_partition.c:365-371 the condition for an admissible pair. *)
Definition adm_test (pt_dim : Z) (alpha : F) (min_adm_level : Z) (a : tarrays F) (n0 n1 : Z) : option bool :=
  l0 <- ld (a_level a) n0;
  l1 <- ld (a_level a) n1;
  t <- check_box_admissible (a_box a) (n0 * pt_dim * 2) (a_box a) (n1 * pt_dim * 2) pt_dim alpha;
  Some (t && (min_adm_level <=? l0) && (min_adm_level <=? l1)).

(** H2Pack_partition.c:327-432 started on the root as in 667-669 and 515-517. *)
Definition calc_reduced_adm_pairs (fuel : nat) (pt_dim : Z) (alpha : F) (min_adm_level : Z)
    (n_node max_level : Z) (a : tarrays F) : option pairs :=
  evs <- walk (a_children a) (a_nchild a) (Z.shiftl 1 pt_dim) true (adm_test pt_dim alpha min_adm_level a) fuel (n_node - 1) (n_node - 1);
  record_pairs (a_level a) evs (Pairs [] [] max_level).

(** ** Periodic system *)

(** H2Pack_partition_periodic.c:37-40. *)
Definition has_shift (pt_dim : Z) (shift : mem F) : option bool :=
  zfor 0 pt_dim (fun i (h : bool) => x <- ld shift i; Some (if nlt (nlit (e10 1 10)) (nabs x) then true else h)) false.

(** H2Pack_partition_periodic.c:76-80: n1's box is moved by the shift (the C
    array shifted_box has 8 cells). *)
Definition adm_test_per (pt_dim : Z) (alpha : F) (shift : mem F) (a : tarrays F) (n0 n1 : Z) : option bool :=
  sb <- mcpy (alloc 8) 0 (a_box a) (n1 * pt_dim * 2) (pt_dim * 2);
  sb <- zfor 0 pt_dim (fun i (sb : mem F) => x <- ld sb i; d <- ld shift i; st sb i (nadd x d)) sb;
  check_box_admissible (a_box a) (n0 * pt_dim * 2) sb 0 pt_dim alpha.

(** H2Pack_partition_periodic.c:82-109: triples pushed for a pair. *)
Definition per_triples (hs : bool) (l : Z) (ev : bool * (Z * Z)) : list (bool * (Z * Z * Z)) :=
  let '(adm, (n0, n1)) := ev in
  if hs then [(adm, (n0, n1, l))] else [(adm, (n0, n1, l)); (adm, (n1, n0, l))].

(** One call for lattice [l] with its shift. *)
Definition pairs_per (fuel : nat) (pt_dim : Z) (alpha : F) (shift : mem F) (l : Z) (n_node : Z) (a : tarrays F)
    : option (list (bool * (Z * Z * Z))) :=
  hs <- has_shift pt_dim shift;
  evs <- walk (a_children a) (a_nchild a) (Z.shiftl 1 pt_dim) (negb hs) (adm_test_per pt_dim alpha shift a) fuel (n_node - 1) (n_node - 1);
  Some (flat_map (per_triples hs l) evs).

(** H2Pack_partition_periodic.c:253-263: all lattices; shift = width of the root
    box times the lattice vector.  Result: admissible and inadmissible triples
    (part_vars->r_adm_pairs, r_inadm_pairs, in push order). *)
Definition all_pairs_per (fuel : nat) (pt_dim : Z) (alpha : F) (n_lattice : Z) (lattices : mem F) (n_node : Z) (a : tarrays F)
    : option (list (bool * (Z * Z * Z))) :=
  zfor 0 n_lattice (fun l acc =>
    shift <- zfor 0 pt_dim (fun j (sh : mem F) =>
       w <- ld (a_box a) ((n_node - 1) * (2 * pt_dim) + pt_dim + j);
       v <- ld lattices (l * pt_dim + j);
       st sh j (nmul w v)) (alloc 8);
    m <- pairs_per fuel pt_dim alpha shift l n_node a;
    Some (acc ++ m)) [].


(** H2Pack_partition_periodic.c:281-297: one pair vector of triples [ts] (the
    int vector holds them flattened) is unpacked to a pair array and an array of
    coordinate shifts. *)
Definition unpack_per (pt_dim : Z) (lattices : mem F) (n_node : Z) (a : tarrays F) (ts : list (Z * Z * Z)) : option (mem Z * mem F) :=
  zfor 0 (zlen ts) (fun i '(prs, shifts) =>
    '(n0, n1, l) <- getz ts i;
    prs <- st prs (2 * i + 0) n0;
    prs <- st prs (2 * i + 1) n1;
    shifts <- zfor 0 pt_dim (fun j (sh : mem F) =>
       w <- ld (a_box a) ((n_node - 1) * (2 * pt_dim) + pt_dim + j);
       v <- ld lattices (l * pt_dim + j);
       st sh (i * pt_dim + j) (nmul w v)) shifts;
    Some (prs, shifts)) (alloc (zlen ts * 2), alloc (zlen ts * pt_dim)).

(** H2Pack_partition_periodic.c:253-297: r_adm_pairs, per_adm_shifts,
    r_inadm_pairs, per_inadm_shifts. *)
Definition pairs_of_periodic (fuel : nat) (pt_dim : Z) (alpha : F) (n_lattice : Z) (lattices : mem F) (n_node : Z) (a : tarrays F)
    : option ((mem Z * mem F) * (mem Z * mem F)) :=
  ts <- all_pairs_per fuel pt_dim alpha n_lattice lattices n_node a;
  inadm <- unpack_per pt_dim lattices n_node a (map snd (filter (fun t => negb (fst t)) ts));
  adm <- unpack_per pt_dim lattices n_node a (map snd (filter fst ts));
  Some (adm, inadm).

End Pairs.

(** H2Pack_partition_periodic.c:305-325 the dependency graph of the periodic
    upward sweep: the root row is empty.  DAG_dst_idx has one unused cell more
    than the n_node - 1 dependencies announced to the queue. *)
Definition upward_dag_per (n_node : Z) (node_level parent : mem Z) : option (list Z * list Z) :=
  '(src, dst) <- zfor 0 n_node (fun node (x : list Z * list Z) => let '(src, dst) := x in
      lv <- ld node_level node;
      if lv <? 0 then Some (src ++ [node], dst ++ [node])
      else p <- ld parent node; Some (src ++ [node], dst ++ [p])) ([], []);
  src <- setz src (n_node - 1) (n_node - 1);
  Some (src ++ [n_node - 1], firstn (Z.to_nat (n_node - 1)) dst).
