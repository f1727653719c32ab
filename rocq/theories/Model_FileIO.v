(** Model of src/H2Pack_file_IO.c (H2P_store_to_file, H2P_read_from_file) and of
    the two Python scripts it runs, examples/meta_txt_to_json.py and
    examples/meta_json_to_txt.py.

    A text file is a list of lines, a line a list of tokens: printing and parsing
    of decimal ints is taken to be exact.  A coordinate is printed as the
    hexadecimal digits of its 64 bits, [bits]; [unbits] is the double with given
    bits.  [e6] is what is left of a double after being printed with "%e".  JSON
    files are records with the keys as fields: json.dump / json.load are taken to
    be inverse to each other.  The binary file is the sequence of DTYPE values.
    size_t and int are unbounded; statistics are left out. *)
From Coq Require Import ZArith QArith List Lia Bool Permutation.
From Verif Require Import Base Mem Num CRing Conc Model_Utils Model_Dense Model_CSR Model_Partition Model_Pairs Model_Matvec Model_Build Model_Matmul Model_UJ.
Import ListNotations.
Open Scope Z_scope.

Section FileIO.
Context {F : num} {K : cring}.
Variables (bits : F -> Z) (unbits : Z -> F) (e6 : F -> F).

Inductive tok := TI (z : Z) | TH (u : Z) | TE (v : F).

Definition mapz {A} (lo hi : Z) (f : Z -> option A) : option (list A) := all_some (map f (zrange lo hi)).

(** ** H2P_store_to_file *)

(** The fields read by H2P_store_to_file besides those in [h2rep]: is_HSS,
    xpt_dim, root_idx, max_leaf_points, QR_stop_tol, coord, coord_idx, J.  In HSS
    mode the pairs and the minimal level of [h2rep] are the HSS ones. *)
Record sfields := SF {
  sf_hss : bool; sf_xdim : Z; sf_root : Z; sf_mlp : Z; sf_tol : F; sf_coord : mem F; sf_idx : mem Z; sf_J : list int_vec
}.

(** H2Pack_file_IO.c:39-88: one value per line. *)
Definition store_head (h : h2rep F K) (f : sfields) : option (list (list tok)) :=
  part <- zfor 0 (zlen (h_adm h)) (fun i part => if part =? 1 then Some part else
            '(n0, n1) <- getz (h_adm h) i;
            l0 <- ld (a_level (h_t h)) n0;
            l1 <- ld (a_level (h_t h)) n1;
            Some (if l0 =? l1 then 0 else 1)) 0;
  Some (map (fun z => [TI z])
    [h_ptdim h; h_kdim h; h_npoint h; h_kms h; h_kms h; 1; h_nnode h; h_nnode h; sf_root f; sf_root f;
     h_maxlevel h + 1; h_maxlevel h + 1; (if sf_hss f then 1 else 0); h_minlevel h; zlen (h_inadm h); zlen (h_adm h); part]).

(** H2Pack_file_IO.c:90-104: node [i]. *)
Definition store_node_line (h : h2rep F K) (i : Z) : option (list tok) :=
  lv <- ld (a_level (h_t h)) i;
  s <- ld (a_cluster (h_t h)) (2 * i);
  e <- ld (a_cluster (h_t h)) (2 * i + 1);
  nc <- ld (a_nchild (h_t h)) i;
  cs <- read_cells (a_children (h_t h)) (i * h_maxchild h) nc;
  Some (map TI ([i; lv; s; e; nc] ++ cs ++ map (fun _ => -1) (zrange nc (h_maxchild h)))).

(** H2Pack_file_IO.c:106-117: U of node [i]. *)
Definition store_U_line (h : h2rep F K) (i : Z) : option (list tok * list K) :=
  U <- getz (h_U h) i;
  d <- read_cells (dm_data U) 0 (dm_nrow U * dm_ncol U);
  Some (map TI [i; dm_nrow U; dm_ncol U], d).

(** A block fetched into tmpM, its line (with [more] at the end) and its data. *)
Definition store_block (get : Z -> Z -> dmat K -> option (option (dmat K))) (more : list Z) (n0 n1 : Z)
    (x : list (list tok) * list K * dmat K) : option (list (list tok) * list K * dmat K) :=
  let '(ls, bin, tmp) := x in
  tmp <- fetch get n0 n1 tmp;
  d <- read_cells (dm_data tmp) 0 (dm_nrow tmp * dm_ncol tmp);
  Some (ls ++ [map TI ([n0; n1; dm_nrow tmp; dm_ncol tmp] ++ more)], bin ++ d, tmp).

(** H2Pack_file_IO.c:119-136. *)
Definition store_B (h : h2rep F K) get (x : list (list tok) * list K * dmat K) : option (list (list tok) * list K * dmat K) :=
  zfor 0 (zlen (h_adm h)) (fun i x =>
    '(n0, n1) <- getz (h_adm h) i;
    l0 <- ld (a_level (h_t h)) n0;
    l1 <- ld (a_level (h_t h)) n1;
    store_block get [if l0 =? l1 then 0 else 1] n0 n1 x) x.

(** H2Pack_file_IO.c:138-163. *)
Definition store_D (h : h2rep F K) get (x : list (list tok) * list K * dmat K) : option (list (list tok) * list K * dmat K) :=
  x <- zfor 0 (h_nleaf h) (fun i x => node <- ld (a_height_nodes (h_t h)) i; store_block get [] node node x) x;
  zfor 0 (zlen (h_inadm h)) (fun i x => '(n0, n1) <- getz (h_inadm h) i; store_block get [] n0 n1 x) x.

(** H2Pack_file_IO.c:169-174: the coordinates in the user's order, point by point. *)
Definition coords_back (h : h2rep F K) (f : sfields) : option (mem F) :=
  zfor 0 (h_npoint h) (fun i c =>
    idx0 <- ld (sf_idx f) i;
    zfor 0 (h_ptdim h) (fun j c => v <- ld (sf_coord f) (j * h_npoint h + i); st c (idx0 * h_ptdim h + j) v) c)
    (alloc (h_npoint h * h_ptdim h)).

(** H2Pack_file_IO.c:165-198. *)
Definition store_tail (h : h2rep F K) (f : sfields) : option (list (list tok)) :=
  c <- coords_back h f;
  cl <- mapz 0 (h_npoint h) (fun i => vs <- read_cells c (i * h_ptdim h) (h_ptdim h); Some (map (fun v => TH (bits v)) vs));
  il <- mapz 0 (h_npoint h) (fun i => v <- ld (sf_idx f) i; Some [TI v]);
  jl <- mapz 0 (h_nnode h) (fun i => v <- getz (sf_J f) i; xs <- read_cells (iv_data v) 0 (iv_len v);
                                     Some (map TI ([i; iv_len v] ++ xs)));
  Some ([[TI (sf_mlp f)]; [TE (e6 (sf_tol f))]; [TI 1]] ++ cl ++ il ++ jl).

(** H2Pack_file_IO.c:17-202 H2P_store_to_file up to the call of the script: the
    text file and the binary file ([Some None]: refused with a message).  [tmp] is
    tmpM. *)
Definition store_to_file (h : h2rep F K) (f : sfields) (getB getD : Z -> Z -> dmat K -> option (option (dmat K)))
    : option (option (list (list tok) * list K)) :=
  if h_ptdim h <? sf_xdim f then Some None else
  hd <- store_head h f;
  nl <- mapz 0 (h_nnode h) (store_node_line h);
  ul <- mapz 0 (h_nnode h) (store_U_line h);
  '(bl, bbin, tmp) <- store_B h getB ([], [], dm_init 4096 4096);
  '(dl, dbin, tmp) <- store_D h getD ([], [], tmp);
  tl <- store_tail h f;
  Some (Some (hd ++ nl ++ map fst ul ++ bl ++ dl ++ tl, concat (map snd ul) ++ bbin ++ dbin)).

(** ** The scripts *)

(** The two JSON files. *)
Record jmeta := JMeta {
  j_nrow : Z; j_ncol : Z; j_symm : Z; j_nnr : Z; j_nnc : Z; j_rootr : Z; j_rootc : Z; j_nlr : Z; j_nlc : Z;
  j_ninadm : Z; j_nadm : Z; j_part : Z;
  j_nodes : list (list Z * list Z);   (* index, level, cluster_head, cluster_tail, num_children; children *)
  j_U : list (list Z); j_B : list (list Z); j_D : list (list Z)
}.
Record jaux := JAux {
  k_dim : Z; k_kdim : Z; k_npoint : Z; k_hss : Z; k_minadm : Z; k_mlp : Z; k_tol : F; k_hasskel : Z;
  k_coord : list F; k_perm : list Z; k_skel : list (list Z * list Z)   (* node, num_skeleton_point; indices *)
}.

(** Python: int(lines[k]), and the ints raw_data[a], ..., raw_data[b-1]. *)
Definition line_int (lines : list (list tok)) (k : Z) : option Z :=
  l <- getz lines k; match l with [TI z] => Some z | _ => None end.
Definition tok_int (t : tok) : option Z := match t with TI z => Some z | _ => None end.
Definition raw_ints (l : list tok) (a b : Z) : option (list Z) := mapz a b (fun j => t <- getz l j; tok_int t).

(** meta_txt_to_json.py:11-12 hex_to_double: fromhex needs an even number of
    digits and unpack eight bytes, but the C code prints no leading zeros. *)
Definition hex_to_double (t : tok) : option F :=
  match t with TH u => if (2 ^ 60 <=? u) && (u <? 2 ^ 64) then Some (unbits u) else None | _ => None end.

(** meta_txt_to_json.py:14-146 metadata_txt_to_json. *)
Definition txt_to_json (lines : list (list tok)) : option (jmeta * jaux) :=
  dim <- line_int lines 0; kdim <- line_int lines 1; npoint <- line_int lines 2;
  nrow <- line_int lines 3; ncol <- line_int lines 4; symm <- line_int lines 5;
  nnr <- line_int lines 6; nnc <- line_int lines 7; rootr <- line_int lines 8; rootc <- line_int lines 9;
  nlr <- line_int lines 10; nlc <- line_int lines 11; hss <- line_int lines 12; minadm <- line_int lines 13;
  ninadm <- line_int lines 14; nadm <- line_int lines 15; part <- line_int lines 16;
  let row := 17 in
  '(nodes, nleaf) <- zfor 0 nnr (fun i (x : list (list Z * list Z) * Z) => let '(nodes, nleaf) := x in
      l <- getz lines (row + i);
      d <- raw_ints l 0 5;
      nc <- getz d 4;
      cs <- raw_ints l 5 (5 + nc);
      Some (nodes ++ [(d, cs)], if nc =? 0 then nleaf + 1 else nleaf)) ([], 0);
  let row := row + nnr in
  let ninadm := ninadm + nleaf in
  U <- mapz 0 nnr (fun i => l <- getz lines (row + i); raw_ints l 0 3);
  let row := row + nnr in
  B <- mapz 0 nadm (fun i => l <- getz lines (row + i); raw_ints l 0 5);
  let row := row + nadm in
  D <- mapz 0 ninadm (fun i => l <- getz lines (row + i); raw_ints l 0 4);
  let row := row + ninadm in
  mlp <- line_int lines row;
  tl <- getz lines (row + 1);
  tol <- match tl with [TE v] => Some v | _ => None end;
  hasskel <- line_int lines (row + 2);
  let row := row + 3 in
  cs <- mapz 0 npoint (fun i => l <- getz lines (row + i); mapz 0 dim (fun j => t <- getz l j; hex_to_double t));
  let row := row + npoint in
  perm <- mapz 0 npoint (fun i => line_int lines (row + i));
  let row := row + npoint in
  skel <- mapz 0 nnr (fun i => l <- getz lines (row + i); d <- raw_ints l 0 2; n <- getz d 1; xs <- raw_ints l 2 (2 + n); Some (d, xs));
  Some (JMeta nrow ncol symm nnr nnc rootr rootc nlr nlc ninadm nadm part nodes U B D,
        JAux dim kdim npoint hss minadm mlp tol hasskel (concat cs) perm skel).

(** meta_json_to_txt.py:14-174 metadata_json_to_txt, all keys present in the
    auxiliary file. *)
Definition json_to_txt (m : jmeta) (a : jaux) : option (list (list tok)) :=
  nleaf <- zfor 0 (j_nnr m) (fun i n => '(d, _) <- getz (j_nodes m) i; nc <- getz d 4; Some (if nc =? 0 then n + 1 else n)) 0;
  let hd := map (fun z => [TI z])
    [k_dim a; k_kdim a; k_npoint a; j_nrow m; j_ncol m; j_symm m; j_nnr m; j_nnc m; j_rootr m; j_rootc m;
     j_nlr m; j_nlc m; k_hss a; k_minadm a; j_ninadm m - nleaf; j_nadm m; j_part m] in
  nl <- mapz 0 (j_nnr m) (fun i =>
     '(d, cs) <- getz (j_nodes m) i;
     nc <- getz d 4;
     cs <- mapz 0 nc (getz cs);
     Some (map TI (d ++ cs ++ map (fun _ => -1) (zrange nc (2 ^ k_dim a)))));
  ul <- mapz 0 (j_nnr m) (fun i => d <- getz (j_U m) i; Some (map TI d));
  bl <- mapz 0 (j_nadm m) (fun i => d <- getz (j_B m) i; Some (map TI d));
  dl <- mapz 0 (j_ninadm m) (fun i => d <- getz (j_D m) i; Some (map TI d));
  cl <- mapz 0 (k_npoint a) (fun i => mapz 0 (k_dim a) (fun j => v <- getz (k_coord a) (i * k_dim a + j); Some (TH (bits v))));
  il <- mapz 0 (k_npoint a) (fun i => v <- getz (k_perm a) i; Some [TI v]);
  jl <- (if k_hasskel a =? 1 then
           mapz 0 (j_nnr m) (fun i => '(d, xs) <- getz (k_skel a) i; n <- getz d 1; xs <- mapz 0 n (getz xs); Some (map TI (d ++ xs)))
         else Some []);
  Some (hd ++ nl ++ ul ++ bl ++ dl ++ [[TI (k_mlp a)]; [TE (e6 (k_tol a))]; [TI (k_hasskel a)]] ++ cl ++ il ++ jl).

(** ** H2P_read_from_file *)

(** fscanf with "%d", "%lf" and SCNx64 (the bits are stored as a double). *)
Definition rdi (ts : list tok) : option (Z * list tok) := match ts with TI z :: ts => Some (z, ts) | _ => None end.
Definition rde (ts : list tok) : option (F * list tok) := match ts with TE v :: ts => Some (v, ts) | _ => None end.
Definition rdh (ts : list tok) : option (F * list tok) := match ts with TH u :: ts => Some (unbits u, ts) | _ => None end.

(** fread of [n] values to cells off, off+1, ... (fewer at the end of the file). *)
Definition fread (m : mem K) (off n : Z) (bin : list K) : option (mem K * list K) :=
  let k := Z.min n (zlen bin) in
  m <- zfor 0 k (fun j m => v <- getz bin j; st m (off + j) v) m;
  Some (m, skipn (Z.to_nat k) bin).

(** H2Pack_file_IO.c:252-302: the values read in step 1 (each pair of equal
    entries is read twice into the same variable). *)
Record rhead := RHead {
  rh_dim : Z; rh_kdim : Z; rh_npoint : Z; rh_kms : Z; rh_nnode : Z; rh_root : Z; rh_maxlevel : Z; rh_hss : Z;
  rh_minlevel : Z; rh_ninadm : Z; rh_nadm : Z
}.
Definition read_head (ts : list tok) : option (rhead * list tok) :=
  '(dim, ts) <- rdi ts; '(kdim, ts) <- rdi ts; '(npoint, ts) <- rdi ts;
  '(_, ts) <- rdi ts; '(kms, ts) <- rdi ts; '(symm, ts) <- rdi ts;
  '(_, ts) <- rdi ts; '(nnode, ts) <- rdi ts; '(_, ts) <- rdi ts; '(root, ts) <- rdi ts;
  '(_, ts) <- rdi ts; '(nlev, ts) <- rdi ts;
  if negb (symm =? 1) then None else
  '(hss, ts) <- rdi ts; '(minlevel, ts) <- rdi ts; '(ninadm, ts) <- rdi ts; '(nadm, ts) <- rdi ts; '(_, ts) <- rdi ts;
  Some (RHead dim kdim npoint kms nnode root (nlev - 1) hss minlevel ninadm nadm, ts).

(** H2Pack_file_IO.c:309-345: the arrays of step 2. *)
Record rtree := RTree {
  rt_level : mem Z; rt_cluster : mem Z; rt_mcl : mem Z; rt_nchild : mem Z; rt_children : mem Z; rt_parent : mem Z; rt_nleaf : Z
}.
Definition read_node (kdim maxch i : Z) (x : rtree * list tok) : option (rtree * list tok) :=
  let '(t, ts) := x in
  '(node, ts) <- rdi ts;
  '(lv, ts) <- rdi ts;
  '(s, ts) <- rdi ts;
  cl <- st (rt_cluster t) (2 * node) s;
  '(e, ts) <- rdi ts;
  cl <- st cl (2 * node + 1) e;
  '(nc, ts) <- rdi ts;
  nch <- st (rt_nchild t) node nc;
  mcl <- st (rt_mcl t) (2 * node) (kdim * s);
  mcl <- st mcl (2 * node + 1) (kdim * (e + 1) - 1);
  lev <- st (rt_level t) node lv;
  '(ch, pa, ts) <- zfor 0 nc (fun j (y : mem Z * mem Z * list tok) => let '(ch, pa, ts) := y in
      '(c, ts) <- rdi ts;
      ch <- st ch (i * maxch + j) c;
      pa <- st pa c node;
      Some (ch, pa, ts)) (rt_children t, rt_parent t, ts);
  '(ch, ts) <- zfor nc maxch (fun j (y : mem Z * list tok) => let '(ch, ts) := y in
      '(_, ts) <- rdi ts;
      ch <- st ch (i * maxch + j) (-1);
      Some (ch, ts)) (ch, ts);
  Some (RTree lev cl mcl nch ch pa (if nc =? 0 then rt_nleaf t + 1 else rt_nleaf t), ts).
Definition read_tree (nnode kdim maxch : Z) (ts : list tok) : option (rtree * list tok) :=
  zfor 0 nnode (read_node kdim maxch)
    (RTree (alloc nnode) (alloc (nnode * 2)) (alloc (nnode * 2)) (alloc nnode) (alloc (nnode * maxch)) (alloc nnode) 0, ts).

(** H2Pack_file_IO.c:346-361: level_n_node and level_nodes. *)
Definition read_levels (nnode nleaf maxlevel : Z) (lev : mem Z) : option (mem Z * mem Z) :=
  ln <- zfor 0 nnode (fun i m => st m i 0) (alloc nnode);
  zfor 0 nnode (fun node (x : mem Z * mem Z) => let '(ln, lns) := x in
    level <- ld lev node;
    idx <- ld ln level;
    lns <- st lns (level * nleaf + idx) node;
    ln <- bump ln level;
    Some (ln, lns)) (ln, alloc (nleaf * (maxlevel + 1))).

(** H2Pack_file_IO.c:377-387: U. *)
Definition read_U (nnode : Z) (ts : list tok) (bin : list K) : option (list (option (dmat K)) * list tok * list K) :=
  zfor 0 nnode (fun _ (x : list (option (dmat K)) * list tok * list K) => let '(U, ts, bin) := x in
    '(node, ts) <- rdi ts;
    '(nrow, ts) <- rdi ts;
    '(ncol, ts) <- rdi ts;
    let m := dm_init nrow ncol in
    '(d, bin) <- fread (dm_data m) 0 (nrow * ncol) bin;
    U <- setz U node (Some (mkDM nrow ncol (dm_ld m) (dm_size m) d));
    Some (U, ts, bin)) (arr nnode None, ts, bin).

(** H2Pack_file_IO.c:389-412, 415-452: pairs and sizes of a family of blocks; the
    blocks first, ..., first+n-1. [more]: a further int at the end of the line.
    The array of pairs is a list that grows. *)
Definition read_pairs (more : bool) (first n : Z) (x : list (Z * Z) * mem Z * mem Z * mem Z * Z * list tok)
    : option (list (Z * Z) * mem Z * mem Z * mem Z * Z * list tok) :=
  zfor 0 n (fun i (x : list (Z * Z) * mem Z * mem Z * mem Z * Z * list tok) => let '(ps, nr, nc, ptr, tot, ts) := x in
    '(n0, ts) <- rdi ts;
    '(n1, ts) <- rdi ts;
    '(r, ts) <- rdi ts;
    nr <- st nr (first + i) r;
    '(c, ts) <- rdi ts;
    nc <- st nc (first + i) c;
    ts <- (if more then '(_, ts) <- rdi ts; Some ts else Some ts);
    ptr <- st ptr (first + i + 1) (r * c);
    Some (ps ++ [(n0, n1)], nr, nc, ptr, tot + r * c, ts)) x.
(** ... for the leaves, whose node goes to leaf_nodes. *)
Definition read_leaves (n : Z) (x : mem Z * mem Z * mem Z * mem Z * Z * list tok) : option (mem Z * mem Z * mem Z * mem Z * Z * list tok) :=
  zfor 0 n (fun i (x : mem Z * mem Z * mem Z * mem Z * Z * list tok) => let '(lf, nr, nc, ptr, tot, ts) := x in
    '(n0, ts) <- rdi ts;
    lf <- st lf i n0;
    '(n1, ts) <- rdi ts;
    lf <- st lf i n1;
    '(r, ts) <- rdi ts;
    nr <- st nr i r;
    '(c, ts) <- rdi ts;
    nc <- st nc i c;
    ptr <- st ptr (i + 1) (r * c);
    Some (lf, nr, nc, ptr, tot + r * c, ts)) x.

(** H2Pack_file_IO.c:461-490: the coordinates (coord and coord0 of the handle)
    and coord_idx. *)
Definition read_coords (npoint dim : Z) (ts : list tok) : option (mem F * mem F * mem Z * list tok) :=
  '(c0, ts) <- zfor 0 npoint (fun i x => zfor 0 dim (fun j (x : mem F * list tok) => let '(c0, ts) := x in
      '(v, ts) <- rdh ts;
      c0 <- st c0 (i * dim + j) v;
      Some (c0, ts)) x) (alloc (npoint * dim), ts);
  '(idx, ts) <- zfor 0 npoint (fun i (x : mem Z * list tok) => let '(idx, ts) := x in
      '(v, ts) <- rdi ts;
      idx <- st idx i v;
      Some (idx, ts)) (alloc npoint, ts);
  '(co, cu) <- zfor 0 npoint (fun i x =>
      idx0 <- ld idx i;
      zfor 0 dim (fun j (x : mem F * mem F) => let '(co, cu) := x in
        v <- ld c0 (idx0 * dim + j);
        co <- st co (j * npoint + i) v;
        cu <- st cu (j * npoint + idx0) v;
        Some (co, cu)) x) (alloc (npoint * dim), alloc (npoint * dim));
  Some (co, cu, idx, ts).

(** H2Pack_file_IO.c:493-525: skeletons. *)
Definition read_skel (npoint dim nnode : Z) (co : mem F) (ts : list tok) : option (list (option int_vec) * list (option (dmat F)) * list tok) :=
  zfor 0 nnode (fun _ (x : list (option int_vec) * list (option (dmat F)) * list tok) => let '(J, Jc, ts) := x in
    '(node, ts) <- rdi ts;
    '(len, ts) <- rdi ts;
    if 0 <? len then
      let v := iv_init len in
      '(d, ts) <- zfor 0 len (fun j (y : mem Z * list tok) => let '(d, ts) := y in
          '(p, ts) <- rdi ts;
          d <- st d j p;
          Some (d, ts)) (iv_data v, ts);
      idx <- read_cells d 0 len;
      let m := dm_init dim len in
      g <- gather_matrix_cols dim len idx co npoint (dm_data m) (dm_ld m);
      J <- setz J node (Some (mkIV (iv_cap v) len d));
      Jc <- setz Jc node (Some (dm_set_data m g));
      Some (J, Jc, ts)
    else
      let m := @dm_init F dim 1 in
      J <- setz J node (Some (iv_init 1));
      Jc <- setz Jc node (Some (mkDM 0 0 0 (dm_size m) (dm_data m)));
      Some (J, Jc, ts)) (arr nnode None, arr nnode None, ts).

(** H2Pack_file_IO.c:529-567: the data of the blocks i, lo <= i < hi, one after
    the other from cell [off] on. *)
Definition read_data (lo hi : Z) (nr nc : mem Z) (x : mem K * Z * list K) : option (mem K * Z * list K) :=
  zfor lo hi (fun i (x : mem K * Z * list K) => let '(d, off, bin) := x in
    r <- ld nr i;
    c <- ld nc i;
    '(d, bin) <- fread d off (r * c) bin;
    Some (d, off + r * c, bin)) x.

(** H2Pack_file_IO.c:586-665: work blocks, offsets and look-up of the B blocks, and
    node_n_r_adm, from the sizes. *)
Definition read_Bmeta (nnode nthread ntask : Z) (pairs : list (Z * Z)) (nr nc ptr : mem Z) (tot : Z) (ord : list Z) (blk : int_vec)
    : option (bmeta * mem Z * int_vec) :=
  cnt <- zfor 0 nnode (fun i m => st m i 0) (alloc nnode);
  '(ps, cnt) <- zfor 0 (zlen pairs) (fun i (x : list (Z * Z * Z) * mem Z) => let '(ps, cnt) := x in
      '(n0, n1) <- getz pairs i;
      cnt <- bump cnt n0;
      cnt <- bump cnt n1;
      Some (ps ++ [(n0, n1, i + 1)] ++ [(n1, n0, - (i + 1))], cnt)) ([], cnt);
  sizes <- read_cells ptr 1 (zlen pairs);
  blk <- partition_workload (zlen pairs) sizes tot (nthread * ntask) blk;
  ptr <- prefix_sums (zlen pairs) ptr;
  '(rp, ci, va) <- pair_index nnode (zlen pairs * 2) ps ord;
  Some (BMeta nr nc ptr tot rp ci va, cnt, blk).

(** H2Pack_file_IO.c:667-733: the same for the D blocks. *)
Definition read_Dmeta (nnode nleaf nthread ntask : Z) (lf : mem Z) (pairs : list (Z * Z)) (nr nc ptr : mem Z) (tot0 tot1 : Z) (ord : list Z)
    (blk0 blk1 : int_vec) : option (bmeta * int_vec * int_vec) :=
  ps <- zfor 0 nleaf (fun i (ps : list (Z * Z * Z)) => node <- ld lf i; Some (ps ++ [(node, node, i + 1)])) [];
  ps <- zfor 0 (zlen pairs) (fun i (ps : list (Z * Z * Z)) =>
      '(n0, n1) <- getz pairs i;
      Some (ps ++ [(n0, n1, i + nleaf + 1)] ++ [(n1, n0, - (i + nleaf + 1))])) ps;
  sizes0 <- read_cells ptr 1 nleaf;
  blk0 <- partition_workload nleaf sizes0 tot0 (nthread * ntask) blk0;
  sizes1 <- read_cells ptr (nleaf + 1) (zlen pairs);
  blk1 <- partition_workload (zlen pairs) sizes1 tot1 (nthread * ntask) blk1;
  ptr <- prefix_sums (nleaf + zlen pairs) ptr;
  '(rp, ci, va) <- pair_index nnode (nleaf + 2 * zlen pairs) ps ord;
  Some (BMeta nr nc ptr (tot0 + tot1) rp ci va, blk0, blk1).

(** What reading delivers. *)
Record rfile := RFile {
  rf_h : h2rep F K; rf_bm : bmeta; rf_dm : bmeta; rf_hss : Z; rf_root : Z; rf_mlp : Z; rf_tol : F;
  rf_coord : mem F; rf_coord0 : mem F; rf_idx : mem Z; rf_J : list (option int_vec); rf_Jc : list (option (dmat F)); rf_jit : bool
}.

(** H2Pack_file_IO.c:252-741, steps 1 to 12 of H2P_read_from_file on the text file
    [ts] (its tokens) and the binary file [bin], with [nthread] OpenMP threads.
    node_height and enbox are not set.  [jit]: the argument BD_JIT. *)
Definition read_from_file_1_12 (nthread : Z) (jit : bool) (ordB ordD : list Z) (ts : list tok) (bin : list K) : option rfile :=
  '(rh, ts) <- read_head ts;
  let nnode := rh_nnode rh in
  let dim := rh_dim rh in
  let kdim := rh_kdim rh in
  let npoint := rh_npoint rh in
  '(t, ts) <- read_tree nnode kdim (2 ^ dim) ts;
  let nleaf := rt_nleaf t in
  '(ln, lns) <- read_levels nnode nleaf (rh_maxlevel rh) (rt_level t);
  hn <- zfor 0 nnode (fun i m => st m i 0) (alloc nnode);
  hns <- st (alloc (nleaf * (rh_maxlevel rh + 1))) 0 nleaf;
  '(U, ts, bin) <- read_U nnode ts bin;
  ptr <- st (alloc (rh_nadm rh + 1)) 0 0;
  '(adm, Bnr, Bnc, Bptr, Btot, ts) <- read_pairs true 0 (rh_nadm rh) ([], alloc (rh_nadm rh), alloc (rh_nadm rh), ptr, 0, ts);
  let nD := nleaf + rh_ninadm rh in
  ptr <- st (alloc (nD + 1)) 0 0;
  '(hns, Dnr, Dnc, Dptr, Dtot0, ts) <- read_leaves nleaf (hns, alloc nD, alloc nD, ptr, 0, ts);
  '(inadm, Dnr, Dnc, Dptr, Dtot1, ts) <- read_pairs false nleaf (rh_ninadm rh) ([], Dnr, Dnc, Dptr, 0, ts);
  '(mlp, ts) <- rdi ts;
  '(tol, ts) <- rde ts;
  '(hasskel, ts) <- rdi ts;
  '(co, cu, idx, ts) <- read_coords npoint dim ts;
  '(J, Jc, ts) <- (if hasskel =? 0 then Some (arr nnode None, arr nnode None, ts) else read_skel npoint dim nnode co ts);
  let jit := jit && negb (hasskel =? 0) in
  '(Bd, _, bin) <- (if jit : bool then Some ([], 0, bin) else read_data 0 (rh_nadm rh) Bnr Bnc (alloc Btot, 0, bin));
  '(Dd, _, bin) <- (if jit : bool then Some ([], 0, bin) else
                      x <- read_data 0 nleaf Dnr Dnc (alloc (Dtot0 + Dtot1), 0, bin);
                      read_data nleaf nD Dnr Dnc x);
  let ntask := if jit then 10 else 1 in
  '(bm, cnt, blkB) <- read_Bmeta nnode nthread ntask adm Bnr Bnc Bptr Btot ordB (iv_init (nthread * 10 + 5));
  '(dm, blkD0, blkD1) <- read_Dmeta nnode nleaf nthread ntask hns inadm Dnr Dnc Dptr Dtot0 Dtot1 ordD (iv_init (nthread * 10 + 5)) (iv_init (nthread * 10 + 5));
  '(fwd, bwd) <- pmt_indices npoint kdim idx;
  fwd <- read_cells fwd 0 (npoint * kdim);
  bwd <- read_cells bwd 0 (npoint * kdim);
  Some (RFile
    {| h_ptdim := dim; h_npoint := npoint; h_kdim := kdim; h_nthread := nthread; h_nnode := nnode; h_maxchild := 2 ^ dim;
       h_nleaf := nleaf; h_maxlevel := rh_maxlevel rh; h_minlevel := rh_minlevel rh; h_kms := rh_kms rh;
       h_t := TArr (rt_parent t) (rt_children t) (rt_cluster t) (rt_nchild t) (rt_level t) [] ln lns hn hns [];
       h_mcl := rt_mcl t; h_U := map unset_mat U; h_adm := adm; h_inadm := inadm; h_nr := cnt;
       h_Bnrow := bm_nrow bm; h_Bncol := bm_ncol bm; h_Bptr := bm_ptr bm; h_Bdata := Bd;
       h_Dnrow := bm_nrow dm; h_Dncol := bm_ncol dm; h_Dptr := bm_ptr dm; h_Ddata := Dd;
       h_Bblk := blkB; h_D0blk := blkD0; h_D1blk := blkD1; h_fwd := fwd; h_bwd := bwd |}
    bm dm (rh_hss rh) (rh_root rh) mlp tol co cu idx J Jc jit).

(** ** Step 13 *)

(** H2Pack_gen_proxy_point.c:361-414 H2P_calc_enclosing_box with fname == NULL: one
    box. *)
Definition calc_enclosing_box (dim npoint : Z) (coord : mem F) : option (mem F) :=
  centre <- mapz 0 dim (fun j =>
    s <- zfor 0 npoint (fun i s => v <- ld coord (j * npoint + i); Some (nadd s v)) (nlit 0%Q);
    Some (ndiv s (nlit (inject_Z npoint))));
  radius <- zfor 0 dim (fun j r => zfor 0 npoint (fun i r =>
      v <- ld coord (j * npoint + i); c <- getz centre j; Some (nmax r (nabs (nsub v c)))) r) (nlit 0%Q);
  zfor 0 dim (fun j b => c <- getz centre j; b <- st b j (nsub c radius); st b (dim + j) (nmul (nlit 2%Q) radius)) (alloc (2 * dim)).

(** H2Pack_partition.c:439-505 H2P_calc_node_inadm_lists: node_inadm_lists and
    node_n_r_inadm; ALPHA_H2 and ALPHA_HSS of H2Pack_config.h:103-104. *)
Definition calc_node_inadm_lists (dim nnode nleaf maxlevel minlevel : Z) (leaves level ln lns : mem Z) (enbox : mem F)
    : option (mem Z * mem Z) :=
  let maxnb := 3 ^ dim in
  cnt <- zfor 0 nnode (fun i m => st m i 0) (alloc nnode);
  '(_, ls, cnt) <- zfor 0 (maxlevel - minlevel + 1) (fun k (x : int_vec * mem Z * mem Z) => let '(tl, ls, cnt) := x in
    let i := maxlevel - k in
    n <- ld ln i;
    tl <- zfor 0 n (fun j tl => node <- ld lns (i * nleaf + j); iv_push_back tl node) (mkIV (iv_cap tl) 0 (iv_data tl));
    tl <- zfor 0 nleaf (fun j tl => leaf <- ld leaves j; lv <- ld level leaf; if lv <? i then iv_push_back tl leaf else Some tl) tl;
    '(ls, cnt) <- zfor 0 n (fun j (x : mem Z * mem Z) => let '(ls, cnt) := x in
      node <- ld lns (i * nleaf + j);
      '(ls, cnt, _) <- zfor 0 (iv_len tl) (fun q (x : mem Z * mem Z * Z) => let '(ls, cnt, nin) := x in
          tgt <- ld (iv_data tl) q;
          h2 <- check_box_admissible enbox (node * 2 * dim) enbox (tgt * 2 * dim) dim (nlit (999999 # 1000000)%Q);
          hss <- check_box_admissible enbox (node * 2 * dim) enbox (tgt * 2 * dim) dim (nlit (-1 # 1000000)%Q);
          '(ls, nin) <- (if negb h2 && hss && negb (tgt =? node) then
                           if nin <? maxnb then ls <- st ls (node * maxnb + nin) tgt; Some (ls, nin + 1) else None
                         else Some (ls, nin));
          cnt <- st cnt node nin;
          Some (ls, cnt, nin)) (ls, cnt, 0);
      Some (ls, cnt)) (ls, cnt);
    Some (tl, ls, cnt)) (iv_init (2 * nleaf), alloc (nnode * maxnb), cnt);
  Some (ls, cnt).

(** H2Pack_file_IO.c:743-745: step 13.  HSS_min_adm_level is 0 (from H2P_init)
    unless is_HSS. *)
Definition read_step_13 (r : rfile) : option (mem F * mem Z * mem Z) :=
  let h := rf_h r in
  box <- calc_enclosing_box (h_ptdim h) (h_npoint h) (rf_coord r);
  '(ls, cnt) <- calc_node_inadm_lists (h_ptdim h) (h_nnode h) (h_nleaf h) (h_maxlevel h)
     (if rf_hss r =? 0 then 0 else h_minlevel h)
     (a_height_nodes (h_t h)) (a_level (h_t h)) (a_level_n (h_t h)) (a_level_nodes (h_t h)) box;
  Some (box, ls, cnt).

(** H2Pack_file_IO.c:252-754. *)
Definition read_from_file (nthread : Z) (jit : bool) (ordB ordD : list Z) (ts : list tok) (bin : list K) : option (rfile * (mem F * mem Z * mem Z)) :=
  r <- read_from_file_1_12 nthread jit ordB ordD ts bin;
  x <- read_step_13 r;
  Some (r, x).
End FileIO.
Arguments tok : clear implicits.
Arguments rfile : clear implicits.
Arguments sfields : clear implicits.
Arguments jaux : clear implicits.
