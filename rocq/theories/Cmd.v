(** src/BFS.cpp, SSSP.cpp, TopologicalSort.cpp, TriangleCounting.cpp, DeltaStepping.cpp from the edge files to the printed text
    (Apps.v has the part in between).  What a rank prints is a sequence of character codes.  Not
    modelled here: the arguments (CmdArgs.v); not at all: lines about times and progress, the order in which the text of
    different ranks arrives.  printf and std::cout write to the same stream in order (the default). *)
From Coq Require Import String Ascii.
From Verif Require Import Base Segment DCSC EdgeList SpMat Graph GraphVert GraphHist Apps FileIO.

(** a string constant *)
Definition chars (s : string) : list Z := map (fun c => Z.of_nat (nat_of_ascii c)) (list_ascii_of_string s).
(** %lld of an unsigned long long; %lu *)
Definition print_lld (z : Z) : list Z :=
  let s := (z + 2 ^ 63) mod 2 ^ 64 - 2 ^ 63 in if s <? 0 then 45 :: dec_digits 19 (- s) else dec_digits 19 s.
Definition print_lu (z : Z) : list Z := dec_digits 20 (z mod 2 ^ 64).

(** Graph.h:248-259 ReadMTX up to the call of ReadEdgelist: the number of vertices and the edges of
    every rank.  The dimensions are the same on all ranks. *)
Definition read_mtx {E} (w : wtype E) (wide : Z -> Z) (fuel : nat) (nr : Z) (dir : dirt) : R (Z * list (list (edge E))) :=
  do els <- load_edgelist w wide fuel (mkFmt true true true) nr dir ;;
  do blobs <- mapR (fun el => mapR (rde el) (zrange 0 (el_nnz el))) els ;;
  match els with
  | [] => Err Uninit
  | el :: _ => Ok (if negb (el_m el =? el_n el) then Z.max (el_m el) (el_n el) else el_m el, blobs)
  end.

(** Graph.h:211-246 ReadEdgelist of the edge lists the ranks hold; the dimensions are the same on all ranks *)
Definition read_elists {V E byte} (m : machine V E byte) (dv : V) (els : list (elist E)) : R (graph V E byte) :=
  do blobs <- mapR (fun el => mapR (rde el) (zrange 0 (el_nnz el))) els ;;
  match els with
  | [] => Err Uninit
  | el :: _ =>
      do r <- g_ReadEdgelist (m_srt m) (m_tsrt m) (m_nr m) (m_nt m) (m_junkA m) (m_junkT m) (m_vjunk m) (m_ajunk m) (m_vfresh m) (m_afresh m) dv (el_m el) (el_n el) blobs ;;
      Ok (fst r)
  end.

Section Print.
  Context {V E byte : Type}.
  Variables (m : machine V E byte) (d : V).
  (** [for (int i = 1; i <= min(k, n); i++) if (G.vertexNodeOwner(i)) ...] on rank [r], where each pass prints
      [line i] of the property: BFS.cpp:146-154, SSSP.cpp:134-139, TopologicalSort.cpp:186-190,
      TriangleCounting.cpp:198-202 *)
  Definition print_owned (k : Z) (line : Z -> V -> list Z) (g : graph V E byte) (r : Z) : R (list Z) :=
    do l <- mapR (fun i =>
        do o <- owns m g r i ;;
        if o : bool then do a <- read_property m g r i d ;; do a <- need a ;; Ok (line i a) else Ok [])
      (zrange 1 (Z.min k (g_n g) + 1)) ;;
    Ok (concat l).
  (** what every rank prints, from its own result of the reduction *)
  Definition every_rank (f : Z -> Z -> R (list Z)) (ks : list Z) : R (list (list Z)) :=
    mapR (fun p => f (fst p) (snd p)) (combine (zrange 0 (m_nr m)) ks).
End Print.

Section Commands.
  Context {byte : Type}.
  Variables (wide : Z -> Z) (ffuel fuel : nat) (th : Z) (dir : dirt).
  (** BFS.cpp:110-156; lines 146-154: the parent is printed with %lld *)
  Definition bfs_line (i : Z) (v : bfs_vertex) : list Z :=
    if b_depth v <? MAX_DIST then chars "Depth " ++ print_d i ++ chars " : " ++ print_d (i32 (b_depth v)) ++ chars " parent: " ++ print_lld (b_parent v) ++ [10]
    else chars "Depth " ++ print_d i ++ chars " : INF " ++ [10].
  Definition bfs_cmd (m : machine bfs_vertex Z byte) (fr : frame Z Z byte) (dt : Z) (dv : bfs_vertex) (v : Z) : R (list (list Z)) :=
    do q <- read_mtx (w_int wide) wide ffuel (m_nr m) dir ;;
    do p <- run_bfs m th fr dt dv fuel (fst q) (snd q) v ;;
    every_rank m (fun r k =>
      do l <- print_owned m bfs_new 10 bfs_line (fst p) r ;;
      Ok ((if r =? 0 then chars "Reachable vertices = " ++ print_d k ++ chars " " ++ [10] else []) ++ l)) (snd p).

  (** SSSP.cpp:101-142; the text of print is at lines 54-60 *)
  Definition sssp_line (i v : Z) : list Z :=
    print_d i ++ chars " : " ++ (if v <? MAX_DIST then chars "distance = " ++ print_u v ++ [10] else chars "distance = INF" ++ [10]).
  Definition sssp_cmd (m : machine Z Z byte) (fr : frame Z Z byte) (dt dv v : Z) : R (list (list Z)) :=
    do q <- read_mtx (w_int wide) wide ffuel (m_nr m) dir ;;
    do p <- run_sssp m th fr dt dv fuel (fst q) (snd q) v ;;
    every_rank m (fun r k =>
      do l <- print_owned m MAX_DIST 25 sssp_line (fst p) r ;;
      Ok ((if r =? 0 then chars "Reachable vertices = " ++ print_d k ++ chars " " ++ [10] else []) ++ l)) (snd p).

  (** TopologicalSort.cpp:140-193 *)
  Definition top_line (i : Z) (v : top_vertex) : list Z := chars "Top Sort order " ++ print_d i ++ chars " : " ++ print_d (i32 (t_order v)) ++ [10].
  Definition topsort_cmd (m : machine top_vertex Z byte) (fr1 : frame Z Z byte) (fr2 : frame bool Z byte) (dt1 : Z) (dt2 : bool) (dv : top_vertex) : R (list (list Z)) :=
    do q <- read_mtx (w_int wide) wide ffuel (m_nr m) dir ;;
    do p <- run_topsort m th fr1 fr2 dt1 dt2 dv fuel (fst q) (snd q) ;;
    every_rank m (fun r k =>
      if 0 <? k then Ok (if r =? 0 then chars "Topological Sort not possible. Graph has cycles." ++ [10] else [])
      else print_owned m top_new 10 top_line (fst p) r) (snd p).

  (** TriangleCounting.cpp:162-203; the text of print is at lines 51-54 *)
  Definition tri_line (i : Z) (v : tc_vertex) : list Z := print_d (tc_id v) ++ chars " : " ++ print_d (tc_triangles v) ++ chars " : " ++ [10].
  Definition triangles_cmd (srt : list Z -> list Z) (m : machine tc_vertex Z byte) (fr1 : frame Z (list Z) byte) (fr2 : frame tc_vertex Z byte) (dt1 : Z) (dt2 dv : tc_vertex) (junk : Z) : R (list (list Z)) :=
    do q <- read_mtx (w_int wide) wide ffuel (m_nr m) dir ;;
    do p <- run_triangles srt m th fr1 fr2 dt1 dt2 dv junk (fst q) (snd q) ;;
    every_rank m (fun r k =>
      do l <- print_owned m (mkTC junk 0 []) 10 tri_line (fst p) r ;;
      Ok ((if r =? 0 then chars "Total triangles = " ++ print_lu k ++ chars " " ++ [10] else []) ++ l)) (snd p).

  (** DeltaStepping.cpp:124-199; the text of print is at lines 55-60.  [rounds]: how many buckets we watch *)
  Definition delta_line (i : Z) (v : ds_vertex) : list Z :=
    print_d i ++ chars " : " ++ (if d_dist v <? MAX_DIST then chars "distance = " ++ print_u (d_dist v) ++ [10] else chars "distance = INF" ++ [10]).
  Definition delta_cmd (m : machine ds_vertex Z byte) (fr : frame Z Z byte) (dt : Z) (dv : ds_vertex) (rounds : nat) (delta source : Z) : R (list (list Z)) :=
    do els <- load_edgelist (w_int wide) wide ffuel (mkFmt true true true) (m_nr m) dir ;;
    do light <- mapR (fun el => do r <- filter_edges (fun e => e_val e <=? delta) el ;; Ok (snd r)) els ;;
    do heavy <- mapR (fun el => do r <- filter_edges (fun e => e_val e >? delta) el ;; Ok (snd r)) els ;;
    do g <- read_elists m ds_new light ;;
    do g2 <- read_elists m ds_new heavy ;;
    do q <- delta_run m th fr dt dv fuel delta rounds source g g2 ;;
    do p <- delta_count m th (fst q) ;;
    every_rank m (fun r k =>
      do l <- print_owned m ds_new 25 delta_line (fst p) r ;;
      Ok ((if r =? 0 then chars "Number of buckets processed = " ++ print_d (snd q) ++ chars " " ++ [10] else []) ++
          (if r =? 0 then chars "Reachable vertices = " ++ print_d k ++ chars " " ++ [10] else []) ++ l)) (snd p).
End Commands.
