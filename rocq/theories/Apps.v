(** The applications in src/: their vertex programs and the functions that drive them.  Timing and
    printing are left out; of what is printed, the counts computed by applyReduceAllVertices are
    kept.  Reading the input file is left out: an application starts from the edges each rank read.
    All of them run the same code on every rank. *)
From Verif Require Import Base Layout Reduce DCSC MatSpec Segment Vec SpMat GraphVert Graph Runtime GraphOps RunSpec GraphHist.

(** unsigned int, unsigned long long and int arithmetic.  Overflow of [int] is undefined in C++;
    here it wraps, and no theorem relies on it. *)
Definition u32 (x : Z) : Z := x mod 2 ^ 32.
Definition i32 (x : Z) : Z := (x + 2 ^ 31) mod 2 ^ 32 - 2 ^ 31.
Definition i32_add (a b : Z) : Z := i32 (a + b).
(** std::numeric_limits<unsigned int>::max(), std::numeric_limits<int>::max() *)
Definition MAX_DIST : Z := 2 ^ 32 - 1.
Definition INT_MAX : Z := 2 ^ 31 - 1.
(** reduce functions of several programs: [a = (a<=b)?(a):(b)] (src/SSSP.cpp:73-75,
    src/DeltaStepping.cpp:78-80) *)
Definition keep_min (a b : Z) : Z := if a <=? b then a else b.

Section Common.
  Context {V E byte : Type}.
  Variable m : machine V E byte.
  Notation gr := (graph V E byte).

  (** [auto p = G.getVertexproperty(v); p = f(p); G.setVertexproperty(v, p);] on every rank; [d]:
      what the local variable of getVertexproperty holds on ranks that do not own [v] *)
  Definition modify (th v : Z) (d : V) (f : V -> V) (g : gr) : R gr :=
    do vp <- on_ranks (m_nr m) (fun r segs =>
        do a <- g_getVertexproperty (g_n g) (m_nr m) (g_nt g) r v d segs ;;
        do a <- need a ;;
        g_setVertexproperty (g_n g) (m_nr m) (g_nt g) th r v (f a) segs) (g_vp g) ;;
    Ok (set_vp vp g).
  (** the same inside [if (G.vertexNodeOwner(v))] *)
  Definition modify_owned (th v : Z) (d : V) (f : V -> V) (g : gr) : R gr :=
    do vp <- on_ranks (m_nr m) (fun r segs =>
        do o <- g_vertexNodeOwner (g_n g) (m_nr m) (g_nt g) r v ;;
        if o : bool then
          do a <- g_getVertexproperty (g_n g) (m_nr m) (g_nt g) r v d segs ;;
          do a <- need a ;;
          g_setVertexproperty (g_n g) (m_nr m) (g_nt g) th r v (f a) segs
        else Ok segs) (g_vp g) ;;
    Ok (set_vp vp g).

  (** GraphMatRuntime.h:60-70 graph_program_init *)
  Definition program_init {T U} (th : Z) (fr : frame T U byte) (dt : T) (g : gr) : R (list (list (seg T byte)) * list (list (seg U byte))) :=
    new_temps (m_nr m) th (f_tjunk fr) (f_ujunk fr) (f_tfresh fr) (f_ufresh fr) dt (f_du fr) (g_n g).
End Common.

(** *** src/BFS.cpp *)
Section BFS.
  (** lines 40-60 *)
  Record bfs_vertex := mkB { b_depth : Z; b_parent : Z; b_id : Z }.
  Definition bfs_new : bfs_vertex := mkB MAX_DIST (2 ^ 64 - 1) (2 ^ 64 - 1).
  Definition bfs_neq (a b : bfs_vertex) : bool := negb (b_depth a =? b_depth b).
  (** lines 62-99; the object holds current_depth *)
  Definition bfs : program Z Z Z bfs_vertex Z := mkP OUT_EDGES false false
    (fun s v _ => (b_id v, b_depth v =? u32 (s - 1)))
    (fun _ t _ _ => t)
    (fun _ a b => b)
    (fun s u v => if b_depth v =? MAX_DIST then mkB s u (b_id v) else v)
    (fun _ s => u32 (s + 1)).
  (** lines 101-107 *)
  Definition bfs_reachable (v : bfs_vertex) : bfs_vertex * Z := (v, if b_depth v <? MAX_DIST then 1 else 0).

  Context {byte : Type}.
  (** lines 110-143: load, the loop over ids, graph_program_init, the source, the run, the count.
      [dt], [dv]: what locals of run_graph_program hold; [fuel]: how many supersteps we watch. *)
  Definition run_bfs (m : machine bfs_vertex Z byte) (th : Z) (fr : frame Z Z byte) (dt : Z) (dv : bfs_vertex) (fuel : nat) (n : Z) (blobs : list (list (edge Z))) (v : Z) : R (graph bfs_vertex Z byte * list Z) :=
    do g <- load m bfs_new n blobs ;;
    do g <- forZ 0 n (fun i g => modify m th (i + 1) bfs_new (fun p => mkB (b_depth p) (b_parent p) (i + 1)) g) g ;;
    do tmp <- program_init m th fr dt g ;;
    do g <- run_call bfs_neq m th CAllInactive g ;;
    do g <- modify m th v bfs_new (fun p => mkB 0 (b_parent p) (b_id p)) g ;;
    do g <- run_call bfs_neq m th (CActive v) g ;;
    do r <- run_job bfs_neq m th (mkJ bfs 1 (-1) dt dv fuel) fr (Some tmp) g ;;
    g_applyReduceAllVertices (m_nr m) th bfs_reachable i32_add (fun _ => 0) (r_g (fst r)).
End BFS.

(** *** src/SSSP.cpp, for integer weights *)
Section SSSP.
  (** lines 44-61: the property is the distance *)
  Definition sssp_neq (a b : Z) : bool := negb (a =? b).
  (** lines 63-90 *)
  Definition sssp : program unit Z Z Z Z := mkP OUT_EDGES false false
    (fun _ v _ => (v, true))
    (fun _ t e _ => u32 (t + e))
    (fun _ => keep_min)
    (fun _ u v => Z.min v u)
    (fun _ s => s).
  (** lines 92-98 *)
  Definition sssp_reachable (v : Z) : Z * Z := (v, if v <? MAX_DIST then 1 else 0).

  Context {byte : Type}.
  (** lines 101-130 *)
  Definition run_sssp (m : machine Z Z byte) (th : Z) (fr : frame Z Z byte) (dt dv : Z) (fuel : nat) (n : Z) (blobs : list (list (edge Z))) (v : Z) : R (graph Z Z byte * list Z) :=
    do g <- load m MAX_DIST n blobs ;;
    do tmp <- program_init m th fr dt g ;;
    do g <- run_call sssp_neq m th (CSetAll MAX_DIST) g ;;
    do g <- run_call sssp_neq m th CAllInactive g ;;
    do g <- run_call sssp_neq m th (CSet v 0) g ;;
    do g <- run_call sssp_neq m th (CActive v) g ;;
    do r <- run_job sssp_neq m th (mkJ sssp tt (-1) dt dv fuel) fr (Some tmp) g ;;
    g_applyReduceAllVertices (m_nr m) th sssp_reachable i32_add (fun _ => 0) (r_g (fst r)).
End SSSP.

(** *** src/TopologicalSort.cpp *)
Section TopSort.
  (** lines 39-57.  [t_failed] is not in the code: it records that an assertion failed in [apply]
      for this vertex *)
  Record top_vertex := mkT { t_order : Z; t_deg : Z; t_failed : bool }.
  Definition top_new : top_vertex := mkT MAX_DIST 0 false.
  Definition top_neq (a b : top_vertex) : bool := negb (t_order a =? t_order b).
  (** lines 59-86 *)
  Definition indegree : program unit Z Z top_vertex Z := mkP OUT_EDGES true false
    (fun _ _ _ => (1, true)) (fun _ t _ _ => t) (fun _ => i32_add)
    (fun _ u v => mkT (t_order v) u (t_failed v)) (fun _ s => s).
  (** lines 89-130; the object holds current_topsort_order *)
  Definition topsort : program Z bool Z top_vertex Z := mkP OUT_EDGES false false
    (fun _ v _ => (t_deg v =? 0, true))
    (fun _ t _ _ => if t : bool then 1 else 0)
    (fun _ => i32_add)
    (fun s u v =>
       let d := i32 (t_deg v - u) in
       mkT (if d =? 0 then s else t_order v) d (t_failed v || negb (0 <? u) || negb (0 <? t_deg v) || negb (0 <=? d)))
    (fun _ s => u32 (s + 1)).
  (** lines 132-138 *)
  Definition top_unreachable (v : top_vertex) : top_vertex * Z := (v, if t_order v =? MAX_DIST then 1 else 0).

  Context {byte : Type}.
  (** lines 157-167, one pass of the loop on every rank.  The loop is run by several threads at once;
      here its passes follow each other. *)
  Definition top_source (m : machine top_vertex Z byte) (th i : Z) (g : graph top_vertex Z byte) : R (graph top_vertex Z byte) :=
    do r <- mapR (fun r =>
        do o <- g_vertexNodeOwner (g_n g) (m_nr m) (g_nt g) r i ;;
        do vp <- rd (g_vp g) r ;; do act <- rd (g_act g) r ;;
        if o : bool then
          do a <- g_getVertexproperty (g_n g) (m_nr m) (g_nt g) r i top_new vp ;;
          do a <- need a ;;
          if t_deg a =? 0 then
            do act <- run_aop (g_n g) (m_nr m) (g_nt g) th r act (AActive i) ;;
            do vp <- g_setVertexproperty (g_n g) (m_nr m) (g_nt g) th r i (mkT 0 (t_deg a) (t_failed a)) vp ;;
            Ok (vp, act)
          else Ok (vp, act)
        else Ok (vp, act)) (zrange 0 (m_nr m)) ;;
    Ok (set_act (map snd r) (set_vp (map fst r) g)).
  (** lines 140-178 *)
  Definition run_topsort (m : machine top_vertex Z byte) (th : Z) (fr1 : frame Z Z byte) (fr2 : frame bool Z byte) (dt1 : Z) (dt2 : bool) (dv : top_vertex) (fuel : nat) (n : Z) (blobs : list (list (edge Z))) : R (graph top_vertex Z byte * list Z) :=
    do g <- load m top_new n blobs ;;
    do d_tmp <- program_init m th fr1 dt1 g ;;
    do b_tmp <- program_init m th fr2 dt2 g ;;
    do r <- run_job top_neq m th (mkJ indegree tt 1 dt1 dv 1) fr1 (Some d_tmp) g ;;
    do g <- run_call top_neq m th CAllInactive (r_g (fst r)) ;;
    do g <- forZ 1 (n + 1) (top_source m th) g ;;
    do r <- run_job top_neq m th (mkJ topsort 1 (-1) dt2 dv fuel) fr2 (Some b_tmp) g ;;
    g_applyReduceAllVertices (m_nr m) th top_unreachable i32_add (fun _ => 0) (r_g (fst r)).
End TopSort.

(** *** src/PageRank.cpp *)
(** What the programs need of floating point numbers: 0.3, 0.0, [pagerank/(float)degree], addition,
    [alpha + (1.0-alpha)*x], [fabs(x-y) > 1e-5].  Nothing is assumed about them. *)
Record floats (F : Type) := mkFl { fl_start : F; fl_zero : F; fl_share : F -> Z -> F; fl_add : F -> F -> F; fl_mix : F -> F; fl_far : F -> F -> bool }.
Arguments mkFl {F}. Arguments fl_start {F}. Arguments fl_zero {F}. Arguments fl_share {F}. Arguments fl_add {F}. Arguments fl_mix {F}. Arguments fl_far {F}.
Section PageRank.
  Context {F : Type}.
  Variable fl : floats F.
  (** lines 34-51 *)
  Record pr_vertex := mkPR { p_rank : F; p_degree : Z }.
  Definition pr_new : pr_vertex := mkPR (fl_start fl) 0.
  Definition pr_neq (a b : pr_vertex) : bool := fl_far fl (p_rank b) (p_rank a).
  (** lines 53-79 *)
  Definition degree {E} : program unit Z Z pr_vertex E := mkP IN_EDGES false false
    (fun _ _ _ => (1, true)) (fun _ t _ _ => t) (fun _ => i32_add)
    (fun _ u v => mkPR (p_rank v) u) (fun _ s => s).
  (** lines 81-112 *)
  Definition pagerank {E} : program unit F F pr_vertex E := mkP OUT_EDGES true false
    (fun _ v _ => (if p_degree v =? 0 then fl_zero fl else fl_share fl (p_rank v) (p_degree v), true))
    (fun _ t _ _ => t) (fun _ => fl_add fl)
    (fun _ u v => mkPR (fl_mix fl u) (p_degree v)) (fun _ s => s).

  Context {E byte : Type}.
  (** lines 115-149 *)
  Definition run_pagerank (m : machine pr_vertex E byte) (th : Z) (fr1 : frame Z Z byte) (fr2 : frame F F byte) (dt1 : Z) (dt2 : F) (dv : pr_vertex) (fuel : nat) (n : Z) (blobs : list (list (edge E))) : R (graph pr_vertex E byte * Z) :=
    do g <- load m pr_new n blobs ;;
    do dg_tmp <- program_init m th fr1 dt1 g ;;
    do g <- run_call pr_neq m th CAllActive g ;;
    do r <- run_job pr_neq m th (mkJ degree tt 1 dt1 dv 1) fr1 (Some dg_tmp) g ;;
    do pr_tmp <- program_init m th fr2 dt2 (r_g (fst r)) ;;
    do g <- run_call pr_neq m th CAllActive (r_g (fst r)) ;;
    do r <- run_job pr_neq m th (mkJ pagerank tt (-1) dt2 dv fuel) fr2 (Some pr_tmp) g ;;
    Ok (r_g (fst r), snd r).
End PageRank.
Arguments pr_vertex F : clear implicits.
Arguments mkPR {F}. Arguments p_rank {F}. Arguments p_degree {F}.

(** *** src/TriangleCounting.cpp *)
Section Triangles.
  (** lines 39-68; a new TC has an arbitrary id *)
  Record tc_vertex := mkTC { tc_id : Z; tc_triangles : Z; tc_neighbors : list Z }.
  Definition tc_neq (a b : tc_vertex) : bool := negb (tc_triangles b =? tc_triangles a).
  (** std::sort on a vector of int *)
  Variable srt : list Z -> list Z.
  (** lines 82-111: the reduced values are vectors *)
  Definition get_neighbors : program unit Z (list Z) tc_vertex Z := mkP IN_EDGES true false
    (fun _ v _ => (tc_id v, true)) (fun _ t _ _ => [t]) (fun _ a b => a ++ b)
    (fun _ u v => mkTC (tc_id v) (tc_triangles v) (srt u)) (fun _ s => s).
  (** lines 127-145: the two indices as the rests of the two vectors *)
  Fixpoint common (l1 l2 : list Z) : Z :=
    let fix go l2 := match l1, l2 with
      | a :: r1, b :: r2 => if a =? b then 1 + common r1 r2 else if a <? b then common r1 l2 else go r2
      | _, _ => 0
      end in go l2.
  (** lines 114-156 *)
  Definition count_triangles : program unit tc_vertex Z tc_vertex Z := mkP OUT_EDGES true true
    (fun _ v _ => (v, true)) (fun _ t _ v => i32 (common (tc_neighbors t) (tc_neighbors v))) (fun _ => i32_add)
    (fun _ u v => mkTC (tc_id v) (i32_add (tc_triangles v) u) (tc_neighbors v)) (fun _ s => s).
  (** lines 158-160: int to unsigned long; GraphMat::AddFn *)
  Definition return_triangles (v : tc_vertex) : tc_vertex * Z := (v, tc_triangles v mod 2 ^ 64).
  Definition u64_add (a b : Z) : Z := (a + b) mod 2 ^ 64.

  Context {byte : Type}.
  (** lines 162-195; [junk]: the id of a default-constructed TC *)
  Definition run_triangles (m : machine tc_vertex Z byte) (th : Z) (fr1 : frame Z (list Z) byte) (fr2 : frame tc_vertex Z byte) (dt1 : Z) (dt2 dv : tc_vertex) (junk : Z) (n : Z) (blobs : list (list (edge Z))) : R (graph tc_vertex Z byte * list Z) :=
    do g <- load m (mkTC junk 0 []) n blobs ;;
    do gn_tmp <- program_init m th fr1 dt1 g ;;
    do ct_tmp <- program_init m th fr2 dt2 g ;;
    do g <- forZ 1 (n + 1) (fun i g => modify_owned m th i (mkTC junk 0 []) (fun p => mkTC i (tc_triangles p) (tc_neighbors p)) g) g ;;
    do r <- run_job tc_neq m th (mkJ get_neighbors tt 1 dt1 dv 1) fr1 (Some gn_tmp) g ;;
    do r <- run_job tc_neq m th (mkJ count_triangles tt 1 dt2 dv 1) fr2 (Some ct_tmp) (r_g (fst r)) ;;
    g_applyReduceAllVertices (m_nr m) th return_triangles u64_add (fun _ => 0) (r_g (fst r)).
End Triangles.

(** *** src/DeltaStepping.cpp *)
Section DeltaStepping.
  (** lines 42-61 *)
  Record ds_vertex := mkD { d_dist : Z; d_bucket : Z }.
  Definition ds_new : ds_vertex := mkD MAX_DIST INT_MAX.
  Definition ds_neq (a b : ds_vertex) : bool := negb (d_dist a =? d_dist b).
  (** lines 63-98; the object holds [delta] and [bid]; line 94: unsigned division, then a conversion
      to int.  With [delta] 0 line 94 divides by zero; the model has 0 there instead, so all theorems
      about this program ask for another [delta]. *)
  Definition delta_step : program (Z * Z) Z Z ds_vertex Z := mkP OUT_EDGES false false
    (fun s v _ => (if d_bucket v =? snd s then d_dist v else MAX_DIST, true))
    (fun _ t e _ => if t <? MAX_DIST then u32 (t + e) else MAX_DIST)
    (fun _ => keep_min)
    (fun s u v => if u <? d_dist v then mkD u (i32 (Z.quot u (u32 (fst s)))) else v)
    (fun _ s => s).
  (** lines 100-110 *)
  Definition ds_reachable (v : ds_vertex) : ds_vertex * Z := (v, if d_dist v <? MAX_DIST then 1 else 0).
  Definition bucket_not_empty (bid : Z) (v : ds_vertex) : ds_vertex * Z := (v, if (bid <=? d_bucket v) && (d_bucket v <? INT_MAX) then 1 else 0).

  Context {byte : Type}.
  Notation gr := (graph ds_vertex Z byte).
  Variable m : machine ds_vertex Z byte.
  Variables (th : Z) (fr : frame Z Z byte) (dt : Z) (dv : ds_vertex) (fuel : nat) (delta : Z).

  (** lines 163-178, the body of [do ... while].  The graphs share their property vector (line 142):
      [set_vp (g_vp g) g2] is the second graph as it is after what happened to the first.  The result
      of the reduction is the same on every rank; rank 0's is used. *)
  Definition ds_round (bid : Z) (st : gr * gr * (list (list (seg Z byte)) * list (list (seg Z byte)))) : R (gr * gr * (list (list (seg Z byte)) * list (list (seg Z byte))) * Z) :=
    let '(g, g2, tmp) := st in
    do g <- run_call ds_neq m th CAllActive g ;;
    do r <- run_job ds_neq m th (mkJ delta_step (delta, bid) (-1) dt dv fuel) fr (Some tmp) g ;;
    let g := r_g (fst r) in
    let g2 := set_vp (g_vp g) g2 in
    do g2 <- run_call ds_neq m th CAllActive g2 ;;
    do r2 <- run_job ds_neq m th (mkJ delta_step (delta, bid) 1 dt dv fuel) fr (Some (r_x (fst r), r_y (fst r))) g2 ;;
    let g2 := r_g (fst r2) in
    let g := set_vp (g_vp g2) g in
    do c <- g_applyReduceAllVertices (m_nr m) th (bucket_not_empty (bid + 1)) i32_add (fun _ => 0) g ;;
    do k <- rd (snd c) 0 ;;
    Ok (fst c, set_vp (g_vp (fst c)) g2, (r_x (fst r2), r_y (fst r2)), k).
  (** lines 163-178; [rounds]: how many buckets we watch *)
  Fixpoint ds_loop (rounds : nat) (bid : Z) (st : gr * gr * (list (list (seg Z byte)) * list (list (seg Z byte)))) : R (gr * Z) :=
    match rounds with
    | O => Err NoFuel
    | S f =>
        do q <- ds_round bid st ;;
        let '(st, k) := q in
        if k =? 0 then Ok (fst (fst st), bid + 1) else ds_loop f (bid + 1) st
    end.
  (** lines 142-179 with the graphs [g] of light and [g2] of heavy edges; also the final [bid] *)
  Definition delta_run (rounds : nat) (source : Z) (g g2 : gr) : R (gr * Z) :=
    let g2 := set_vp (g_vp g) g2 in
    do tmp <- program_init m th fr dt g ;;
    do g <- run_call ds_neq m th CAllInactive g ;;
    do g <- run_call ds_neq m th (CSet source (mkD 0 0)) g ;;
    do g <- run_call ds_neq m th (CActive source) g ;;
    ds_loop rounds 0 (g, set_vp (g_vp g) g2, tmp).
  (** lines 186-187 *)
  Definition delta_count (g : gr) : R (gr * list Z) := g_applyReduceAllVertices (m_nr m) th ds_reachable i32_add (fun _ => 0) g.
  (** lines 124-187; the filters of lines 129-130 (filter_edges is treated in EdgeList.v) *)
  Definition run_delta (rounds : nat) (n : Z) (blobs : list (list (edge Z))) (source : Z) : R (gr * list Z) :=
    let light := map (filter (fun e => e_val e <=? delta)) blobs in
    let heavy := map (filter (fun e => e_val e >? delta)) blobs in
    do g <- load m ds_new n light ;;
    do g2 <- load m ds_new n heavy ;;
    do q <- delta_run rounds source g g2 ;;
    delta_count (fst q).
End DeltaStepping.
