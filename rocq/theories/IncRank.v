(** src/IncrementalPageRank.cpp.  As in Apps.v, timing, printing and reading the file are left out. *)
From Verif Require Import Base Layout Reduce DCSC MatSpec Segment Vec SpMat GraphVert Graph Runtime GraphOps RunSpec GraphHist Apps.

(** What the programs need of double arithmetic: 0.3 (lines 40-41), 0.0 (lines 103, 112),
    [delta/(double)degree] (line 105), addition (lines 96, 113, 115), [(1.0-alpha)*x] (line 113),
    [fabs(x) > 1e-8] (lines 112, 114), [fabs(x-y) > 1e-8] (line 45).  Nothing is assumed about them. *)
Record doubles (F : Type) := mkDb { db_start : F; db_zero : F; db_share : F -> Z -> F; db_add : F -> F -> F; db_damp : F -> F; db_big : F -> bool; db_far : F -> F -> bool }.
Arguments mkDb {F}. Arguments db_start {F}. Arguments db_zero {F}. Arguments db_share {F}. Arguments db_add {F}. Arguments db_damp {F}. Arguments db_big {F}. Arguments db_far {F}.

Section IncRank.
  Context {F : Type}.
  Variable db : doubles F.
  (** lines 33-50 *)
  Record ip_vertex := mkIP { ip_delta : F; ip_rank : F; ip_degree : Z }.
  Definition ip_new : ip_vertex := mkIP (db_start db) (db_start db) 0.
  Definition ip_neq (a b : ip_vertex) : bool := db_far db (ip_rank b) (ip_rank a).
  (** lines 52-78 *)
  Definition ip_degrees {E} : program unit Z Z ip_vertex E := mkP IN_EDGES false false
    (fun _ _ _ => (1, true)) (fun _ t _ _ => t) (fun _ => i32_add)
    (fun _ u v => mkIP (ip_delta v) (ip_rank v) u) (fun _ s => s).
  (** lines 111-117 *)
  Definition ip_apply (u : F) (v : ip_vertex) : ip_vertex :=
    let d := if db_big db (ip_delta v) then db_zero db else ip_delta v in
    let d := db_add db d (db_damp db u) in
    mkIP d (if db_big db d then db_add db (ip_rank v) d else ip_rank v) (ip_degree v).
  (** lines 80-123; the program object is its counter [iter] *)
  Definition delta_rank {E} : program Z F F ip_vertex E := mkP OUT_EDGES false false
    (fun _ v _ => (if ip_degree v =? 0 then db_zero db else db_share db (ip_delta v) (ip_degree v), true))
    (fun _ t _ _ => t) (fun _ => db_add db) (fun _ => ip_apply) (fun _ s => i32 (s + 1)).

  Context {E byte : Type}.
  (** lines 128-161: the graph and the number of supersteps *)
  Definition run_increment (m : machine ip_vertex E byte) (th : Z) (fr1 : frame Z Z byte) (fr2 : frame F F byte) (dt1 : Z) (dt2 : F) (dv : ip_vertex) (fuel : nat) (n : Z) (blobs : list (list (edge E))) : R (graph ip_vertex E byte * Z) :=
    do g <- load m ip_new n blobs ;;
    do dg_tmp <- program_init m th fr1 dt1 g ;;
    do g <- run_call ip_neq m th CAllActive g ;;
    do r <- run_job ip_neq m th (mkJ ip_degrees tt 1 dt1 dv 1) fr1 (Some dg_tmp) g ;;
    do dpr_tmp <- program_init m th fr2 dt2 (r_g (fst r)) ;;
    do g <- run_call ip_neq m th CAllActive (r_g (fst r)) ;;
    do r <- run_job ip_neq m th (mkJ delta_rank 0 (-1) dt2 dv fuel) fr2 (Some dpr_tmp) g ;;
    Ok (r_g (fst r), snd r).
End IncRank.
Arguments ip_vertex F : clear implicits.
Arguments mkIP {F}. Arguments ip_delta {F}. Arguments ip_rank {F}. Arguments ip_degree {F}.
