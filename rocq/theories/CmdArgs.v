(** The main functions of src/BFS.cpp, SSSP.cpp, DeltaStepping.cpp, TopologicalSort.cpp, TriangleCounting.cpp,
    PageRank.cpp and IncrementalPageRank.cpp: from the arguments to what every rank prints (Cmd.v, CmdRank.v).
    MPI_Init leaves the arguments as they are.  [disk]: the files that belong to a name.  [prog]: argv[0];
    [args]: the arguments after it. *)
From Coq Require Import String Ascii SpecFloat.
From Verif Require Import Base GraphHist Apps IncRank FileIO Cmd CmdRank ConvertCmd.

(** atoi: white space, a sign, decimal digits; 0 if there are none.  [wide]: what becomes of a number out of range *)
Definition atoi (wide : Z -> Z) (s : string) : Z :=
  let '(neg, s) := match skip_ws (chars s) with c :: r => if c =? 45 then (true, r) else if c =? 43 then (false, r) else (false, c :: r) | [] => (false, []) end in
  as_d wide (if neg : bool then - number 10 0 s else number 10 0 s).
(** printf("Correct format: %s...\n", argv[0]) on every rank *)
Definition usage (nr : Z) (prog rest : string) : R (list (list Z)) := Ok (map (fun _ => chars "Correct format: " ++ chars prog ++ chars rest ++ [10]) (zrange 0 nr)).

Section Mains.
  Context {byte : Type}.
  Variables (wide : Z -> Z) (ffuel fuel : nat) (th : Z) (disk : string -> dirt) (prog : string).
  (** BFS.cpp:158-171 *)
  Definition bfs_main (m : machine bfs_vertex Z byte) (fr : frame Z Z byte) (dt : Z) (dv : bfs_vertex) (args : list string) : R (list (list Z)) :=
    match args with
    | a1 :: a2 :: _ => bfs_cmd wide ffuel fuel th (disk a1) m fr dt dv (atoi wide a2)
    | _ => usage (m_nr m) prog " A.mtx source_vertex (1-based index)"
    end.
  (** SSSP.cpp:144-157 *)
  Definition sssp_main (m : machine Z Z byte) (fr : frame Z Z byte) (dt dv : Z) (args : list string) : R (list (list Z)) :=
    match args with
    | a1 :: a2 :: _ => sssp_cmd wide ffuel fuel th (disk a1) m fr dt dv (atoi wide a2)
    | _ => usage (m_nr m) prog " A.mtx source_vertex (1-based index)"
    end.
  (** DeltaStepping.cpp:200-214 *)
  Definition delta_main (m : machine ds_vertex Z byte) (fr : frame Z Z byte) (dt : Z) (dv : ds_vertex) (rounds : nat) (args : list string) : R (list (list Z)) :=
    match args with
    | a1 :: a2 :: a3 :: _ => delta_cmd wide ffuel fuel th (disk a1) m fr dt dv rounds (atoi wide a2) (atoi wide a3)
    | _ => usage (m_nr m) prog " A.mtx delta source"
    end.
  (** TopologicalSort.cpp:194-206 *)
  Definition topsort_main (m : machine top_vertex Z byte) (fr1 : frame Z Z byte) (fr2 : frame bool Z byte) (dt1 : Z) (dt2 : bool) (dv : top_vertex) (args : list string) : R (list (list Z)) :=
    match args with a1 :: _ => topsort_cmd wide ffuel fuel th (disk a1) m fr1 fr2 dt1 dt2 dv | _ => usage (m_nr m) prog " A.mtx" end.
  (** TriangleCounting.cpp:206-215 *)
  Definition triangles_main (srt : list Z -> list Z) (m : machine tc_vertex Z byte) (fr1 : frame Z (list Z) byte) (fr2 : frame tc_vertex Z byte) (dt1 : Z) (dt2 dv : tc_vertex) (junk : Z) (args : list string) : R (list (list Z)) :=
    match args with a1 :: _ => triangles_cmd wide ffuel th (disk a1) srt m fr1 fr2 dt1 dt2 dv junk | _ => usage (m_nr m) prog " A.mtx" end.
  (** PageRank.cpp:163-176, IncrementalPageRank.cpp:171-184 *)
  Definition pagerank_main (m : machine (pr_vertex spec_float) Z byte) (fr1 : frame Z Z byte) (fr2 : frame spec_float spec_float byte) (dt1 : Z) (dt2 : spec_float) (dv : pr_vertex spec_float) (args : list string) : R (list (list Z)) :=
    match args with a1 :: _ => pagerank_cmd wide ffuel fuel th (disk a1) m fr1 fr2 dt1 dt2 dv | _ => usage (m_nr m) prog " A.mtx" end.
  Definition increment_main (m : machine (ip_vertex spec_float) Z byte) (fr1 : frame Z Z byte) (fr2 : frame spec_float spec_float byte) (dt1 : Z) (dt2 : spec_float) (dv : ip_vertex spec_float) (args : list string) : R (list (list Z)) :=
    match args with a1 :: _ => increment_cmd wide ffuel fuel th (disk a1) m fr1 fr2 dt1 dt2 dv | _ => usage (m_nr m) prog " A.mtx" end.
End Mains.
