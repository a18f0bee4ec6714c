(** src/PageRank.cpp and IncrementalPageRank.cpp from the edge files to the printed text (Apps.v and IncRank.v
    have the part in between, Float32.v and Double64.v the arithmetic).  Not modelled, as in Cmd.v: lines about
    times and progress, the order in which the text of different ranks arrives.  Assumed of printf: %f writes
    the exact value of its argument, rounded to six decimals, ties to even; a float argument is passed as the
    double of the same value. *)
From Coq Require Import String SpecFloat.
From Verif Require Import Base DCSC EdgeList SpMat Graph GraphVert GraphHist Apps IncRank Float32 Double64 FileIO FloatText Cmd.

Section Rank.
  Context {byte : Type}.
  Variables (wide : Z -> Z) (ffuel fuel : nat) (th : Z) (dir : dirt).
  (** PageRank.cpp:155 and IncrementalPageRank.cpp:165: [printf("%d : %d %f\n", i, degree, pagerank)] *)
  Definition rank_line (i degree : Z) (rank : spec_float) : list Z := print_d i ++ chars " : " ++ print_d degree ++ chars " " ++ print_f 6 rank ++ [10].
  (** PageRank.cpp:115-161 *)
  Definition pagerank_cmd (m : machine (pr_vertex spec_float) Z byte) (fr1 : frame Z Z byte) (fr2 : frame spec_float spec_float byte) (dt1 : Z) (dt2 : spec_float) (dv : pr_vertex spec_float) : R (list (list Z)) :=
    do q <- read_mtx (w_int wide) wide ffuel (m_nr m) dir ;;
    do p <- run_pagerank float32 m th fr1 fr2 dt1 dt2 dv fuel (fst q) (snd q) ;;
    mapR (fun r => print_owned m (pr_new float32) 25 (fun i v => rank_line i (p_degree v) (p_rank v)) (fst p) r) (zrange 0 (m_nr m)).
  (** IncrementalPageRank.cpp:123-169 *)
  Definition increment_cmd (m : machine (ip_vertex spec_float) Z byte) (fr1 : frame Z Z byte) (fr2 : frame spec_float spec_float byte) (dt1 : Z) (dt2 : spec_float) (dv : ip_vertex spec_float) : R (list (list Z)) :=
    do q <- read_mtx (w_int wide) wide ffuel (m_nr m) dir ;;
    do p <- run_increment float64 m th fr1 fr2 dt1 dt2 dv fuel (fst q) (snd q) ;;
    mapR (fun r => print_owned m (ip_new float64) 25 (fun i v => rank_line i (ip_degree v) (ip_rank v)) (fst p) r) (zrange 0 (m_nr m)).
End Rank.
