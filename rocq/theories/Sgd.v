(** src/SGD.cpp.  As in Apps.v, timing, printing and reading the file are left out; the results are
    the graph and the two sums of squared errors from which lines 191 and 215 print. *)
From Verif Require Import Base Layout Reduce DCSC MatSpec Segment Vec SpMat GraphVert Graph Runtime GraphOps RunSpec GraphHist Apps.

(** What the programs need of double arithmetic; [re_far x y] is [fabs(x-y) > 1e-7] (line 51).  Nothing
    is assumed about the operations. *)
Record reals (F : Type) := mkRe { re_zero : F; re_add : F -> F -> F; re_sub : F -> F -> F; re_mul : F -> F -> F; re_neg : F -> F; re_int : Z -> F; re_far : F -> F -> bool }.
Arguments mkRe {F}. Arguments re_zero {F}. Arguments re_add {F}. Arguments re_sub {F}. Arguments re_mul {F}. Arguments re_neg {F}. Arguments re_int {F}. Arguments re_far {F}.

Section Sgd.
  Context {F : Type}.
  Variable re : reals F.
  (** the length of the vectors; line 164 has 20 *)
  Variable K : nat.
  (** lines 36-75: an array of [K] doubles is a list of that length *)
  Record sg_vertex := mkSG { sg_lv : list F; sg_err : F }.
  Definition at_ (a : list F) (i : nat) : F := nth i a (re_zero re).
  Definition each (f : nat -> F) : list F := map f (seq 0 K).
  Definition sg_neq (a b : sg_vertex) : bool :=
    fold_left (fun (result : bool) i => if re_far re (at_ (sg_lv b) i) (at_ (sg_lv a) i) then true else result) (seq 0 K) false.
  (** lines 97-101, 139-143 *)
  Definition sg_miss (a b : list F) (w : Z) : F :=
    re_sub re (re_int re w) (fold_left (fun est i => re_add re est (re_mul re (at_ a i) (at_ b i))) (seq 0 K) (re_zero re)).
  Variables lambda step : F.
  (** lines 77-120; a message is the array [lv] of a vertex: [sqerr] of messages and of their sums is
      copied along but never read *)
  Definition sgd : program unit (list F) (list F) sg_vertex Z := mkP ALL_EDGES true true
    (fun _ v _ => (sg_lv v, true))
    (fun _ t w v => let error := sg_miss t (sg_lv v) w in each (fun i => re_mul re (at_ t i) error))
    (fun _ a b => each (fun i => re_add re (at_ a i) (at_ b i)))
    (fun _ u v => mkSG (each (fun i => re_add re (at_ (sg_lv v) i) (re_mul re step (re_add re (re_mul re (re_neg re lambda) (at_ (sg_lv v) i)) (at_ u i))))) (sg_err v))
    (fun _ s => s).
  (** lines 122-156 *)
  Definition rmse : program unit (list F) F sg_vertex Z := mkP IN_EDGES false true
    (fun _ v _ => (sg_lv v, true))
    (fun _ t w v => let error := sg_miss t (sg_lv v) w in re_mul re error error)
    (fun _ => re_add re)
    (fun _ u v => mkSG (sg_lv v) u)
    (fun _ s => s).
  (** lines 158-161 *)
  Definition return_sqerr (v : sg_vertex) : sg_vertex * F := (v, sg_err v).

  Context {byte : Type}.
  (** lines 163-224; [init i j] is the [j]-th random number of vertex [i]; [iterations] is 10 in line
      200; [fresh] is what a vertex holds that nothing was stored in *)
  Definition run_sgd (m : machine sg_vertex Z byte) (th : Z) (fr1 : frame (list F) (list F) byte) (fr2 : frame (list F) F byte) (dt1 dt2 : list F) (dv : sg_vertex) (fresh : sg_vertex)
    (init : Z -> nat -> F) (iterations : Z) (n : Z) (blobs : list (list (edge Z))) : R (graph sg_vertex Z byte * list F * list F) :=
    do g <- load m fresh n blobs ;;
    do sgdp_tmp <- program_init m th fr1 dt1 g ;;
    do rmsep_tmp <- program_init m th fr2 dt2 g ;;
    do g <- forZ 1 (n + 1) (fun i g => run_call sg_neq m th (CSet i (mkSG (each (init i)) (re_zero re))) g) g ;;
    do g <- run_call sg_neq m th CAllActive g ;;
    do r <- run_job sg_neq m th (mkJ rmse tt 1 dt2 dv 1) fr2 (Some rmsep_tmp) g ;;
    let rmsep_tmp := (r_x (fst r), r_y (fst r)) in
    do e1 <- g_applyReduceAllVertices (m_nr m) th return_sqerr (re_add re) (fun _ => re_zero re) (r_g (fst r)) ;;
    do g <- run_call sg_neq m th CAllActive (fst e1) ;;
    do r <- run_job sg_neq m th (mkJ sgd tt iterations dt1 dv (Z.to_nat iterations)) fr1 (Some sgdp_tmp) g ;;
    do g <- run_call sg_neq m th CAllActive (r_g (fst r)) ;;
    do r <- run_job sg_neq m th (mkJ rmse tt 1 dt2 dv 1) fr2 (Some rmsep_tmp) g ;;
    do e2 <- g_applyReduceAllVertices (m_nr m) th return_sqerr (re_add re) (fun _ => re_zero re) (r_g (fst r)) ;;
    Ok (fst e2, snd e1, snd e2).
End Sgd.
Arguments sg_vertex F : clear implicits.
Arguments mkSG {F}. Arguments sg_lv {F}. Arguments sg_err {F}.
