(** include/GraphMatRuntime.h, include/GraphProgram.h, include/SPMV.h: running a vertex program.
    A program object is the same on every rank (it is only changed by [do_every_iteration], which
    gets the same argument on every rank), so one copy of its state [S] is modelled. *)
From Verif Require Import Base Layout Bits Segment SegHistory Vec DCSC Kernel SpMat SpMSpV GraphVert Graph.

(** GraphProgram.h:38-40; the default constructor (lines 52-58) selects [OUT_EDGES], activity
    [ACTIVE_ONLY] and a [process_message] that reads the vertex property *)
Inductive direction := OUT_EDGES | IN_EDGES | ALL_EDGES.

(** GraphProgram.h:42-110.  [send_message] gets the property and the old content of the message
    cell; [reduce_function] and [process_message] are const and write one result.  [apply] is
    taken not to change the program object: it is called by many threads at once. *)
Record program (S T U V E : Type) := mkP {
  pr_order : direction;
  pr_all_vertices : bool;
  pr_reqv : bool;
  pr_send : S -> V -> T -> T * bool;
  pr_process : S -> T -> E -> V -> U;
  pr_reduce : S -> U -> U -> U;
  pr_apply : S -> U -> V -> V;
  pr_every : Z -> S -> S }.
Arguments mkP {S T U V E}. Arguments pr_order {S T U V E}. Arguments pr_all_vertices {S T U V E}. Arguments pr_reqv {S T U V E}.
Arguments pr_send {S T U V E}. Arguments pr_process {S T U V E}. Arguments pr_reduce {S T U V E}. Arguments pr_apply {S T U V E}. Arguments pr_every {S T U V E}.

(** Calls into the program made by one rank, in order.  A vertex is given by its position in the
    distributed vectors (1-based).  Within one superstep, calls of the same kind are made by
    concurrent threads; they are listed in index order. *)
Inductive event := Sent (id : Z) | Applied (id : Z) | Every (it : Z).

(** the same step on every rank's part of a vector *)
Definition on_ranks {A} (nr : Z) (f : Z -> list A -> R (list A)) (v : list (list A)) : R (list (list A)) :=
  mapR (fun r => do segs <- rd v r ;; f r segs) (zrange 0 nr).

(** GraphMatRuntime.h:203-221: [while (value != 0)] over the bits of one word; [_bit_scan_forward]
    gives the lowest set bit *)
Fixpoint scan_bits (fuel : nat) (v : Z) : R (list Z) :=
  if v =? 0 then Ok [] else
  match fuel with
  | O => Err NoFuel
  | S f => match find (Z.testbit v) (zrange 0 32) with
           | None => Err NoFuel
           | Some b => do l <- scan_bits f (Z.ldiff v (Z.shiftl 1 b)) ;; Ok (b :: l)
           end
  end.

Section Intersect.
  Context {A B C abyte bbyte cbyte : Type}.
  Variable threads : Z.
  (** [op i a b c] is the new content of [*c] and what it is to be recorded as *)
  Variable op : Z -> A -> B -> C -> C * list event.

  (** include/GMDP/singlenode/intersectreduce.h:43-47 *)
  Definition and_words (w1 w2 w3 : list Z) (nints : Z) : R (list Z) :=
    forZ 0 nints (fun i w => do a <- rd w1 i ;; do b <- rd w2 i ;; wr w i (Z.land a b)) w3.

  (** intersectreduce.h:49-65; the parallel loop over words in order *)
  Definition intersect_values (v1 : list (option A)) (v2 : list (option B)) (w3 : list Z) (nints : Z)
      (v3 : list (option C)) : R (list (option C) * Z * list event) :=
    forZ 0 nints (fun ii st =>
      do wd <- rd w3 ii ;;
      if popcnt32 wd =? 0 then Ok st else
      forZ (ii * 32) ((ii + 1) * 32) (fun i st =>
        do g <- bv_get w3 i ;;
        if g then
          do a <- rdi v1 i ;; do b <- rdi v2 i ;; do c <- rdi (fst (fst st)) i ;;
          do v <- wr (fst (fst st)) i (Some (fst (op i a b c))) ;;
          Ok (v, snd (fst st), snd st ++ snd (op i a b c))
        else Ok st) (fst (fst st), snd (fst st) + popcnt32 wd, snd st)) (v3, 0, []).

  (** intersectreduce.h:68-78 *)
  Definition intersect_segment (s1 : seg A abyte) (s2 : seg B bbyte) (s3 : seg C cbyte) : R (seg C cbyte * list event) :=
    do s3 <- seg_initialize (seg_alloc threads s3) ;;
    do b1 <- prop s1 ;;
    if b_uninit b1 then Ok (s3, []) else
    do b2 <- prop s2 ;;
    if b_uninit b2 then Ok (s3, []) else
    do b3 <- prop s3 ;;
    do w1 <- words b1 ;; do w2 <- words b2 ;; do w3 <- words b3 ;;
    do w <- and_words w1 w2 w3 (s_nints s1) ;;
    do r <- intersect_values (b_value b1) (b_value b2) w (s_nints s1) (b_value b3) ;;
    Ok (set_prop (Some (set_nnz (snd (fst r)) (set_value (fst (fst r)) (set_bits w b3)))) s3, snd r).
End Intersect.

Section ApplyLoop.
  Context {U V ubyte vbyte abyte : Type}.
  Variable ap : U -> V -> V.
  Variable neq : V -> V -> bool.

  (** GraphMatRuntime.h:203-221 for one vertex; the state is: property values, active values,
      active words, local_converged, calls made *)
  Definition apply_one (st : Z) (u : list (option U)) (idx : Z)
      (s : list (option V) * list (option bool) * list Z * bool * list event)
      : R (list (option V) * list (option bool) * list Z * bool * list event) :=
    let '(v, av, aw, conv, ev) := s in
    do old <- rdi v idx ;;
    do m <- rdi u idx ;;
    let new := ap m old in
    do v' <- wr v idx (Some new) ;;
    let ev' := ev ++ [Applied (st + idx + 1)] in
    if neq old new then
      do av' <- wr av idx (Some true) ;;
      do aw' <- bv_set aw idx ;;
      Ok (v', av', aw', false, ev')
    else Ok (v', av, aw, conv, ev').

  (** GraphMatRuntime.h:199-223, one owned segment that starts after position [st]; the parallel
      loop over words in order.  The active buffer is looked up even if no vertex changes. *)
  Definition apply_segment (st : Z) (sy : seg U ubyte) (sv : seg V vbyte) (sa : seg bool abyte)
      : R (seg V vbyte * seg bool abyte * bool * list event) :=
    do by_ <- prop sy ;; do wy <- words by_ ;;
    do bv <- prop sv ;;
    do ba <- prop sa ;; do wa <- words ba ;;
    do r <- forZ 0 (s_nints sy) (fun i s =>
        do wd <- rd wy i ;;
        do bits <- scan_bits 32 (wd mod 2 ^ 32) ;;
        foldR (fun s b => apply_one st (b_value by_) (i * 32 + b) s) bits s)
      (b_value bv, b_value ba, wa, true, []) ;;
    let '(v, av, aw, conv, ev) := r in
    Ok (set_prop (Some (set_value v bv)) sv, set_prop (Some (set_bits aw (set_value av ba))) sa, conv, ev).
End ApplyLoop.

Section Runtime.
  Context {S T U V E byte : Type}.
  Variables (sert serv seru : bool).
  Variables (enct : list (Z * T) -> list byte) (dect : list byte -> Z -> R (list (Z * T))).
  Variables (encv : list (Z * V) -> list byte) (decv : list byte -> Z -> R (list (Z * V))).
  Variables (encu : list (Z * U) -> list byte) (decu : list byte -> Z -> R (list (Z * U))).
  Variables (nr threads : Z).
  (** [tjunk], [ujunk], [tfresh], [ufresh]: what unwritten counters and cells of the temporary
      vectors hold; [dt], [du]: the local variables [_t], [_u] (for trivial types an arbitrary
      value); [dv]: the local [dummy] of Mulfn; [neq]: operator!= of V *)
  Variables (tjunk ujunk : Z -> Z) (tfresh : option T) (ufresh : option U) (dt : T) (du : U) (dv : V).
  Variable neq : V -> V -> bool.
  Variable pg : program S T U V E.
  Notation vec A := (list (list (seg A byte))).
  Notation gr := (graph V E byte).

  Definition set_vp (vp : vec V) (g : gr) : gr := mkG (g_n g) (g_nt g) (g_A g) (g_AT g) (g_nnz g) vp (g_act g).
  Definition set_act (act : vec bool) (g : gr) : gr := mkG (g_n g) (g_nt g) (g_A g) (g_AT g) (g_nnz g) (g_vp g) act.

  (** GraphMatRuntime.h:60-70 [graph_program_init], and lines 110-117 *)
  Definition new_temps (n : Z) : R (vec T * vec U) :=
    do x <- mapR (fun r => do segs <- vec_new n nr tjunk tfresh ;; vec_setAll nr nr threads r (Some dt) segs) (zrange 0 nr) ;;
    do y <- mapR (fun r => do segs <- vec_new n nr ujunk ufresh ;; vec_setAll nr nr threads r (Some du) segs) (zrange 0 nr) ;;
    Ok (x, y).

  (** SPMV.h:41-95 [SpMSpV] / [SpMTSpV]: without vertex property the local [dummy] is passed.
      Addfn (lines 54-59) copies its first argument and reduces the second into the copy. *)
  Definition product (s : S) (a : spmat E) (x : vec T) (vp : vec V) (y : vec U) : R (vec T * vec V * vec U) :=
    if pr_reqv pg then
      spmspv3 sert serv seru enct dect encv decv encu decu nr threads (pr_reduce pg s) (fun e t v => pr_process pg s t e v) a x vp y
    else
      do r <- spmspv sert seru enct dect encu decu nr threads (pr_reduce pg s) (fun e t => pr_process pg s t e dv) a x y ;;
      Ok (fst r, vp, snd r).

  (** GraphMatRuntime.h:159-176 *)
  Definition products (s : S) (g : gr) (x : vec T) (y : vec U) : R (vec T * vec V * vec U) :=
    match pr_order pg with
    | OUT_EDGES => product s (g_AT g) x (g_vp g) y
    | IN_EDGES => product s (g_A g) x (g_vp g) y
    | ALL_EDGES => do r <- product s (g_AT g) x (g_vp g) y ;; product s (g_A g) (fst (fst r)) (snd (fst r)) (snd r)
    end.

  (** GraphMatRuntime.h:79-85: the boolean result of the program's [send_message] is dropped *)
  Definition send_op (s : S) (st i : Z) (a : bool) (v : V) (t : T) : T * list event :=
    if a then (fst (pr_send pg s v t), [Sent (st + i + 1)]) else (t, []).

  (** GraphMatRuntime.h:145, include/GMDP/multinode/intersectreduce.h:39-52 *)
  Definition send_phase (s : S) (g : gr) (x : vec T) : R (vec T * list (list event)) :=
    do t <- tab2 nr nr (fun r j =>
      do o <- vown nr nr j ;;
      do sx <- rd2 x r j ;;
      if o =? r then
        do sa <- rd2 (g_act g) r j ;; do sv <- rd2 (g_vp g) r j ;;
        do st <- rd (starts (g_n g) nr) j ;;
        intersect_segment threads (send_op s st) sa sv sx
      else Ok (sx, [])) ;;
    Ok (map (map fst) t, map (fun row => concat (map snd row)) t).

  (** GraphMatRuntime.h:186-226: per rank the new segments, [local_converged] and the calls; then
      the conjunction over all ranks *)
  Definition apply_phase (s : S) (g : gr) (y : vec U) : R (vec V * vec bool * bool * list (list event)) :=
    do t <- tab2 nr nr (fun r j =>
      do o <- vown nr nr j ;;
      do sv <- rd2 (g_vp g) r j ;; do sa <- rd2 (g_act g) r j ;;
      if o =? r then
        do sy <- rd2 y r j ;;
        do st <- rd (starts (g_n g) nr) j ;;
        apply_segment (pr_apply pg s) neq st sy sv sa
      else Ok (sv, sa, true, [])) ;;
    Ok (map (map (fun q => fst (fst (fst q)))) t, map (map (fun q => snd (fst (fst q)))) t,
        forallb (forallb (fun q => snd (fst q))) t, map (fun row => concat (map snd row)) t).

  (** Graph.h:262-280 on all ranks *)
  Definition all_active (g : gr) : R gr :=
    do act <- on_ranks nr (fun r segs => vec_setAll nr nr threads r (Some true) segs) (g_act g) ;; Ok (set_act act g).
  Definition all_inactive (g : gr) : R gr :=
    do act <- on_ranks nr (fun r segs => vec_set_inactive nr nr threads r (Some false) segs) (g_act g) ;; Ok (set_act act g).

  (** what a superstep works on *)
  Record rstate := mkR { r_s : S; r_g : gr; r_x : vec T; r_y : vec U; r_log : list (list event) }.

  (** GraphMatRuntime.h:136-252: one pass of the loop; the result is [converged] *)
  Definition superstep (it : Z) (q : rstate) : R (rstate * bool) :=
    do x <- on_ranks nr (fun r segs => vec_clear nr nr r segs) (r_x q) ;;
    do y <- on_ranks nr (fun r segs => vec_clear nr nr r segs) (r_y q) ;;
    do xe <- send_phase (r_s q) (r_g q) x ;;
    do p <- products (r_s q) (r_g q) (fst xe) y ;;
    let g := set_vp (snd (fst p)) (r_g q) in
    do g <- all_inactive g ;;
    do a <- apply_phase (r_s q) g (snd p) ;;
    let '(vp, act, converged, ae) := a in
    let g := set_act act (set_vp vp g) in
    let s := pr_every pg it (r_s q) in
    do g <- (if pr_all_vertices pg then all_active g else Ok g) ;;
    let log := map (fun l => fst (fst l) ++ snd (fst l) ++ snd l ++ [Every it]) (combine (combine (r_log q) (snd xe)) ae) in
    Ok (mkR s g (fst (fst p)) (snd p) log, converged).

  (** GraphMatRuntime.h:136-261; [fuel] bounds the number of passes of [while(1)] *)
  Fixpoint run_loop (fuel : nat) (iterations it : Z) (q : rstate) : R (rstate * Z) :=
    match fuel with
    | O => Err NoFuel
    | Datatypes.S f =>
      do r <- superstep it q ;;
      let it := it + 1 in
      if it =? iterations then Ok (fst r, it)
      else if (iterations <=? 0) && snd r then Ok (fst r, it)
      else run_loop f iterations it (fst r)
    end.

  (** GraphMatRuntime.h:93-279.  [tmp]: the optional temporary structure.  The result is the final
      state (program object, graph, temporaries, calls made) and the number reported as
      "Completed %d iterations". *)
  Definition run_graph_program (fuel : nat) (s : S) (g : gr) (iterations : Z) (tmp : option (vec T * vec U)) : R (rstate * Z) :=
    do xy <- match tmp with None => new_temps (g_n g) | Some xy => Ok xy end ;;
    do g <- (if pr_all_vertices pg then all_active g else Ok g) ;;
    run_loop fuel iterations 0 (mkR s g (fst xy) (snd xy) (map (fun _ => []) (zrange 0 nr))).
End Runtime.
