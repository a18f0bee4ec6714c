(** Programs that use a graph: load it, then call operations on it.  Every rank makes the same
    calls (the library is used in SPMD style), so a history is one list of calls.  First the
    execution of a history by the model, then what the history means for the set of edges, the
    vertex properties and the activity of vertices, without ranks, threads or buffers. *)
From Verif Require Import Base Layout Reduce DCSC MatSpec Segment Vec SpMat GraphVert Graph Runtime GraphOps RunSpec.

(** How the graph is held: [m_nr] ranks, [m_nt] threads at load time, the two sort routines of tile
    construction, what memory holds that the code never initialises, whether the vertex property
    type is serialized for transport, and its encoding. *)
Record machine (V E byte : Type) := mkMach {
  m_nr : Z; m_nt : Z;
  m_srt : list (tedge E) -> list (tedge E); m_tsrt : list (tedge E) -> list (tedge E);
  m_junkA : Z -> Z -> Z -> Z; m_junkT : Z -> Z -> Z -> Z;
  m_vjunk : Z -> Z; m_ajunk : Z -> Z; m_vfresh : option V; m_afresh : option bool;
  m_serv : bool; m_encv : list (Z * V) -> list byte; m_decv : list byte -> Z -> R (list (Z * V)) }.
Arguments mkMach {V E byte}. Arguments m_nr {V E byte}. Arguments m_nt {V E byte}. Arguments m_srt {V E byte}. Arguments m_tsrt {V E byte}.
Arguments m_junkA {V E byte}. Arguments m_junkT {V E byte}. Arguments m_vjunk {V E byte}. Arguments m_ajunk {V E byte}.
Arguments m_vfresh {V E byte}. Arguments m_afresh {V E byte}. Arguments m_serv {V E byte}. Arguments m_encv {V E byte}. Arguments m_decv {V E byte}.

(** The same for the message type [T] and the reduced type [U] of one run; [f_du]: what the local
    [_u] holds. *)
Record frame (T U byte : Type) := mkF {
  f_sert : bool; f_seru : bool;
  f_enct : list (Z * T) -> list byte; f_dect : list byte -> Z -> R (list (Z * T));
  f_encu : list (Z * U) -> list byte; f_decu : list byte -> Z -> R (list (Z * U));
  f_tjunk : Z -> Z; f_ujunk : Z -> Z; f_tfresh : option T; f_ufresh : option U; f_du : U }.
Arguments mkF {T U byte}. Arguments f_sert {T U byte}. Arguments f_seru {T U byte}. Arguments f_enct {T U byte}. Arguments f_dect {T U byte}.
Arguments f_encu {T U byte}. Arguments f_decu {T U byte}. Arguments f_tjunk {T U byte}. Arguments f_ujunk {T U byte}.
Arguments f_tfresh {T U byte}. Arguments f_ufresh {T U byte}. Arguments f_du {T U byte}.

(** What a run is asked to do: the program, its object at the start, the number of iterations, what
    the locals [_t] and [dummy] hold, and how many passes of [while(1)] we watch. *)
Record job (S T U V E : Type) := mkJ {
  j_pg : program S T U V E; j_s : S; j_iterations : Z; j_dt : T; j_dv : V; j_fuel : nat }.
Arguments mkJ {S T U V E}. Arguments j_pg {S T U V E}. Arguments j_s {S T U V E}. Arguments j_iterations {S T U V E}.
Arguments j_dt {S T U V E}. Arguments j_dv {S T U V E}. Arguments j_fuel {S T U V E}.

(** Calls on a graph object. *)
Inductive gcall (V E byte : Type) : Type :=
| CSet (v : Z) (a : V)
| CSetAll (a : V)
| CReset (a : V)
| CActive (v : Z)
| CInactive (v : Z)
| CAllActive
| CAllInactive
| CApply (f : V -> V -> V)
| CReduce (W : Type) (mp : V -> V * W) (op : W -> W -> W) (init : Z -> W)
| CEdges (f : E -> V -> V -> E)
| CRun (S T U : Type) (jb : job S T U V E) (fr : frame T U byte).
Arguments CSet {V E byte}. Arguments CSetAll {V E byte}. Arguments CReset {V E byte}. Arguments CActive {V E byte}. Arguments CInactive {V E byte}.
Arguments CAllActive {V E byte}. Arguments CAllInactive {V E byte}. Arguments CApply {V E byte}. Arguments CReduce {V E byte} {W}.
Arguments CEdges {V E byte}. Arguments CRun {V E byte} {S T U}.

Section Exec.
  Context {V E byte : Type}.
  Variable neq : V -> V -> bool.
  Variable m : machine V E byte.
  Notation gr := (graph V E byte).

  (** Graph.h:210-246 *)
  Definition load (dv : V) (n : Z) (blobs : list (list (edge E))) : R gr :=
    do r <- g_ReadEdgelist (m_srt m) (m_tsrt m) (m_nr m) (m_nt m) (m_junkA m) (m_junkT m) (m_vjunk m) (m_ajunk m) (m_vfresh m) (m_afresh m) dv n n blobs ;;
    Ok (fst r).

  (** GraphMatRuntime.h:93-279, with [th] threads; [tmp]: the optional temporary structure *)
  Definition run_job {S T U} (th : Z) (jb : job S T U V E) (fr : frame T U byte) (tmp : option (list (list (seg T byte)) * list (list (seg U byte)))) (g : gr) : R (rstate * Z) :=
    run_graph_program (f_sert fr) (m_serv m) (f_seru fr) (f_enct fr) (f_dect fr) (m_encv m) (m_decv m) (f_encu fr) (f_decu fr) (m_nr m) th
      (f_tjunk fr) (f_ujunk fr) (f_tfresh fr) (f_ufresh fr) (j_dt jb) (f_du fr) (j_dv jb) neq (j_pg jb) (j_fuel jb) (j_s jb) g (j_iterations jb) tmp.

  (** Graph.h:262-402; [th]: the number of threads during the call *)
  Definition run_call (th : Z) (c : gcall V E byte) (g : gr) : R gr :=
    match c with
    | CSet v a => g_vp_all (m_nr m) th (GSet v a) g
    | CSetAll a => g_vp_all (m_nr m) th (GSetAll a) g
    | CReset a => g_reset (m_nr m) th a g
    | CActive v => g_act_all (m_nr m) th (AActive v) g
    | CInactive v => g_act_all (m_nr m) th (AInactive v) g
    | CAllActive => g_act_all (m_nr m) th AAllActive g
    | CAllInactive => g_act_all (m_nr m) th AAllInactive g
    | CApply f => g_applyToAllVertices (m_nr m) th f g
    | CReduce mp op init => do r <- g_applyReduceAllVertices (m_nr m) th mp op init g ;; Ok (fst r)
    | CEdges f => g_applyToAllEdges (m_serv m) (m_encv m) (m_decv m) (m_nr m) th f g
    | CRun jb fr => do r <- run_job th jb fr None g ;; Ok (r_g (fst r))
    end.
  Fixpoint run_calls (h : list (Z * gcall V E byte)) (g : gr) : R gr :=
    match h with [] => Ok g | c :: h => do g <- run_call (fst c) (snd c) g ;; run_calls h g end.

  (** *** what can be seen of a graph *)
  (** rank [r] asks for the property of vertex [v] ([d]: what the local variable holds) *)
  Definition read_property (g : gr) (r v : Z) (d : V) : R (option V) :=
    do segs <- rd (g_vp g) r ;; g_getVertexproperty (g_n g) (m_nr m) (g_nt g) r v d segs.
  Definition owns (g : gr) (r v : Z) : R bool := g_vertexNodeOwner (g_n g) (m_nr m) (g_nt g) r v.
  (** getEdgelist on every rank; and the same for the matrix IN_EDGES programs do not use, whose
      entries are (destination, source) *)
  Definition read_edges (g : gr) : R (list (list (edge E))) := mapR (g_getEdgelist (m_nr m) g) (zrange 0 (m_nr m)).
  Definition read_transposed (g : gr) : R (list (list (edge E))) :=
    mapR (g_getEdgelist (m_nr m) (mkG (g_n g) (g_nt g) (g_AT g) (g_A g) (g_nnz g) (g_vp g) (g_act g))) (zrange 0 (m_nr m)).
  (** a log of calls with positions turned back into vertex numbers *)
  Definition event_vertex (g : gr) (e : event) : R event :=
    match e with
    | Sent id => do v <- nativeToVertex (g_nt g) (m_nr m) (g_n g) id ;; Ok (Sent v)
    | Applied id => do v <- nativeToVertex (g_nt g) (m_nr m) (g_n g) id ;; Ok (Applied v)
    | Every it => Ok (Every it)
    end.
End Exec.

(** *** what a history means *)
Section Meaning.
  Context {V E byte : Type}.
  Variable neq : V -> V -> bool.
  Variable n : Z.
  (** edges, properties, and activity ([None]: inactive; [Some false] only occurs in a graph that
      has seen no activity call since it was loaded) *)
  Record gspec := mkGS { gs_es : list (edge E); gs_P : Z -> V; gs_A : Z -> option bool }.

  Definition loaded (dv : V) (es : list (edge E)) : gspec := mkGS es (fun _ => dv) (fun _ => Some false).

  Section Run.
    Context {S T U : Type}.
    Variable jb : job S T U V E.
    (** the first state of a run; [C]: what the message variables hold *)
    Definition start (C : Z -> T) (q : gspec) : @vstate S T V := mkV (j_s jb) (gs_P q) (gs_A q) C.
    Definition job_ends (C : Z -> T) (q : gspec) (k : nat) : Prop :=
      ends n (gs_es q) (j_pg jb) neq (j_dv jb) (j_iterations jb) (start C q) k.
    (** [K] supersteps are made *)
    Definition job_takes (C : Z -> T) (q : gspec) (K : nat) : Prop :=
      (1 <= K <= j_fuel jb)%nat /\ job_ends C q K /\ forall k, (1 <= k < K)%nat -> ~ job_ends C q k.
    Definition job_endless (C : Z -> T) (q : gspec) : Prop := forall k, (1 <= k <= j_fuel jb)%nat -> ~ job_ends C q k.
    (** the state after [k] supersteps *)
    Definition job_after (C : Z -> T) (q : gspec) (k : nat) : @vstate S T V :=
      after (gs_es q) (j_pg jb) neq (j_dv jb) k (start C q).
    (** The same when the order of reduction may matter: [Y k v] is what the reduction gave for
        vertex [v] in superstep [k]. *)
    Definition job_after_with (Y : nat -> Z -> option U) (C : Z -> T) (q : gspec) (k : nat) : @vstate S T V :=
      after_with (j_pg jb) neq Y k (start C q).
    (** what arrived at [v] in superstep [k], before reduction *)
    Definition job_received (Y : nat -> Z -> option U) (C : Z -> T) (q : gspec) (k : nat) (v : Z) : list U :=
      received (gs_es q) (j_pg jb) (j_dv jb) (job_after_with Y C q k) v.
    (** in each of the first [K] supersteps, [Y] is the arriving values combined in some order *)
    Definition job_reduces (Y : nat -> Z -> option U) (C : Z -> T) (q : gspec) (K : nat) : Prop :=
      forall k v, (k < K)%nat -> 1 <= v <= n -> combined_of (pr_reduce (j_pg jb) (v_s (job_after_with Y C q k))) (job_received Y C q k v) (Y k v).
    Definition job_ends_with (Y : nat -> Z -> option U) (C : Z -> T) (q : gspec) (k : nat) : Prop :=
      ends_with n (j_pg jb) neq Y (j_iterations jb) (start C q) k.
    Definition job_takes_with (Y : nat -> Z -> option U) (C : Z -> T) (q : gspec) (K : nat) : Prop :=
      (1 <= K <= j_fuel jb)%nat /\ job_reduces Y C q K /\ job_ends_with Y C q K /\ forall k, (1 <= k < K)%nat -> ~ job_ends_with Y C q k.
    Definition job_endless_with (Y : nat -> Z -> option U) (C : Z -> T) (q : gspec) : Prop :=
      job_reduces Y C q (j_fuel jb) /\ forall k, (1 <= k <= j_fuel jb)%nat -> ~ job_ends_with Y C q k.
  End Run.

  Definition newedge (f : E -> V -> V -> E) (P : Z -> V) (e : edge E) : edge E :=
    mkE (e_src e) (e_dst e) (f (e_val e) (P (e_src e)) (P (e_dst e))).

  (** [o = None]: a run was asked for that goes on for more supersteps than we watch *)
  Definition spec_call (c : gcall V E byte) (q : gspec) (o : option gspec) : Prop :=
    match c with
    | CSet v a => o = Some (mkGS (gs_es q) (fun u => if u =? v then a else gs_P q u) (gs_A q))
    | CSetAll a => o = Some (mkGS (gs_es q) (fun _ => a) (gs_A q))
    | CReset a => o = Some (mkGS (gs_es q) (fun _ => a) (fun _ => None))
    | CActive v => o = Some (mkGS (gs_es q) (gs_P q) (fun u => if u =? v then Some true else gs_A q u))
    | CInactive v => o = Some (mkGS (gs_es q) (gs_P q) (fun u => if u =? v then None else gs_A q u))
    | CAllActive => o = Some (mkGS (gs_es q) (gs_P q) (fun _ => Some true))
    | CAllInactive => o = Some (mkGS (gs_es q) (gs_P q) (fun _ => None))
    | CApply f => o = Some (mkGS (gs_es q) (fun u => f (gs_P q u) (gs_P q u)) (gs_A q))
    | CReduce mp _ _ => o = Some (mkGS (gs_es q) (fun u => fst (mp (gs_P q u))) (gs_A q))
    | CEdges f => o = Some (mkGS (map (newedge f (gs_P q)) (gs_es q)) (gs_P q) (gs_A q))
    | CRun jb fr =>
        (exists K, job_takes jb (fun _ => j_dt jb) q K /\
           o = Some (mkGS (gs_es q) (v_P (job_after jb (fun _ => j_dt jb) q K)) (v_A (job_after jb (fun _ => j_dt jb) q K))))
        \/ (job_endless jb (fun _ => j_dt jb) q /\ o = None)
    end.
  Fixpoint spec_calls (h : list (Z * gcall V E byte)) (q : gspec) (o : option gspec) : Prop :=
    match h with
    | [] => o = Some q
    | c :: h => exists o1, spec_call (snd c) q o1 /\ match o1 with Some q1 => spec_calls h q1 o | None => o = None end
    end.

  (** The same for histories in which programs may reduce with any operation: a history can have
      several meanings. *)
  Definition can_call (c : gcall V E byte) (q : gspec) (o : option gspec) : Prop :=
    match c with
    | CRun jb fr =>
        exists Y, (exists K, job_takes_with jb Y (fun _ => j_dt jb) q K /\
           o = Some (mkGS (gs_es q) (v_P (job_after_with jb Y (fun _ => j_dt jb) q K)) (v_A (job_after_with jb Y (fun _ => j_dt jb) q K))))
        \/ (job_endless_with jb Y (fun _ => j_dt jb) q /\ o = None)
    | _ => spec_call c q o
    end.
  Fixpoint can_calls (h : list (Z * gcall V E byte)) (q : gspec) (o : option gspec) : Prop :=
    match h with
    | [] => o = Some q
    | c :: h => exists o1, can_call (snd c) q o1 /\ match o1 with Some q1 => can_calls h q1 o | None => o = None end
    end.

  (** *** calls that are allowed *)
  Definition threads_ok (m : machine V E byte) (ser : bool) (th : Z) : Prop := 1 <= th /\ (ser = true -> th = m_nt m).
  Definition frame_ok {T U} (m : machine V E byte) (th : Z) (fr : frame T U byte) : Prop :=
    threads_ok m (f_sert fr) th /\ threads_ok m (f_seru fr) th /\
    (forall l, f_dect fr (f_enct fr l) (zlen l) = Ok l) /\ (forall l, f_decu fr (f_encu fr l) (zlen l) = Ok l).
  Definition job_ok {S T U} (jb : job S T U V E) : Prop :=
    forall s, commutative (pr_reduce (j_pg jb) s) /\ associative (pr_reduce (j_pg jb) s).
  Definition call_ok (m : machine V E byte) (th : Z) (c : gcall V E byte) : Prop :=
    threads_ok m (m_serv m) th /\
    match c with
    | CSet v _ => 1 <= v <= n
    | CActive v => 1 <= v <= n
    | CInactive v => 1 <= v <= n
    | CReduce mp op init => associative op
    | CRun jb fr => job_ok jb /\ frame_ok m th fr
    | _ => True
    end.
  (** the same without a condition on the reduction of programs *)
  Definition call_fits (m : machine V E byte) (th : Z) (c : gcall V E byte) : Prop :=
    match c with CRun jb fr => threads_ok m (m_serv m) th /\ frame_ok m th fr | _ => call_ok m th c end.
  Definition calls_fit (m : machine V E byte) (h : list (Z * gcall V E byte)) : Prop := Forall (fun c => call_fits m (fst c) (snd c)) h.
  Definition calls_ok (m : machine V E byte) (h : list (Z * gcall V E byte)) : Prop := Forall (fun c => call_ok m (fst c) (snd c)) h.

  (** *** what a graph shows agrees with the meaning of its history *)
  Definition shows_properties (m : machine V E byte) (g : graph V E byte) (P : Z -> V) : Prop :=
    forall v, 1 <= v <= n -> exists o, 0 <= o < m_nr m /\ (forall r, owns m g r v = Ok (o =? r)) /\
      forall r d, 0 <= r < m_nr m -> read_property m g r v d = Ok (Some (if o =? r then P v else d)).
  Definition shows_edges (m : machine V E byte) (g : graph V E byte) (es : list (edge E)) : Prop :=
    exists out out', read_edges m g = Ok out /\ Permutation (concat out) es /\
      read_transposed m g = Ok out' /\ Permutation (concat out') (map (fun e => mkE (e_dst e) (e_src e) (e_val e)) es).
  (** the log of a run: rank [r] made [K] blocks of calls, one per superstep *)
  Definition shows_calls {S T U} (m : machine V E byte) (g : graph V E byte) (jb : job S T U V E) (C : Z -> T) (q : gspec) (K : nat) (log : list (list event)) : Prop :=
    exists owner : Z -> Z, (forall v r, 1 <= v <= n -> owns m g r v = Ok (owner v =? r)) /\
    zlen log = m_nr m /\
    forall r, 0 <= r < m_nr m -> exists ls, (do l <- rd log r ;; mapR (event_vertex m g) l) = Ok (concat ls) /\ length ls = K /\
      forall i, (i < K)%nat -> exists l, nth_error ls i = Some l /\
        calls n (gs_es q) (j_pg jb) (j_dv jb) (fun v => v) owner r (Z.of_nat i) (job_after jb C q i) l.
End Meaning.
Arguments gspec V E : clear implicits.
Arguments mkGS {V E}. Arguments gs_es {V E}. Arguments gs_P {V E}. Arguments gs_A {V E}.

(** the sorts sort, encoding is inverted by decoding, at least one rank and one thread *)
Definition machine_ok {V E byte} (m : machine V E byte) : Prop :=
  1 <= m_nr m /\ 1 <= m_nt m /\ sorts (m_srt m) /\ sorts_by_key (m_tsrt m) /\ (forall l, m_decv m (m_encv m l) (zlen l) = Ok l).


(** An ordinary use of the library: one edge array per rank, all vertex numbers in 1..n. *)
Definition setting {V E byte} (m : machine V E byte) (n : Z) (blobs : list (list (edge E))) : Prop :=
  machine_ok m /\ 0 <= n /\ zlen blobs = m_nr m /\ forall e, In e (concat blobs) -> 1 <= e_src e <= n /\ 1 <= e_dst e <= n.
(** [g] is the graph after loading and making the calls [h] *)
Definition reached {V E byte} neq (m : machine V E byte) (dv : V) n blobs h (g : graph V E byte) : Prop :=
  exists g0, load m dv n blobs = Ok g0 /\ run_calls neq m h g0 = Ok g.
(** [q] is what that means *)
Definition means {V E byte} neq (dv : V) n (blobs : list (list (edge E))) (h : list (Z * gcall V E byte)) (q : gspec V E) : Prop :=
  spec_calls neq n h (loaded dv (concat blobs)) (Some q).

(** the same, where several meanings are possible *)
Definition can_mean {V E byte} neq (dv : V) n (blobs : list (list (edge E))) (h : list (Z * gcall V E byte)) (q : gspec V E) : Prop :=
  can_calls neq n h (loaded dv (concat blobs)) (Some q).

(** *** the calls of a run, counted *)
Definition event_eq_dec (a b : event) : {a = b} + {a <> b}.
Proof. decide equality; apply Z.eq_dec. Defined.
(** the calls of superstep [i] on one rank: first [send_message]s, then [apply]s, then
    [do_every_iteration] *)
Definition superstep_block (i : nat) (l : list event) : Prop :=
  exists a b, l = a ++ b ++ [Every (Z.of_nat i)] /\ (forall e, In e a -> exists v, e = Sent v) /\ (forall e, In e b -> exists v, e = Applied v).
(** [bs]: per rank, the calls of every superstep, in terms of vertex numbers *)
Definition split_log {V E byte} (m : machine V E byte) (g : graph V E byte) (log : list (list event)) (K : nat) (bs : list (list (list event))) : Prop :=
  zlen log = m_nr m /\
  Forall2 (fun l b => mapR (event_vertex m g) l = Ok (concat b) /\ length b = K /\ forall i l', nth_error b i = Some l' -> superstep_block i l') log bs.
(** how often [e] happens in superstep [i], over all ranks *)
Definition times (bs : list (list (list event))) (i : nat) (e : event) : nat :=
  list_sum (map (fun b => count_occ event_eq_dec (nth i b []) e) bs).
(** [u] has an edge to [w] in the direction a program follows *)
Definition edge_to {E} (o : direction) (es : list (edge E)) (u w : Z) : Prop :=
  exists e, In e es /\ match o with
    | OUT_EDGES => e_src e = u /\ e_dst e = w
    | IN_EDGES => e_dst e = u /\ e_src e = w
    | ALL_EDGES => (e_src e = u /\ e_dst e = w) \/ (e_dst e = u /\ e_src e = w)
    end.

(** *** everything that can be seen of a graph *)
Definition in1 (n v : Z) : bool := (1 <=? v) && (v <=? n).
Definition is_nil {A} (l : list A) : bool := match l with [] => true | _ => false end.
Definition is_true (o : option bool) : bool := match o with Some true => true | _ => false end.
(** in a run of [K] supersteps from [q], [send_message] was called once in superstep [i] for every
    active vertex and [apply] once for every vertex with a message, and for no other *)
Definition calls_match {S T U V E} neq n (jb : job S T U V E) (C : Z -> T) (q : gspec V E) (K : nat) (bs : list (list (list event))) : Prop :=
  forall i v, (i < K)%nat ->
    times bs i (Sent v) = (if in1 n v && is_true (v_A (job_after neq jb C q i) v) then 1 else 0)%nat /\
    times bs i (Applied v) = (if in1 n v && negb (is_nil (received (gs_es q) (j_pg jb) (j_dv jb) (job_after neq jb C q i) v)) then 1 else 0)%nat.
(** the properties and edges read from [g] are those of [q], and every program run on [g] makes the
    calls it would make on [q] *)
Definition observed_as {V E byte} neq (m : machine V E byte) n (g : graph V E byte) (q : gspec V E) : Prop :=
  shows_properties n m g (gs_P q) /\ shows_edges m g (gs_es q) /\
  forall S T U th (jb : job S T U V E) fr r k, call_ok n m th (CRun jb fr) -> run_job neq m th jb fr None g = Ok (r, k) ->
    exists K bs, k = Z.of_nat K /\ job_takes neq n jb (fun _ => j_dt jb) q K /\ split_log m (r_g r) (r_log r) K bs /\ calls_match neq n jb (fun _ => j_dt jb) q K bs.
(** a graph reached by some history, with what it means, and a run that is about to start *)
Definition situation {V E byte S T U} neq (m : machine V E byte) (dv : V) n blobs h (g : graph V E byte) (q : gspec V E) th (jb : job S T U V E) (fr : frame T U byte) : Prop :=
  setting m n blobs /\ calls_ok n m h /\ reached neq m dv n blobs h g /\ means neq dv n blobs h q /\ call_ok n m th (CRun jb fr).
(** a temporary structure for the message type [T] and the reduced type [U]: made by
    graph_program_init (GraphMatRuntime.h:60-70), or left behind by runs that used it *)
Inductive temporaries {V E byte T U} neq (m : machine V E byte) (n : Z) (sert seru : bool) : list (list (seg T byte)) * list (list (seg U byte)) -> Prop :=
| T_init th (fr : frame T U byte) dt xy : frame_ok m th fr -> f_sert fr = sert -> f_seru fr = seru ->
    new_temps (m_nr m) th (f_tjunk fr) (f_ujunk fr) (f_tfresh fr) (f_ufresh fr) dt (f_du fr) n = Ok xy -> temporaries neq m n sert seru xy
| T_used S dv blobs h g q th (jb : job S T U V E) (fr : frame T U byte) xy r k : situation neq m dv n blobs h g q th jb fr -> f_sert fr = sert -> f_seru fr = seru ->
    temporaries neq m n sert seru xy -> run_job neq m th jb fr (Some xy) g = Ok (r, k) -> temporaries neq m n sert seru (r_x r, r_y r).

(** *** programs that differ in nothing that should matter *)
(** the same program but for the boolean results of [send_message] *)
Definition same_program {S T U V E} (pg pg' : program S T U V E) : Prop :=
  pr_order pg = pr_order pg' /\ pr_all_vertices pg = pr_all_vertices pg' /\ pr_reqv pg = pr_reqv pg' /\
  (forall s v t, fst (pr_send pg s v t) = fst (pr_send pg' s v t)) /\ pr_process pg = pr_process pg' /\ pr_reduce pg = pr_reduce pg' /\
  pr_apply pg = pr_apply pg' /\ pr_every pg = pr_every pg'.
(** [send_message] does not read the message variable *)
Definition ignores_old {S T U V E} (pg : program S T U V E) : Prop := forall s v t t', fst (pr_send pg s v t) = fst (pr_send pg s v t').
Definition same_job {S T U V E} (jb jb' : job S T U V E) : Prop :=
  same_program (j_pg jb) (j_pg jb') /\ j_s jb = j_s jb' /\ j_iterations jb = j_iterations jb' /\ j_dt jb = j_dt jb' /\ j_dv jb = j_dv jb' /\ j_fuel jb = j_fuel jb'.
(** the same edges (in any order), properties and activity *)
Definition same_graph {V E} n (q q' : gspec V E) : Prop :=
  Permutation (gs_es q) (gs_es q') /\ forall v, 1 <= v <= n -> gs_P q v = gs_P q' v /\ gs_A q v = gs_A q' v.
(** the same call: the result of a reduction is not part of the graph, and how a run holds its
    temporaries should not matter *)
Inductive same_call {V E byte} : gcall V E byte -> gcall V E byte -> Prop :=
| SC_refl c : same_call c c
| SC_reduce W mp op op' init init' : same_call (@CReduce V E byte W mp op init) (CReduce mp op' init')
| SC_run S T U (jb jb' : job S T U V E) fr fr' : same_job jb jb' -> same_call (CRun jb fr) (CRun jb' fr').

(** a history of setActive ([true]) and setInactive ([false]) calls, each with its thread count *)
Definition activity_calls {V E byte} (ops : list (Z * (Z * bool))) : list (Z * gcall V E byte) :=
  map (fun o : Z * (Z * bool) => (fst o, if snd (snd o) then CActive (fst (snd o)) else CInactive (fst (snd o)))) ops.
(** membership: the last call for [v] decides; [all]: the state before *)
Definition member (all : bool) (ops : list (Z * (Z * bool))) (v : Z) : bool :=
  fold_left (fun b (o : Z * (Z * bool)) => if fst (snd o) =? v then snd (snd o) else b) ops all.
(** calls that do not touch activity *)
Definition no_activity {V E byte} (c : gcall V E byte) : Prop :=
  match c with CSet _ _ | CSetAll _ | CApply _ | CReduce _ _ _ | CEdges _ => True | _ => False end.
(** what may be passed as temporary structure: nothing, or one made for the same types *)
Definition temporaries_ok {V E byte T U} (neq : V -> V -> bool) (m : machine V E byte) (n : Z) (fr : frame T U byte) (tmp : option (list (list (seg T byte)) * list (list (seg U byte)))) : Prop :=
  match tmp with None => True | Some xy => temporaries neq m n (f_sert fr) (f_seru fr) xy end.

(** superstep [i] (counted from 0) delivers something to [v] and gives it a property that compares
    unequal to the old one *)
Definition changes {S T U V E} (neq : V -> V -> bool) (jb : job S T U V E) (q : gspec V E) (i : nat) (v : Z) : Prop :=
  received (gs_es q) (j_pg jb) (j_dv jb) (job_after neq jb (fun _ => j_dt jb) q i) v <> [] /\
  neq (v_P (job_after neq jb (fun _ => j_dt jb) q i) v) (v_P (job_after neq jb (fun _ => j_dt jb) q (Datatypes.S i)) v) = true.
(** the code decides it by the comparison [neq] *)
Definition changes_dec {S T U V E} neq (jb : job S T U V E) (q : gspec V E) i v : {changes neq jb q i v} + {~ changes neq jb q i v}.
Proof.
  unfold changes. destruct (received _ _ _ _ v) as [|x l]; [right; intros [H _]; congruence|].
  destruct (neq _ _); [left; split; [discriminate|reflexivity]|right; intros [_ H]; discriminate].
Defined.

(** *** one superstep, spelled out *)
Section OneStep.
  Context {S T U V E : Type}.
  Variable jb : job S T U V E.
  Variable q : gspec V E.
  Notation pg := (j_pg jb).
  (** who sends *)
  Definition sends (u : Z) : bool := pr_all_vertices pg || is_true (gs_A q u).
  (** what reaches [w] from [u] over an edge with weight [x] *)
  Definition processed (u w : Z) (x : E) : U :=
    pr_process pg (j_s jb) (fst (pr_send pg (j_s jb) (gs_P q u) (j_dt jb))) x (if pr_reqv pg then gs_P q w else j_dv jb).
  Definition over_out (w : Z) : list U := flat_map (fun e => if (e_dst e =? w) && sends (e_src e) then [processed (e_src e) w (e_val e)] else []) (gs_es q).
  Definition over_in (w : Z) : list U := flat_map (fun e => if (e_src e =? w) && sends (e_dst e) then [processed (e_dst e) w (e_val e)] else []) (gs_es q).
  Definition inbox (w : Z) : list U :=
    match pr_order pg with OUT_EDGES => over_out w | IN_EDGES => over_in w | ALL_EDGES => over_out w ++ over_in w end.
  (** the same for a graph no activity call was made on: every vertex sends, but the message is
      whatever the message variable holds *)
  Definition fresh_processed (w : Z) (x : E) : U := pr_process pg (j_s jb) (j_dt jb) x (if pr_reqv pg then gs_P q w else j_dv jb).
  Definition fresh_out (w : Z) : list U := flat_map (fun e => if e_dst e =? w then [fresh_processed w (e_val e)] else []) (gs_es q).
  Definition fresh_in (w : Z) : list U := flat_map (fun e => if e_src e =? w then [fresh_processed w (e_val e)] else []) (gs_es q).
  Definition fresh_inbox (w : Z) : list U :=
    match pr_order pg with OUT_EDGES => fresh_out w | IN_EDGES => fresh_in w | ALL_EDGES => fresh_out w ++ fresh_in w end.
End OneStep.
