(** Histories of operations on one vector segment, and what they should mean. *)
From Verif Require Import Base Bits Segment.

(** What a client can do to a segment (ids are 1-based).  [OClear] is [Clear] of the whole
    vector, [OSetInactive] what [Graph::setAllInactive] does to each owned segment. *)
Inductive sop (T : Type) :=
| OSet (id : Z) (a : T) | OUnset (id : Z) | OSetAll (a : T) | OClear | OSetInactive (a : T).
Arguments OSet {T}. Arguments OUnset {T}. Arguments OSetAll {T}. Arguments OClear {T}. Arguments OSetInactive {T}.

Section H.
  Context {T byte : Type}.

  (** DenseSegment.h:600-640, include/GMDP/singlenode/clear.h:40-43, include/Graph.h:268-280 *)
  Definition run_sop (threads : Z) (s : seg T byte) (o : sop T) : R (seg T byte) :=
    match o with
    | OSet id a => seg_set threads id (Some a) s
    | OUnset id => seg_unset threads id s
    | OSetAll a => seg_setAll threads (Some a) s
    | OClear => Ok (seg_set_uninitialized s)
    | OSetInactive a => do s <- seg_setAll threads (Some a) s ;; seg_zero s
    end.
  Definition run_sops (threads : Z) (ops : list (sop T)) (s : seg T byte) : R (seg T byte) :=
    foldR (run_sop threads) ops s.

  (** the same operations on a plain partial map from ids to values *)
  Definition spec_sop (n : Z) (M : Z -> option T) (o : sop T) : Z -> option T :=
    match o with
    | OSet id a => fun k => if k =? id then Some a else M k
    | OUnset id => fun k => if k =? id then None else M k
    | OSetAll a => fun k => if (1 <=? k) && (k <=? n) then Some a else None
    | OClear => fun _ => None
    | OSetInactive _ => fun _ => None
    end.
  Definition spec_sops (n : Z) (ops : list (sop T)) : Z -> option T := fold_left (spec_sop n) ops (fun _ => None).

  (** ids in 1..n that have a value, in increasing order *)
  Definition is_some {A} (o : option A) : bool := match o with Some _ => true | None => false end.
  Definition members (n : Z) (M : Z -> option T) : list Z := filter (fun id => is_some (M id)) (zrange 1 (n + 1)).

  Definition sop_in_range (n : Z) (o : sop T) : Prop :=
    match o with OSet id _ | OUnset id => 1 <= id <= n | _ => True end.
End H.

(** What reading a segment back shows: exact count, exact member list, stored values. *)
Definition shows {T byte} (n : Z) (s : seg T byte) (M : Z -> option T) : Prop :=
  seg_compute_nnz s = Ok (zlen (members n M)) /\
  (forall id a, M id = Some a -> seg_get id s = Ok (Some a)) /\
  (forall room start, zlen (members n M) <= room ->
     seg_get_edges room start s = Ok (map (fun id => (start + id, M id)) (members n M))).

Section Tr.
  Context {T byte : Type}.
  Variable ser : bool.
  Variable enc : list (Z * T) -> list byte.
  Variable dec : list byte -> Z -> R (list (Z * T)).

  (** include/GMDP/multinode/spmspv.h:56-119 for one sender [s] (running [t1] threads) and one
      receiver [r] ([t2] threads): compress, counts, data, decompress *)
  Definition transfer (t1 t2 : Z) (s r : seg T byte) : R (seg T byte * seg T byte) :=
    do s <- seg_compress ser enc t1 s ;;
    do md <- seg_send_nnz s ;;
    do pl <- seg_send_segment ser s ;;
    do r <- seg_recv_segment ser pl (seg_recv_nnz t2 md r) ;;
    do r <- seg_decompress ser dec t2 r ;;
    Ok (s, r).
  (** one receiver hearing from several senders, one after the other *)
  Definition transfers (t2 : Z) (senders : list (Z * seg T byte)) (r : seg T byte) : R (seg T byte) :=
    foldR (fun r (sd : Z * seg T byte) => do sr <- transfer (fst sd) t2 (snd sd) r ;; Ok (snd sr)) senders r.

  (** include/GMDP/multinode/spmspv.h:142-205 for one owner: contributors compress and send,
      the owner queues all counts, then all data, and merges *)
  Definition gather (op : T -> T -> T) (t : Z) (contributors : list (Z * seg T byte)) (owner : seg T byte) : R (seg T byte) :=
    do msgs <- mapR (fun (c : Z * seg T byte) =>
        do s <- seg_compress ser enc (fst c) (snd c) ;;
        do md <- seg_send_nnz s ;;
        do pl <- seg_send_segment ser s ;;
        Ok (md, pl)) contributors ;;
    let owner := fold_left (fun o (m : send_md * payload) => seg_recv_nnz_queue (fst m) o) msgs owner in
    do owner <- foldR (fun o (m : send_md * payload) => seg_recv_segment_queue ser t (snd m) o) msgs owner ;;
    do owner <- seg_union_received ser dec op t owner ;;
    Ok (seg_set_uninitialized_received owner).
End Tr.
