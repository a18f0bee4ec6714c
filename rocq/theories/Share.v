(** Lifetime of the objects a graph points to: include/Graph.h.
    Several graphs in one process; the heap holds the objects they allocate. The content of a vertex
    property vector is any value of type [X]; that of matrices and active vectors is left out. *)
From Verif Require Import Base.

Section SHARE.
  Context {X : Type}.
  Inductive cell := CNone | CFreed | CMat | CAct | CVec (x : X).
  (** Graph.h:62-72, the pointer members and vertexpropertyowner; [o_dead]: destroyed *)
  Record gobj := mkG { o_A : option nat; o_AT : option nat; o_vp : option nat; o_act : option nat; o_owner : bool; o_dead : bool }.
  Record st := mkSt { heap : nat -> cell; next : nat; obj : nat -> gobj }.
  (** Graph.h:75-78, the constructor; all graphs are constructed at the start *)
  Definition init : st := mkSt (fun _ => CNone) 0 (fun _ => mkG None None None None true false).

  Definition set_cell (s : st) (l : nat) (c : cell) : st := mkSt (fun k => if Nat.eqb k l then c else heap s k) (next s) (obj s).
  Definition set_obj (s : st) (g : nat) (o : gobj) : st := mkSt (heap s) (next s) (fun k => if Nat.eqb k g then o else obj s k).
  (** new *)
  Definition alloc (s : st) (c : cell) : st * nat :=
    (mkSt (fun k => if Nat.eqb k (next s) then c else heap s k) (S (next s)) (obj s), next s).
  (** delete p *)
  Definition free (s : st) (l : nat) : R st :=
    match heap s l with CNone => Err OOB | CFreed => Err DoubleFree | _ => Ok (set_cell s l CFreed) end.
  Definition free_opt (s : st) (p : option nat) : R st := match p with None => Ok s | Some l => free s l end.
  (** access through a pointer *)
  Definition deref (s : st) (p : option nat) : R (nat * cell) :=
    match p with
    | None => Err NullDeref
    | Some l => match heap s l with CNone => Err OOB | CFreed => Err UAF | c => Ok (l, c) end
    end.
  (** a member function is called on a graph that was not destroyed *)
  Definition live (s : st) (g : nat) : R gobj := if o_dead (obj s g) then Err UAF else Ok (obj s g).

  Inductive op :=
  | OLoad (g : nat) (x : X)
  | OShare (g k : nat)
  | OUse (g : nat) (f : X -> X)
  | OEdges (g : nat)
  | ODestroy (g : nat).

  (** ReadEdgelist, ReadMTX, ReadGraphMatBin: Graph.h:152-194, 211-260. New objects, the old pointers are
      overwritten. The order of allocation does not matter. [x]: the initial properties *)
  Definition load (s : st) (g : nat) (x : X) : R st :=
    do o <- live s g ;;
    let '(s, a) := alloc s CMat in
    let '(s, at_) := alloc s CMat in
    let '(s, v) := alloc s (CVec x) in
    let '(s, c) := alloc s CAct in
    Ok (set_obj s g (mkG (Some a) (Some at_) (Some v) (Some c) true false)).
  (** Graph.h:300-305, g.shareVertexProperty(k) *)
  Definition share (s : st) (g k : nat) : R st :=
    do o <- live s g ;;
    do _ <- live s k ;;
    do s <- free_opt s (o_vp o) ;;
    let o := obj s g in
    Ok (set_obj s g (mkG (o_A o) (o_AT o) (o_vp (obj s k)) (o_act o) false (o_dead o))).
  (** any member function that reads or changes the vertex properties (Graph.h:292-298, 307-384) *)
  Definition use (s : st) (g : nat) (f : X -> X) : R st :=
    do o <- live s g ;;
    do q <- deref s (o_vp o) ;;
    match q with (l, CVec x) => Ok (set_cell s l (CVec (f x))) | _ => Err OOB end.
  (** member functions on the edges or the active set (Graph.h:262-291, 326-335, 395-400) *)
  Definition edges (s : st) (g : nat) : R st :=
    do o <- live s g ;;
    do _ <- deref s (o_A o) ;; do _ <- deref s (o_AT o) ;; do _ <- deref s (o_act o) ;; Ok s.
  (** Graph.h:404-424 *)
  Definition destroy (s : st) (g : nat) : R st :=
    do o <- live s g ;;
    do s <- free_opt s (o_A o) ;;
    do s <- free_opt s (o_AT o) ;;
    do s <- (if o_owner o then free_opt s (o_vp o) else Ok s) ;;
    do s <- free_opt s (o_act o) ;;
    Ok (set_obj s g (mkG None None None None (o_owner o) true)).
  Definition exec (s : st) (o : op) : R st :=
    match o with
    | OLoad g x => load s g x
    | OShare g k => share s g k
    | OUse g f => use s g f
    | OEdges g => edges s g
    | ODestroy g => destroy s g
    end.
  Definition run_ops (s : st) (h : list op) : R st := foldR exec h s.
  (** the properties seen through a graph *)
  Definition seen (s : st) (g : nat) : R X :=
    do o <- live s g ;; do q <- deref s (o_vp o) ;; match q with (_, CVec x) => Ok x | _ => Err OOB end.
End SHARE.
Arguments cell : clear implicits.
Arguments st : clear implicits.
Arguments op : clear implicits.
