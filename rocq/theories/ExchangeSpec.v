(** What the exchanges of a run need, and what it means that they can always go on. *)
From Verif Require Import Base Mpi Exchange.

Section Ok.
  Variable nr : Z.
  Notation rank r := (0 <= r < nr).
  (** every tile and every segment belongs to a rank *)
  Record layout_ok (y : layout) : Prop := {
    lo_tile : forall i j, 0 <= i < ly_nty y -> 0 <= j < ly_ntx y -> rank (ly_tile y i j);
    lo_own : forall k, 0 <= k < ly_ntx y \/ 0 <= k < ly_nty y -> rank (ly_own y k) }.
  (** (the tiles of an ApplyEdges are square: Graph.h:226-227) *)
  Definition exchange_ok (e : exchange) : Prop :=
    match e with
    | XMult y _ _ | XMult3 y _ _ _ => layout_ok y
    | XEdges y _ => layout_ok y /\ ly_ntx y = ly_nty y
    | XReduce | XShuffle | XCollective => True
    end.
End Ok.

(** steps that MPI guarantees *)
Inductive sure_steps {L} (nr : Z) : state L -> state L -> Prop :=
| sure_0 st : sure_steps nr st st
| sure_S st st1 st2 : step nr true st st1 -> sure_steps nr st1 st2 -> sure_steps nr st st2.
