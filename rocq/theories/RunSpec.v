(** What running a vertex program should do, said with vertex numbers and the edge list only: no
    ranks, segments, words or tiles. *)
From Verif Require Import Base Layout Reduce DCSC Vec GraphVert Runtime.

Section RunSpec.
  Context {S T U V E : Type}.
  Variables (n : Z) (es : list (edge E)).
  Variable pg : program S T U V E.
  Variable neq : V -> V -> bool.
  (** what [process_message] sees as vertex property if the program declared not to need it *)
  Variable dv : V.

  (** Between two supersteps: the program object, the property of every vertex, its activity, and
      what its message variable holds.  A vertex with activity [None] is inactive.  [Some false]
      only occurs before the first activity call or superstep of a loaded graph: such a vertex
      takes part, but [send_message] is not called for it. *)
  Record vstate := mkV { v_s : S; v_P : Z -> V; v_A : Z -> option bool; v_C : Z -> T }.

  (** the message of vertex [v] *)
  Definition message (q : vstate) (v : Z) : option T :=
    match v_A q v with
    | None => None
    | Some true => Some (fst (pr_send pg (v_s q) (v_P q v) (v_C q v)))
    | Some false => Some (v_C q v)
    end.
  Definition seen (q : vstate) (v : Z) : V := if pr_reqv pg then v_P q v else dv.
  (** processed messages arriving at [v] along the edges that [f] maps to (sender, receiver) *)
  Definition arriving (q : vstate) (f : edge E -> Z * Z) (v : Z) : list U :=
    flat_map (fun e => if snd (f e) =? v then
                match message q (fst (f e)) with Some t => [pr_process pg (v_s q) t (e_val e) (seen q v)] | None => [] end
              else []) es.
  Definition along (e : edge E) : Z * Z := (e_src e, e_dst e).
  Definition against (e : edge E) : Z * Z := (e_dst e, e_src e).
  Definition received (q : vstate) (v : Z) : list U :=
    match pr_order pg with
    | OUT_EDGES => arriving q along v
    | IN_EDGES => arriving q against v
    | ALL_EDGES => arriving q along v ++ arriving q against v
    end.
  (** their reduction, [None] if there are none *)
  Definition combined (q : vstate) (v : Z) : option U := red (pr_reduce pg (v_s q)) (received q v).

  Definition updated (q : vstate) (v : Z) : V :=
    match combined q v with Some u => pr_apply pg (v_s q) u (v_P q v) | None => v_P q v end.
  Definition changed (q : vstate) (v : Z) : bool :=
    match combined q v with Some u => neq (v_P q v) (pr_apply pg (v_s q) u (v_P q v)) | None => false end.

  Definition step (it : Z) (q : vstate) : vstate :=
    mkV (pr_every pg it (v_s q)) (updated q)
        (fun v => if pr_all_vertices pg || changed q v then Some true else None)
        (fun v => match message q v with Some t => t | None => v_C q v end).
  Definition converged (q : vstate) : bool := forallb (fun v => negb (changed q v)) (zrange 1 (n + 1)).

  (** the state in which the first superstep starts, and the state after [k] supersteps *)
  Definition begin (q : vstate) : vstate :=
    mkV (v_s q) (v_P q) (if pr_all_vertices pg then fun _ => Some true else v_A q) (v_C q).
  Fixpoint after (k : nat) (q : vstate) : vstate :=
    match k with O => begin q | Datatypes.S k => step (Z.of_nat k) (after k q) end.

  (** whether a run asked for [iterations] supersteps ends after the [k]-th, [1 <= k] *)
  Definition ends (iterations : Z) (q : vstate) (k : nat) : Prop :=
    Z.of_nat k = iterations \/ (iterations <= 0 /\ converged (after (k - 1) q) = true).

  (** The same without assuming that the order of reduction does not matter: [Y] says what the
      reduction gave for every vertex, and [Y k] what it gave in superstep [k].  What the code may
      come up with is [received] reduced in some order. *)
  Definition updated_with (Y : Z -> option U) (q : vstate) (v : Z) : V :=
    match Y v with Some u => pr_apply pg (v_s q) u (v_P q v) | None => v_P q v end.
  Definition changed_with (Y : Z -> option U) (q : vstate) (v : Z) : bool :=
    match Y v with Some u => neq (v_P q v) (pr_apply pg (v_s q) u (v_P q v)) | None => false end.
  Definition step_with (Y : Z -> option U) (it : Z) (q : vstate) : vstate :=
    mkV (pr_every pg it (v_s q)) (updated_with Y q)
        (fun v => if pr_all_vertices pg || changed_with Y q v then Some true else None)
        (fun v => match message q v with Some t => t | None => v_C q v end).
  Definition converged_with (Y : Z -> option U) (q : vstate) : bool := forallb (fun v => negb (changed_with Y q v)) (zrange 1 (n + 1)).
  Fixpoint after_with (Y : nat -> Z -> option U) (k : nat) (q : vstate) : vstate :=
    match k with O => begin q | Datatypes.S k => step_with (Y k) (Z.of_nat k) (after_with Y k q) end.
  Definition ends_with (Y : nat -> Z -> option U) (iterations : Z) (q : vstate) (k : nat) : Prop :=
    Z.of_nat k = iterations \/ (iterations <= 0 /\ converged_with (Y (k - 1)%nat) (after_with Y (k - 1) q) = true).
  (** [Y] is a possible outcome of the reductions of the superstep from [q] *)
  Definition outcome (q : vstate) (Y : Z -> option U) : Prop :=
    forall v, 1 <= v <= n -> combined_of (pr_reduce pg (v_s q)) (received q v) (Y v).

  (** the calls rank [r] makes in superstep [it] from state [q]: [send_message] once for every
      vertex it owns that is active, then [apply] once for every vertex it owns that received
      something, then [do_every_iteration].  [pi] gives the position of a vertex, [owner] its rank. *)
  Definition calls (pi : Z -> Z) (owner : Z -> Z) (r it : Z) (q : vstate) (l : list event) : Prop :=
    exists vs ws, l = map (fun v => Sent (pi v)) vs ++ map (fun v => Applied (pi v)) ws ++ [Every it] /\
      NoDup vs /\ (forall v, In v vs <-> 1 <= v <= n /\ owner v = r /\ v_A q v = Some true) /\
      NoDup ws /\ (forall v, In v ws <-> 1 <= v <= n /\ owner v = r /\ received q v <> []).
End RunSpec.
Arguments mkV {S T V}. Arguments v_s {S T V}. Arguments v_P {S T V}. Arguments v_A {S T V}. Arguments v_C {S T V}.
