(** The rules a user of shareVertexProperty has to follow, on the sequence of calls alone. *)
From Verif Require Import Base Share.

Section SS.
  Context {X : Type}.
  Notation op := (op X).
  Definition is_loaded (p : list op) (g : nat) : bool := existsb (fun o => match o with OLoad k _ => Nat.eqb k g | _ => false end) p.
  Definition is_dead (p : list op) (g : nat) : bool := existsb (fun o => match o with ODestroy k => Nat.eqb k g | _ => false end) p.
  Definition has_shared (p : list op) (g : nat) : bool := existsb (fun o => match o with OShare k _ => Nat.eqb k g | _ => false end) p.
  Definition was_source (p : list op) (g : nat) : bool := existsb (fun o => match o with OShare _ k => Nat.eqb k g | _ => false end) p.

  (** Whose properties each graph shows, and what they are. *)
  Definition track (s : (nat -> nat) * (nat -> option X)) (o : op) : (nat -> nat) * (nat -> option X) :=
    match o with
    | OLoad g x => (fst s, fun k => if Nat.eqb k g then Some x else snd s k)
    | OShare g k => (fun j => if Nat.eqb j g then fst s k else fst s j, snd s)
    | OUse g f => (fst s, fun k => if Nat.eqb k (fst s g) then option_map f (snd s k) else snd s k)
    | _ => s
    end.
  Definition tracked (p : list op) := fold_left track p (fun g => g, fun _ => None).
  Definition origin (p : list op) (g : nat) : nat := fst (tracked p) g.
  Definition value (p : list op) (g : nat) : option X := snd (tracked p) g.

  (** [o] may be called after [p]: graphs are used only after they are loaded (once) and until they are
      destroyed; a graph shares only once, from another graph, and not after others shared from it; the
      properties are used only while the graph they came from exists. *)
  Definition allowed (p : list op) (o : op) : Prop :=
    match o with
    | OLoad g _ => is_dead p g = false /\ is_loaded p g = false
    | OShare g k => g <> k /\ is_dead p g = false /\ is_dead p k = false /\ is_loaded p g = true /\ is_loaded p k = true /\
        has_shared p g = false /\ was_source p g = false
    | OUse g _ => is_dead p g = false /\ is_loaded p g = true /\ is_dead p (origin p g) = false
    | OEdges g => is_dead p g = false /\ is_loaded p g = true
    | ODestroy g => is_dead p g = false
    end.
  Definition disciplined (h : list op) : Prop := forall p o q, h = p ++ o :: q -> allowed p o.
End SS.
