(** Running a vertex program when the messages of every vertex are combined in a given order. *)
From Verif Require Import Base Layout Reduce DCSC GraphVert Runtime RunSpec Tree.

(** the edges along which messages arrive, each with its sender as [e_src] and its receiver as
    [e_dst] *)
Definition reversed {E} (e : edge E) : edge E := mkE (e_dst e) (e_src e) (e_val e).
Definition arrivals {E} (d : direction) (es : list (edge E)) : list (edge E) :=
  match d with OUT_EDGES => es | IN_EDGES => map reversed es | ALL_EDGES => es ++ map reversed es end.

(** for every direction and receiving vertex, in which order the arriving edges are combined *)
Definition order (E : Type) := direction -> Z -> tree (edge E).
(** every arriving edge has its place in the order, once *)
Definition order_of {E} (n : Z) (es : list (edge E)) (ord : order E) : Prop :=
  forall d v, 1 <= v <= n -> Permutation (leaves (ord d v)) (filter (fun a => e_dst a =? v) (arrivals d es)).

Section Order.
  Context {S T U V E : Type}.
  Variable n : Z.
  Variable pg : program S T U V E.
  Variable neq : V -> V -> bool.
  Variable dv : V.
  Variable ord : order E.
  Notation vst := (@vstate S T V).

  (** what arrives along an edge: the processed message of its sender *)
  Definition delivered (q : vst) (a : edge E) : option U :=
    match message pg q (e_src a) with
    | Some t => Some (pr_process pg (v_s q) t (e_val a) (seen pg dv q (e_dst a)))
    | None => None
    end.
  Definition reduced_in (q : vst) (v : Z) : option U := eval (pr_reduce pg (v_s q)) (delivered q) (ord (pr_order pg) v).

  (** the state after [k] supersteps, and whether the run ends after the [k]-th *)
  Fixpoint after_in (k : nat) (q : vst) : vst :=
    match k with
    | O => begin pg q
    | Datatypes.S k => step_with pg neq (reduced_in (after_in k q)) (Z.of_nat k) (after_in k q)
    end.
  Definition ends_in (iterations : Z) (q : vst) (k : nat) : Prop :=
    Z.of_nat k = iterations \/
    (iterations <= 0 /\ converged_with n pg neq (reduced_in (after_in (k - 1) q)) (after_in (k - 1) q) = true).
End Order.
