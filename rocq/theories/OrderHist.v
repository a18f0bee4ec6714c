(** Histories of calls when the messages of every vertex are combined in a given order: such a
    history has one meaning, for every reduction. *)
From Verif Require Import Base Layout Reduce DCSC Segment Vec GraphVert Graph Runtime RunSpec Tree OrderSpec GraphHist.

Section Meaning.
  Context {V E byte : Type}.
  Variable neq : V -> V -> bool.
  Variable n : Z.
  Variable ord : order E.

  Section Run.
    Context {S T U : Type}.
    Variable jb : job S T U V E.
    Definition job_after_in (C : Z -> T) (q : gspec V E) (k : nat) : @vstate S T V :=
      after_in (j_pg jb) neq (j_dv jb) ord k (start jb C q).
    Definition job_ends_in (C : Z -> T) (q : gspec V E) (k : nat) : Prop :=
      ends_in n (j_pg jb) neq (j_dv jb) ord (j_iterations jb) (start jb C q) k.
    Definition job_takes_in (C : Z -> T) (q : gspec V E) (K : nat) : Prop :=
      (1 <= K <= j_fuel jb)%nat /\ job_ends_in C q K /\ forall k, (1 <= k < K)%nat -> ~ job_ends_in C q k.
    Definition job_endless_in (C : Z -> T) (q : gspec V E) : Prop := forall k, (1 <= k <= j_fuel jb)%nat -> ~ job_ends_in C q k.
  End Run.

  (** [o = None]: a run was asked for that goes on for more supersteps than we watch *)
  Definition call_in (c : gcall V E byte) (q : gspec V E) (o : option (gspec V E)) : Prop :=
    match c with
    | CRun jb fr =>
        (exists K, job_takes_in jb (fun _ => j_dt jb) q K /\
           o = Some (mkGS (gs_es q) (v_P (job_after_in jb (fun _ => j_dt jb) q K)) (v_A (job_after_in jb (fun _ => j_dt jb) q K))))
        \/ (job_endless_in jb (fun _ => j_dt jb) q /\ o = None)
    | _ => spec_call neq n c q o
    end.
  Fixpoint calls_in (h : list (Z * gcall V E byte)) (q : gspec V E) (o : option (gspec V E)) : Prop :=
    match h with
    | [] => o = Some q
    | c :: h => exists o1, call_in (snd c) q o1 /\ match o1 with Some q1 => calls_in h q1 o | None => o = None end
    end.
End Meaning.

(** no call of the history changes edges *)
Definition keeps_edges {V E byte} (h : list (Z * gcall V E byte)) : Prop :=
  Forall (fun c => match snd c with CEdges _ => False | _ => True end) h.
(** the same calls, with other numbers of threads and other contents of uninitialised memory *)
Inductive same_call {V E byte} : gcall V E byte -> gcall V E byte -> Prop :=
| same_refl c : same_call c c
| same_run S T U (jb : job S T U V E) (fr fr' : frame T U byte) : same_call (CRun jb fr) (CRun jb fr').
Definition same_calls {V E byte} (h h' : list (Z * gcall V E byte)) : Prop := Forall2 (fun c c' => same_call (snd c) (snd c')) h h'.
