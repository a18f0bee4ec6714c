(** Threads over shared memory: sequentially consistent interleavings of single reads and
    writes.  Nothing here models a particular source line; the parallel loops of the code are
    turned into pools of such threads. *)
From Verif Require Import Base.

Section Conc.
  Context {L V : Type}.
  (** a thread that accesses shared cells one at a time; private data and arrays nobody writes
      are captured in the continuations *)
  Inductive thread :=
  | Fin
  | Fail (e : err)
  | Rd (l : L) (k : V -> thread)
  | Wr (l : L) (v : V) (t : thread).

  Variable leq : L -> L -> bool.
  (** [None]: no such cell *)
  Definition mem := L -> option V.
  Definition mput (m : mem) (l : L) (v : V) : mem := fun l' => if leq l l' then Some v else m l'.

  (** one step of one thread of the pool *)
  Inductive pstep : list thread * mem -> list thread * mem -> Prop :=
  | step_rd ts m i l k v : nth_error ts i = Some (Rd l k) -> m l = Some v -> pstep (ts, m) (upd ts i (k v), m)
  | step_wr ts m i l v t old : nth_error ts i = Some (Wr l v t) -> m l = Some old -> pstep (ts, m) (upd ts i t, mput m l v).
  Inductive psteps : list thread * mem -> list thread * mem -> Prop :=
  | steps_refl s : psteps s s
  | steps_more s1 s2 s3 : psteps s1 s2 -> pstep s2 s3 -> psteps s1 s3.

  (** all threads ran to their end *)
  Definition finished (ts : list thread) : Prop := forall t, In t ts -> t = Fin.
  (** some thread is about to do something undefined *)
  Definition bad (s : list thread * mem) : Prop :=
    exists t, In t (fst s) /\
      match t with Fin => False | Fail _ => True | Rd l _ | Wr l _ _ => snd s l = None end.

  (** one thread alone *)
  Fixpoint exec (t : thread) (m : mem) : R mem :=
    match t with
    | Fin => Ok m
    | Fail e => Err e
    | Rd l k => match m l with Some v => exec (k v) m | None => Err OOB end
    | Wr l v t => match m l with Some _ => exec t (mput m l v) | None => Err OOB end
    end.

  (** sequential composition *)
  Fixpoint seqt (t u : thread) : thread :=
    match t with
    | Fin => u
    | Fail e => Fail e
    | Rd l k => Rd l (fun v => seqt (k v) u)
    | Wr l v t => Wr l v (seqt t u)
    end.
  (** [for (i = lo; i < hi; i++)] *)
  Fixpoint tforN (n : nat) (i : Z) (body : Z -> thread) : thread :=
    match n with O => Fin | S n' => seqt (body i) (tforN n' (i + 1) body) end.
  Definition tfor (lo hi : Z) (body : Z -> thread) : thread := tforN (Z.to_nat (hi - lo)) lo body.
  (** a computation that only reads private or constant data *)
  Definition tlift {A} (r : R A) (k : A -> thread) : thread := match r with Ok a => k a | Err e => Fail e end.
End Conc.
Arguments thread : clear implicits.
