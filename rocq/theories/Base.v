(** Common vocabulary of the model: outcomes of C++ code, checked arrays, counted loops.
    Nothing here models a particular source line; it fixes how undefined behaviour shows up. *)
From Coq Require Export List ZArith Lia Bool Permutation.
From Coq Require Export ZifyBool.
Export ListNotations.
Open Scope Z_scope.

Ltac Zify.zify_post_hook ::= Z.div_mod_to_equations.

(** The ways a run can go wrong.  [OOB]: array access outside its allocation; [Uninit]: use of
    memory nobody wrote; [AssertFail]: failed [assert]; [ExitCall]: the code calls [exit];
    [UAF]/[DoubleFree]: lifetime errors; [BadFree]: memory given back by a function that does not match
    the one it came from; [NullDeref]; [DivZero]; [NoFuel]: the model's step budget
    ran out (the C++ loop did not finish within it). *)
Inductive err := OOB | Uninit | AssertFail | ExitCall | UAF | DoubleFree | BadFree | NullDeref | DivZero | NoFuel.

Inductive R (A : Type) := Ok (a : A) | Err (e : err).
Arguments Ok {A} _.
Arguments Err {A} _.

Definition bind {A B} (x : R A) (f : A -> R B) : R B :=
  match x with Ok a => f a | Err e => Err e end.
Notation "'do' x <- e ;; k" := (bind e (fun x => k))
  (at level 200, x pattern, e at level 100, k at level 200, right associativity).

(** [assert(b)] *)
Definition assertb (b : bool) : R unit := if b then Ok tt else Err AssertFail.

(** Checked array read [l[i]]. *)
Definition rd {A} (l : list A) (i : Z) : R A :=
  if i <? 0 then Err OOB
  else match nth_error l (Z.to_nat i) with Some a => Ok a | None => Err OOB end.

Fixpoint upd {A} (l : list A) (n : nat) (a : A) : list A :=
  match l, n with
  | [], _ => []
  | _ :: t, O => a :: t
  | h :: t, S n' => h :: upd t n' a
  end.

(** Checked array write [l[i] = a]. *)
Definition wr {A} (l : list A) (i : Z) (a : A) : R (list A) :=
  if (i <? 0) || (Z.of_nat (length l) <=? i) then Err OOB else Ok (upd l (Z.to_nat i) a).

(** [for (i = lo; i < lo + n; i++) s = body(i, s)] *)
Fixpoint forN {S} (n : nat) (i : Z) (body : Z -> S -> R S) (s : S) : R S :=
  match n with
  | O => Ok s
  | Datatypes.S n' => do s' <- body i s ;; forN n' (i + 1) body s'
  end.
(** [for (i = lo; i < hi; i++)] *)
Definition forZ {S} (lo hi : Z) (body : Z -> S -> R S) (s : S) : R S :=
  forN (Z.to_nat (hi - lo)) lo body s.

(** integers lo, lo+1, ..., hi-1 *)
Definition zseq (lo : Z) (n : nat) : list Z := map (fun k => lo + Z.of_nat k) (seq 0 n).
Definition zrange (lo hi : Z) : list Z := zseq lo (Z.to_nat (hi - lo)).

Definition zlen {A} (l : list A) : Z := Z.of_nat (length l).

(** run [f] over a list, collecting results, stopping at the first error *)
Fixpoint mapR {A B} (f : A -> R B) (l : list A) : R (list B) :=
  match l with
  | [] => Ok []
  | a :: t => do b <- f a ;; do bs <- mapR f t ;; Ok (b :: bs)
  end.

Fixpoint foldR {A S} (f : S -> A -> R S) (l : list A) (s : S) : R S :=
  match l with
  | [] => Ok s
  | a :: t => do s' <- f s a ;; foldR f t s'
  end.
