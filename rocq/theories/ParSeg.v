(** The parallel loops over segments as pools of threads sharing the word array and the value
    array of one segment; every other array is only read. *)
From Verif Require Import Base Bits Segment Conc.

Inductive sloc := LW (i : Z) | LX (i : Z).
Definition sloc_eqb (a b : sloc) : bool :=
  match a, b with LW i, LW j => i =? j | LX i, LX j => i =? j | _, _ => false end.

Section PS.
  Context {T : Type}.
  Definition scell : Type := (Z + option T)%type.
  Notation thread := (thread sloc scell).

  Definition smem (wv : list Z * list (option T)) : sloc -> option scell := fun l =>
    match l with
    | LW i => match rd (fst wv) i with Ok z => Some (inl z) | Err _ => None end
    | LX i => match rd (snd wv) i with Ok c => Some (inr c) | Err _ => None end
    end.

  Definition rdW (i : Z) (k : Z -> thread) : thread :=
    Rd (LW i) (fun c => match c with inl z => k z | inr _ => Fail OOB end).
  Definition rdX (i : Z) (k : option T -> thread) : thread :=
    Rd (LX i) (fun c => match c with inr x => k x | inl _ => Fail OOB end).
  Definition wrW (i z : Z) (t : thread) : thread := Wr (LW i) (inl z) t.
  Definition wrX (i : Z) (c : option T) (t : thread) : thread := Wr (LX i) (inr c) t.

  (** bitvector.h:60-66 *)
  Definition t_bv_get (idx : Z) (k : bool -> thread) : thread :=
    rdW (Z.shiftr idx 5) (fun w => k (Z.testbit w (Z.land idx 31))).
  (** bitvector.h:37-46: separate read and write, not atomic *)
  Definition t_bv_set (idx : Z) (t : thread) : thread :=
    rdW (Z.shiftr idx 5) (fun w =>
      let b := Z.land idx 31 in
      if Z.land w (Z.shiftl 1 b) =? 0 then wrW (Z.shiftr idx 5) (Z.lor w (Z.shiftl 1 b)) t else t).

  (** DenseSegment.h:283-294: the iteration for part [p] of the parallel loop *)
  Definition decomp_entry_t (cdata : list (option T)) (cidx : list (option Z)) (i : Z) : thread :=
    tlift (rdi cidx i) (fun idx =>
    t_bv_set idx (tlift (rd cdata i) (fun d => wrX idx d Fin))).
  Definition decomp_pool (threads : Z) (cdata : list (option T)) (cidx : list (option Z)) (nnz : Z) : R (list thread) :=
    do ends <- decomp_bounds threads cidx nnz ;;
    mapR (fun p =>
      do st <- (if p =? 0 then Ok 0 else rd ends (p - 1)) ;;
      do en <- rd ends p ;;
      Ok (tfor st en (decomp_entry_t cdata cidx))) (zrange 0 threads).

  (** unionreduce.h:73-106: the iteration for part [p] of the parallel loop *)
  Definition union_entry_t (op : T -> T -> T) (cdata : list (option T)) (cidx : list (option Z)) (i : Z) : thread :=
    tlift (rdi cidx i) (fun idx =>
    t_bv_get idx (fun g =>
      if g then rdX idx (fun a => tlift (need a) (fun a => tlift (rdi cdata i) (fun c => wrX idx (Some (op a c)) Fin)))
      else t_bv_set idx (tlift (rd cdata i) (fun c => wrX idx c Fin)))).
  Definition union_pool (op : T -> T -> T) (threads : Z) (cdata : list (option T)) (cidx : list (option Z)) (nnz : Z) : list thread :=
    map (fun p => tlift (union_range (threads * 16) cidx nnz p) (fun r => tfor (fst r) (snd r) (union_entry_t op cdata cidx)))
      (zrange 0 (threads * 16)).
End PS.
