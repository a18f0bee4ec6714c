(** DenseSegment::set called by several threads at once on one segment, as TopologicalSort.cpp:157-167
    does through Graph::setActive: threads sharing the words, the values, the count and the
    "uninitialized" flag of a buffer. *)
From Verif Require Import Base Bits Segment Conc.

Inductive ploc := PW (i : Z) | PX (i : Z) | PN | PU.
Definition ploc_eqb (a b : ploc) : bool :=
  match a, b with PW i, PW j => i =? j | PX i, PX j => i =? j | PN, PN => true | PU, PU => true | _, _ => false end.

Section PS.
  Context {T byte : Type}.
  Inductive pcell := CZ (z : Z) | CV (v : option T) | CB (b : bool).
  Notation thread := (thread ploc pcell).

  (** the members of a buffer (DenseSegment.h:70-88) that [set] touches *)
  Definition pmem (b : buffer T byte) : ploc -> option pcell := fun l =>
    match l with
    | PW i => match b_bits b with Some w => match rd w i with Ok z => Some (CZ z) | Err _ => None end | None => None end
    | PX i => match rd (b_value b) i with Ok c => Some (CV c) | Err _ => None end
    | PN => Some (CZ (b_nnz b))
    | PU => Some (CB (b_uninit b))
    end.

  Definition p_rdZ (l : ploc) (k : Z -> thread) : thread := Rd l (fun c => match c with CZ z => k z | _ => Fail OOB end).
  Definition p_rdB (l : ploc) (k : bool -> thread) : thread := Rd l (fun c => match c with CB b => k b | _ => Fail OOB end).
  (** bitvector.h:37-46: separate read and write *)
  Definition p_bv_set (idx : Z) (t : thread) : thread :=
    p_rdZ (PW (Z.shiftr idx 5)) (fun w =>
      let b := Z.land idx 31 in
      if Z.land w (Z.shiftl 1 b) =? 0 then Wr (PW (Z.shiftr idx 5)) (CZ (Z.lor w (Z.shiftl 1 b))) t else t).
  (** DenseSegment.h:585-593 *)
  Definition p_initialize (nints : Z) (t : thread) : thread :=
    p_rdB PU (fun u => if u then seqt (tfor 0 nints (fun i => Wr (PW i) (CZ 0) Fin)) (Wr PN (CZ 0) (Wr PU (CB false) t))
                       else Wr PU (CB false) t).
  (** DenseSegment.h:600-607, for a segment that has its buffer (alloc does nothing) *)
  Definition p_set (nints idx : Z) (val : option T) : thread :=
    p_initialize nints
      (p_rdZ (PW (Z.shiftr (idx - 1) 5)) (fun w =>
        let rest := Wr (PX (idx - 1)) (CV val) (p_bv_set (idx - 1) (Wr PU (CB false) Fin)) in
        if Z.testbit w (Z.land (idx - 1) 31) then rest else p_rdZ PN (fun c => Wr PN (CZ (c + 1)) rest))).
  Definition p_pool (s : seg T byte) (l : list (Z * option T)) : list thread := map (fun p => p_set (s_nints s) (fst p) (snd p)) l.

  (** [s'] is what segment [s] can be after the calls set(i, v) for the (i, v) of [l], each by a
      thread of its own *)
  Definition sets_at_once (s : seg T byte) (l : list (Z * option T)) (s' : seg T byte) : Prop :=
    exists b w v n u m' ts', s_prop s = Some b /\ s' = set_prop (Some (set_uninit u (set_nnz n (set_bits w (set_value v b))))) s /\
      psteps ploc_eqb (p_pool s l, pmem b) (ts', m') /\ finished ts' /\
      forall x, m' x = pmem (set_uninit u (set_nnz n (set_bits w (set_value v b)))) x.
  (** no schedule makes them touch memory they should not *)
  Definition sets_safe (s : seg T byte) (l : list (Z * option T)) : Prop :=
    forall b st, s_prop s = Some b -> psteps ploc_eqb (p_pool s l, pmem b) st -> ~ bad st.
End PS.
Arguments pcell : clear implicits.
