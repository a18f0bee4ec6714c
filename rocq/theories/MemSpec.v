(** What Mem.v is to satisfy: which blocks may stay behind.  Written without its heap. *)
From Verif Require Import Base Segment DCSC EdgeList Mem.

(** a heap between two requests: blocks have different numbers, and the next number is new *)
Definition heap_ok (h : heap) : Prop :=
  NoDup (map fst (h_live h)) /\ forall b k, In (b, k) (h_live h) -> b < h_next h.
(** [m] ends, and the blocks in use are those from before and [n] more *)
Definition leaves {A} (n : nat) (m : M A) : Prop :=
  forall h, heap_ok h -> exists a h' K, m h = Ok (a, h') /\ heap_ok h' /\ length K = n /\ Permutation (h_live h') (K ++ h_live h).
(** [m] ends, all it requested was given back, and nothing else was *)
Definition clean {A} (m : M A) : Prop :=
  forall h, heap_ok h -> exists a h', m h = Ok (a, h') /\ heap_ok h' /\ Permutation (h_live h') (h_live h).
(** [m] ends with an error of memory use, on every heap *)
Definition faults {A} (e : err) (m : M A) : Prop := forall h, heap_ok h -> m h = Err e.

(** ** edge lists: the same histories on plain lists, with the number of arrays that are lost *)
Section EDGES.
  Context {E : Type}.
  Notation elist := (elist E).
  Definition some (l : elist) : bool := 0 <? el_nnz l.
  Definition b2n (b : bool) : nat := if b then 1 else 0.
  Definition op_on (l : elist) (o : eop E) : R elist :=
    match o with
    | ORemoveSelf => remove_selfedges l
    | ORemoveDup srt => remove_duplicate_edges_local srt l
    | OShuffle got => Ok got
    | OBidir => create_bidirectional_edges l
    | OByRow lo hi => filter_edges_by_row lo hi l
    | ORandomize f => f l
    | OEmptyCols => do r <- remove_empty_columns l ;; Ok (fst r)
    | ORewrite f => f l
    | OLoad r => Ok r
    | OGet r => Ok r
    | OClear => Ok (mkEL [] 0 0 0)
    end.
  (** an array is lost when the last edge of a list is removed, when a list without edges is read from a
      file, and when a list with edges is overwritten by reading or by [get_edges] *)
  Definition lost (l : elist) (o : eop E) (r : elist) : nat :=
    match o with
    | ORemoveSelf | OByRow _ _ => b2n (some l && negb (some r))
    | OLoad _ => b2n (some l) + b2n (negb (some r))
    | OGet _ => b2n (some l)
    | _ => 0
    end.
  Fixpoint replace (i : nat) (r : elist) (ls : list elist) : list elist :=
    match ls, i with
    | [], _ => []
    | _ :: ls, O => r :: ls
    | l :: ls, S i => l :: replace i r ls
    end.
  Definition act_on (s : list elist * nat) (a : eact E) : R (list elist * nat) :=
    let '(ls, n) := s in
    match a with
    | VNew => Ok (ls ++ [mkEL [] 0 0 0], n)
    | VOp i o => match nth_error ls i with
                 | None => Err OOB
                 | Some l => do r <- op_on l o ;; Ok (replace i r ls, (n + lost l o r)%nat)
                 end
    | VFilter i f => match nth_error ls i with
                     | None => Err OOB
                     | Some l => do r <- filter_edges f l ;;
                                 Ok (ls ++ [snd r], (n + b2n (some l && negb (some (snd r))))%nat)
                     end
    end.
  (** the functions that change edges where they are change no count *)
  Definition in_place (a : eact E) : Prop :=
    match a with
    | VOp _ (ORandomize f) | VOp _ (ORewrite f) => forall l r, f l = Ok r -> el_nnz r = el_nnz l
    | _ => True
    end.
  Definition lists_run (acts : list (eact E)) : R (list elist * nat) := foldR act_on acts ([], 0%nat).
End EDGES.

(** ** vectors: which operations need the storage of a segment, and which make it *)
Definition needs (o : mop) : bool := match o with MDecompress _ _ | MReceiveHere _ => true | _ => false end.
Definition makes (o : mop) : bool := match o with MTouch | MCompress _ _ | MUnion _ => true | _ => false end.
(** [have]: the segments with storage; a history is proper if it names segments that exist, and needs
    storage only where there is some *)
Fixpoint proper (nseg : nat) (have : list nat) (acts : list vact) : Prop :=
  match acts with
  | [] => True
  | SOp k o :: acts => (k < nseg)%nat /\ (needs o = true -> In k have) /\ proper nseg (if makes o then k :: have else have) acts
  | SIngest _ touched :: acts => Forall (fun k => (k < nseg)%nat) touched /\ proper nseg (rev touched ++ have) acts
  end.
(** an ingest leaves one block behind, three if the rank gets no element *)
Definition save_leaves (new_nnz : Z) : nat := if 0 <? new_nnz then 1 else 3.
Fixpoint vacts_leave (acts : list vact) : nat :=
  match acts with
  | [] => 0
  | SOp _ _ :: acts => vacts_leave acts
  | SIngest new_nnz _ :: acts => save_leaves new_nnz + vacts_leave acts
  end.
(** the segments that were saved with storage *)
Definition saved_stored (saved : list (bool * (nat * nat))) : list nat :=
  filter (fun k => match nth_error saved k with Some (b, _) => b | None => false end) (seq 0 (length saved)).
(** operations on the segments of a vector with [nseg] segments, when those in [mine] have storage *)
Definition fits (nseg : nat) (mine : list nat) (ops : list (nat * mop)) : Prop :=
  forall k o, In (k, o) ops -> (k < nseg)%nat /\ (needs o = true -> In k mine).

(** ** graphs: what an action leaves behind, and orderly use of workspaces *)
Definition act_leaves (a : mact) : nat := match a with ASave _ new_nnz _ => save_leaves new_nnz | _ => 0 end.
Definition load_leaves (l : mload) : nat := match l with LFile nnz _ _ => if 0 <? nnz then 0 else 1 | _ => 0 end.
Fixpoint acts_leave (acts : list mact) : nat := match acts with [] => 0 | a :: acts => (act_leaves a + acts_leave acts)%nat end.
(** a workspace is made when there is none, used and given back when there is one *)
Fixpoint orderly (there : bool) (acts : list mact) : Prop :=
  match acts with
  | [] => there = false
  | AInit :: acts => there = false /\ orderly true acts
  | ARunWith _ :: acts => there = true /\ orderly true acts
  | AClear :: acts => there = true /\ orderly false acts
  | _ :: acts => orderly there acts
  end.
Definition part_ops (p : mpart) : list (nat * mop) :=
  match p with PProps ops | PActive ops | PMessages ops | PResults ops => ops end.
(** an action touches segments that exist, and needs storage only where this rank made it *)
Definition act_fits (nseg : nat) (mine : list nat) (a : mact) : Prop :=
  match a with
  | AUse p q => fits nseg mine p /\ fits nseg mine q
  | ARun ps | ARunWith ps => Forall (fun p => fits nseg mine (part_ops p)) ps
  | ASave _ _ touched => Forall (fun k => (k < nseg)%nat) touched
  | _ => True
  end.
