(** Edge files of which only the first bytes reached the disk (C83), binary formats. *)
From Verif Require Import Base DCSC EdgeList Apps FileIO FileSpec.

Section FC.
  Context {E : Type}.
  Variables (w : wtype E) (fm : fmt).
  (** bytes of the header and of one edge *)
  Definition head_size : Z := if header fm then 12 else 0.
  Definition edge_size : Z := 8 + (if weights fm then Z.of_nat (w_size w) else 0).
  (** Of a file with content [F] the first [k] bytes are there: the edges that are there completely, and
      whether a part of another one is. *)
  Definition whole (F : efile E) (k : Z) : list (edge E) := firstn (Z.to_nat ((k - head_size) / edge_size)) (ef_edges F).
  Definition torn (k : Z) : Prop := (k - head_size) mod edge_size <> 0.
  (** every file of the directory [d] has the first [K i] bytes of [F i] *)
  Definition holds_cut (d : dirt) (F : Z -> efile E) (K : Z -> Z) : Prop :=
    forall i b, 0 <= i -> file_at d i = Some b ->
      fits w fm (F i) /\ 0 <= K i <= zlen (content w fm (F i)) /\ b = firstn (Z.to_nat (K i)) (content w fm (F i)).
  (** the edges that are left in the files rank [r] reads *)
  Definition left_over (nr : Z) (d : dirt) (F : Z -> efile E) (K : Z -> Z) (r : Z) : list (edge E) :=
    concat (map (fun i => whole (F i) (K i)) (read_by nr d r)).
End FC.
(** What a write of [els] (holding the edges [ls]) puts into the file of rank [i]. *)
Definition written_file {E} (els : list (elist E)) (ls : list (list (edge E))) (i : Z) : efile E :=
  match rd els i, rd ls i with Ok el, Ok l => mkEF (el_m el) (el_n el) (el_nnz el) l true | _, _ => mkEF 0 0 0 [] true end.
(** Each file of [d'] is the file of [d] of the same number with only its first [K i] bytes. *)
Definition interrupted (d d' : dirt) (K : Z -> Z) : Prop :=
  forall i b', 0 <= i -> file_at d' i = Some b' -> exists b, file_at d i = Some b /\ 0 <= K i <= zlen b /\ b' = firstn (Z.to_nat (K i)) b.

(** *** text formats *)
(** However little of the printed weight [v] is left at the end of a file, scanning it leaves nothing of the file,
    and at the end of a file there is no weight (so it is with int, unsigned, float and double; see the theorems C83_text_number_weights, C83_text_float_weights). *)
Definition cuttable {E} (w : wtype E) (v : E) : Prop :=
  exists pr sc, w_text w = Some (pr, sc) /\ sc (mkS [] true) = (None, mkS [] true) /\
    forall x y, pr v = x ++ y -> exists o, sc (mkS (32 :: x) false) = (o, mkS [] true).
Section TC.
  Context {E : Type}.
  Variables (w : wtype E) (fm : fmt).
  (** [t] is the beginning of the line of an edge but not all of it. *)
  Definition begins_line (l : list (edge E)) (c : nat) (t : list Z) : Prop :=
    t = [] \/ exists e y, nth_error l c = Some e /\ y <> [] /\ line w fm e = t ++ y.
  (** every file of the directory [d] has its header, the first [C i] lines of [F i] and the part [T i] of
      the next line *)
  Definition holds_text_cut (d : dirt) (F : Z -> efile E) (C : Z -> nat) (T : Z -> list Z) : Prop :=
    forall i b, 0 <= i -> file_at d i = Some b ->
      fits w fm (F i) /\ (C i <= length (ef_edges (F i)))%nat /\ begins_line (ef_edges (F i)) (C i) (T i) /\
      b = header_bytes fm (ef_m (F i)) (ef_n (F i)) (ef_count (F i)) ++ concat (map (line w fm) (firstn (C i) (ef_edges (F i)))) ++ T i.
  (** the edges whose lines rank [r] finds complete *)
  Definition left_lines (nr : Z) (d : dirt) (F : Z -> efile E) (C : Z -> nat) (r : Z) : list (edge E) :=
    concat (map (fun i => firstn (C i) (ef_edges (F i))) (read_by nr d r)).
  (** the weights of the files can be cut *)
  Definition cuttable_files (d : dirt) (F : Z -> efile E) : Prop :=
    supported w fm /\ (weights fm = true -> forall i b e, 0 <= i -> file_at d i = Some b -> In e (ef_edges (F i)) -> cuttable w (e_val e)).
  (** The same, where a file may also end within the third number of its header: with [G i = Some k] the last [k]
      of its digits and all that follows are missing. *)
  Definition holds_header_cut (d : dirt) (F : Z -> efile E) (C : Z -> nat) (T : Z -> list Z) (G : Z -> option nat) : Prop :=
    forall i b, 0 <= i -> file_at d i = Some b ->
      fits w fm (F i) /\ (C i <= length (ef_edges (F i)))%nat /\
      match G i with
      | None => begins_line (ef_edges (F i)) (C i) (T i) /\
          b = header_bytes fm (ef_m (F i)) (ef_n (F i)) (ef_count (F i)) ++ concat (map (line w fm) (firstn (C i) (ef_edges (F i)))) ++ T i
      | Some k => C i = 0%nat /\ T i = [] /\ (k < length (print_u (ef_count (F i))))%nat /\
          b = print_d (ef_m (F i)) ++ [32] ++ print_d (ef_n (F i)) ++ [32] ++ firstn (length (print_u (ef_count (F i))) - k) (print_u (ef_count (F i)))
      end.
  (** the number of edges that file [i] seems to have *)
  Definition announced (F : Z -> efile E) (G : Z -> option nat) (i : Z) : Z :=
    match G i with None => ef_count (F i) | Some k => ef_count (F i) / 10 ^ Z.of_nat k end.
End TC.
(** the part of a line has a digit *)
Definition has_digit (t : list Z) : Prop := existsb is_digit t = true.
