(** What edge files contain and what loading them gives. *)
From Verif Require Import Base DCSC EdgeList Apps FileIO.

Definition is_int (z : Z) : Prop := - 2 ^ 31 <= z < 2 ^ 31.

Section FS.
  Context {E : Type}.
  Variables (w : wtype E) (fm : fmt).
  (** A file as a user thinks of it: the three numbers of its header, its edges, and whether its last
      line ends with a newline (text only). *)
  Record efile := mkEF { ef_m : Z; ef_n : Z; ef_count : Z; ef_edges : list (edge E); ef_newline : bool }.
  Definition content (F : efile) : list Z :=
    let b := header_bytes fm (ef_m F) (ef_n F) (ef_count F) ++ concat (map (line w fm) (ef_edges F)) in
    if ef_newline F then b else removelast b.

  (** The format can represent the weight [v]. *)
  Definition weight_ok (v : E) : Prop :=
    if weights fm then
      if binary fm then length (w_enc w v) = w_size w /\ w_dec w (w_enc w v) = v
      else exists pr sc, w_text w = Some (pr, sc) /\
        (forall b, sc (mkS (32 :: pr v ++ 10 :: b) false) = (Some v, mkS (10 :: b) false)) /\
        sc (mkS (32 :: pr v) false) = (Some v, mkS [] true)
    else True.
  Definition fits (F : efile) : Prop :=
    is_int (ef_m F) /\ is_int (ef_n F) /\ is_int (ef_count F) /\ (binary fm = true -> ef_newline F = true) /\
    forall e, In e (ef_edges F) -> is_int (e_src e) /\ is_int (e_dst e) /\ weight_ok (e_val e).

  (** an edge as it comes back: without weights in the file every weight is (T)(1) *)
  Definition back (e : edge E) : edge E := if weights fm then e else mkE (e_src e) (e_dst e) (w_one w).

  (** The lines the first pass counts when there is no header: those ended by a newline. *)
  Definition ended (F : efile) : list (edge E) := if ef_newline F then ef_edges F else removelast (ef_edges F).
  (** The lines left at the end: an unended last line is overwritten by the next line of a later file. *)
  Fixpoint kept (fs : list efile) : list (edge E) :=
    match fs with
    | [] => []
    | F :: r => (if ef_newline F || forallb (fun G => match ef_edges G with [] => true | _ => false end) r then ef_edges F else ended F) ++ kept r
    end.
  Definition file_count (F : efile) : Z := if header fm then ef_count F else zlen (ended F).
  Definition count (fs : list efile) : Z := i32 (fold_right Z.add 0 (map file_count fs)).
  Definition maxl (l : list Z) : Z := fold_right Z.max 0 l.
  Definition file_m (F : efile) : Z := if header fm then ef_m F else maxl (map (@e_src E) (ended F)).
  Definition file_n (F : efile) : Z := if header fm then ef_n F else maxl (map (@e_dst E) (ended F)).

  (** the files rank [r] of [nr] reads *)
  Fixpoint present (d : dirt) (l : list Z) : list Z :=
    match l with [] => [] | i :: r => match file_at d i with Some _ => i :: present d r | None => [] end end.
  Definition read_by (nr : Z) (d : dirt) (r : Z) : list Z := present d (map (fun k => r + nr * k) (zrange 0 (zlen d))).

  (** what the load returns *)
  Definition loaded (nr : Z) (fs : Z -> list efile) : list (elist E) :=
    let m := maxl (concat (map (fun r => map file_m (fs r)) (zrange 0 nr))) in
    let n := maxl (concat (map (fun r => map file_n (fs r)) (zrange 0 nr))) in
    map (fun r => mkEL (map Some (map back (kept (fs r))) ++ repeat None (Z.to_nat (count (fs r) - zlen (kept (fs r))))) m n (count (fs r))) (zrange 0 nr).

  (** the type of the weights can be read from text *)
  Definition supported : Prop := binary fm = false -> weights fm = true -> w_text w <> None.
  (** every file of the directory is [F] of its number *)
  Definition holds_files (d : dirt) (F : Z -> efile) : Prop :=
    forall i b, 0 <= i -> file_at d i = Some b -> b = content (F i) /\ fits (F i).
  (** [fuel] bounds the steps of every loop *)
  Definition enough (fuel : nat) (d : dirt) (F : Z -> efile) : Prop :=
    (length d < fuel)%nat /\ forall i, 0 <= i < zlen d -> (length (ef_edges (F i)) < fuel)%nat.
  (** of the files 0..nw-1, those with number r modulo nr; the edges in them *)
  Definition share (nr nw r : Z) : list Z := filter (fun i => i mod nr =? r) (zrange 0 nw).
  Definition dealt (nr : Z) (ls : list (list (edge E))) (r : Z) : list (edge E) := concat (map (fun i => nth (Z.to_nat i) ls []) (share nr (zlen ls) r)).
  Definition edges_fit (l : list (edge E)) : Prop := forall e, In e l -> is_int (e_src e) /\ is_int (e_dst e) /\ weight_ok (e_val e).
End FS.
Arguments efile : clear implicits.
Arguments read_by : clear implicits.
