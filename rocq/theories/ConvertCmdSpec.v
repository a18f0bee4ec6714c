(** The command line of graph_converter, as its user writes it. *)
From Coq Require Import String Ascii DecimalString.
From Verif Require Import Base FileSpec Convert.

(** the options with a number, and those without *)
Inductive key := Selfloops | Duplicatededges | Inputformat | Outputformat | Inputheader | Outputheader | Inputedgeweights | Outputedgeweights | Edgeweighttype | Range | Nvertices | Split.
Inductive flag := Uppertriangular | Bidirectional | RandomizeID.
Definition key_name (k : key) : string :=
  match k with
  | Selfloops => "selfloops" | Duplicatededges => "duplicatededges" | Inputformat => "inputformat" | Outputformat => "outputformat"
  | Inputheader => "inputheader" | Outputheader => "outputheader" | Inputedgeweights => "inputedgeweights" | Outputedgeweights => "outputedgeweights"
  | Edgeweighttype => "edgeweighttype" | Range => "r" | Nvertices => "nvertices" | Split => "split"
  end.
Definition flag_name (f : flag) : string := match f with Uppertriangular => "uppertriangular" | Bidirectional => "bidirectional" | RandomizeID => "randomizeID" end.
(** the letter that can be written instead; there is none for --split *)
Definition key_letter (k : key) : option string :=
  match k with
  | Selfloops => Some "s" | Duplicatededges => Some "d" | Inputformat => Some "i" | Outputformat => Some "o" | Inputheader => Some "n" | Outputheader => Some "u"
  | Inputedgeweights => Some "e" | Outputedgeweights => Some "w" | Edgeweighttype => Some "t" | Range => Some "r" | Nvertices => Some "v" | Split => None
  end%string.

(** --name z, --name=z, -c z, -cz, --name, or the name of a file *)
Inductive word := Long (k : key) (z : Z) | Equals (k : key) (z : Z) | Short (k : key) (z : Z) | Joined (k : key) (z : Z) | Flag (f : flag) | File (s : string).
Definition decimal (z : Z) : string := NilZero.string_of_int (Z.to_int z).
Definition letter (k : key) : string := match key_letter k with Some c => c | None => "" end.
Definition written (w : word) : list string :=
  match w with
  | Long k z => ["--" ++ key_name k; decimal z]
  | Equals k z => ["--" ++ key_name k ++ "=" ++ decimal z]
  | Short k z => ["-" ++ letter k; decimal z]
  | Joined k z => ["-" ++ letter k ++ decimal z]
  | Flag f => ["--" ++ flag_name f]
  | File s => [s]
  end%string.
(** numbers fit an int; names of files do not look like options *)
Definition proper (w : word) : Prop :=
  match w with
  | Long k z | Equals k z => is_int z
  | Short k z | Joined k z => is_int z /\ key_letter k <> None
  | Flag f => True
  | File s => s = "-"%string \/ String.prefix "-" s = false
  end.

Definition key_eqb (a b : key) : bool := String.eqb (key_name a) (key_name b).
(** the last value given to [k], or the default *)
Fixpoint last_value (k : key) (default : Z) (ws : list word) : Z :=
  match ws with
  | [] => default
  | (Long k' z | Equals k' z | Short k' z | Joined k' z) :: r => last_value k (if key_eqb k k' then z else default) r
  | _ :: r => last_value k default r
  end.
Definition is_given (f : flag) (ws : list word) : Z :=
  if existsb (fun w => match w with Flag g => String.eqb (flag_name f) (flag_name g) | _ => false end) ws then 1 else 0.
Definition wanted (ws : list word) : options :=
  mkO (last_value Selfloops 0 ws) (last_value Duplicatededges 0 ws) (is_given Uppertriangular ws) (is_given Bidirectional ws)
    (last_value Inputformat 1 ws) (last_value Outputformat 0 ws) (last_value Inputheader 1 ws) (last_value Outputheader 1 ws)
    (last_value Inputedgeweights 1 ws) (last_value Outputedgeweights 1 ws) (last_value Edgeweighttype 0 ws) (last_value Nvertices 0 ws)
    (last_value Range 128 ws) (last_value Split 1 ws) (is_given RandomizeID ws).
Definition files_of (ws : list word) : list string := concat (map (fun w => match w with File s => [s] | _ => [] end) ws).
(** [--] and whatever follows are names of files *)
Definition after_dashes (l : option (list string)) : list string := match l with Some l => "--"%string :: l | None => [] end.
