(** The programs of src/ as commands: the files they are given and the text they print.  The files are
    those of FileSpec.v. *)
From Coq Require Import String Ascii DecimalString.
From Verif Require Import Base DCSC FileIO FileSpec.

(** the codes of the characters; [dec z]: decimal notation, from the standard library *)
Definition text (s : string) : list Z := map (fun c => Z.of_nat (nat_of_ascii c)) (list_ascii_of_string s).
Definition dec (z : Z) : list Z := text (NilZero.string_of_int (Z.to_int z)).
Definition newline : list Z := [10].
(** the number q/10^6, for q >= 0, with six decimals *)
Definition millionths (q : Z) : list Z := dec (q / 1000000) ++ text "." ++ tl (dec (1000000 + q mod 1000000)).

(** binary files with header and weights of type int, the format of ReadMTX *)
Definition mtx : fmt := mkFmt true true true.
(** the files are [fs], in this order and no others; every number fits an int, every header announces
    the right number of edges *)
Definition edge_folder (d : dirt) (fs : list (efile Z)) : Prop :=
  (forall i, 0 <= i -> file_at d i = match nth_error fs (Z.to_nat i) with Some F => Some (content (w_int (fun z => z)) mtx F) | None => None end) /\
  zlen (concat (map (@ef_edges Z) fs)) < 2 ^ 31 /\
  forall F, In F fs -> is_int (ef_m F) /\ is_int (ef_n F) /\ ef_count F = zlen (ef_edges F) /\ ef_newline F = true /\
    forall e, In e (ef_edges F) -> is_int (e_src e) /\ is_int (e_dst e) /\ is_int (e_val e).
(** all edges; the largest dimension in a header *)
Definition folder_edges (fs : list (efile Z)) : list (edge Z) := concat (map (@ef_edges Z) fs).
Definition folder_size (fs : list (efile Z)) : Z := maxl (map (fun F => Z.max (ef_m F) (ef_n F)) fs).

(** the headers' largest number of rows is their largest number of columns *)
Definition square (fs : list (efile Z)) : Prop := maxl (map (@ef_m Z) fs) = maxl (map (@ef_n Z) fs).

(** such files with vertex numbers from 1 to [folder_size fs]; [fuel] bounds the loops that read them *)
Definition usable (d : dirt) (fs : list (efile Z)) (fuel : nat) : Prop :=
  edge_folder d fs /\ (forall e, In e (folder_edges fs) -> 1 <= e_src e <= folder_size fs /\ 1 <= e_dst e <= folder_size fs) /\
  (List.length d < fuel)%nat /\ forall F, In F fs -> (List.length (ef_edges F) < fuel)%nat.

(** rank [r] prints the lines of those vertices of 1..n that it owns, at most up to vertex [k], in order *)
Definition lines_of_rank (owner : Z -> Z) (k n : Z) (line : Z -> list Z) (r : Z) : list Z :=
  concat (map line (filter (fun v => owner v =? r) (zrange 1 (Z.min k n + 1)))).
(** only rank 0 prints *)
Definition on_rank_0 (t : list Z) (r : Z) : list Z := if r =? 0 then t else [].
