(** Edge files: include/GMDP/utils/edgelist.h:88-334.  A file is a sequence of bytes (numbers 0..255);
    a directory holds numbered files ([dir ++ "0"], [dir ++ "1"], ...).  Fields move as little-endian
    two's complement 32-bit ints; weights through a codec of their own. *)
From Verif Require Import Base Segment DCSC EdgeList Apps.

(** ** Streams.  What fread, fscanf and feof see of a FILE opened for reading: the unread bytes and
    the end-of-file indicator, which is raised by an attempt to read beyond the last byte. *)
Record stream := mkS { s_rest : list Z; s_eof : bool }.
Definition f_open (b : list Z) : stream := mkS b false.

(** fread(p, n, 1, f): the bytes of a whole item, or how many bytes arrived before the end *)
Inductive freadres := FFull (b : list Z) | FPart (k : Z).
Definition f_read (n : nat) (f : stream) : freadres * stream :=
  if (n <=? length (s_rest f))%nat then (FFull (firstn n (s_rest f)), mkS (skipn n (s_rest f)) (s_eof f))
  else (FPart (zlen (s_rest f)), mkS [] true).

(** the bytes of an int and back *)
Definition enc32 (z : Z) : list Z := let u := u32 z in [u mod 256; u / 256 mod 256; u / 65536 mod 256; u / 16777216].
Definition dec32 (b : list Z) : Z := i32 (nth 0 b 0 + 256 * nth 1 b 0 + 65536 * nth 2 b 0 + 16777216 * nth 3 b 0).

(** ** Text.  isspace of the C locale *)
Definition is_space (c : Z) : bool := (c =? 32) || ((9 <=? c) && (c <=? 13)).
Definition is_digit (c : Z) : bool := (48 <=? c) && (c <=? 57).
(** white space, in the format or before a number *)
Fixpoint skip_ws (b : list Z) : list Z := match b with c :: r => if is_space c then skip_ws r else b | [] => [] end.
Fixpoint span_digits (b : list Z) : list Z * list Z :=
  match b with c :: r => if is_digit c then let '(d, r) := span_digits r in (c :: d, r) else ([], b) | [] => ([], []) end.
Definition digits_val (d : list Z) : Z := fold_left (fun a c => 10 * a + (c - 48)) d 0.
Definition at_end (b : list Z) : bool := match b with [] => true | _ => false end.
(** one %d or %u: skips white space, takes an optional sign and the longest run of digits.  Reaching
    the end of the file while looking for more raises the indicator.  [None]: no number there. *)
Definition scan_num (f : stream) : option Z * stream :=
  let b := skip_ws (s_rest f) in
  let '(neg, b1) := match b with c :: r => if c =? 45 then (true, r) else if c =? 43 then (false, r) else (false, b) | [] => (false, []) end in
  let '(d, b2) := span_digits b1 in
  (match d with [] => None | _ => Some (if neg : bool then - digits_val d else digits_val d) end, mkS b2 (s_eof f || at_end b2)).
(** The C standard leaves open what is stored for a number out of range: [wide]. *)
Definition as_d (wide : Z -> Z) (v : Z) : Z := if (- 2 ^ 31 <=? v) && (v <? 2 ^ 31) then v else wide v.
Definition as_u (wide : Z -> Z) (v : Z) : Z := if (- 2 ^ 32 <? v) && (v <? 2 ^ 32) then u32 v else u32 (wide v).

(** the digits printed for [n] >= 0; ten are enough for 32 bits *)
Fixpoint dec_digits (fuel : nat) (n : Z) : list Z :=
  match fuel with
  | O => []
  | S k => (if n / 10 =? 0 then [] else dec_digits k (n / 10)) ++ [48 + n mod 10]
  end.
(** %d and %u of fprintf *)
Definition print_d (z : Z) : list Z := if z <? 0 then 45 :: dec_digits 10 (- z) else dec_digits 10 z.
Definition print_u (z : Z) : list Z := dec_digits 10 (u32 z).

(** What the file functions need of the weight type [T]: sizeof, the object's bytes, (T)(1), and the
    fprintf and fscanf conversion picked by the std::is_same tests (int, unsigned int, float,
    double); [None] for every other type. *)
Record wtype (E : Type) := mkW {
  w_size : nat; w_enc : E -> list Z; w_dec : list Z -> E; w_one : E;
  w_text : option ((E -> list Z) * (stream -> option E * stream)) }.
Arguments mkW {E}. Arguments w_size {E}. Arguments w_enc {E}. Arguments w_dec {E}. Arguments w_one {E}. Arguments w_text {E}.
(** int and unsigned int *)
Definition w_int (wide : Z -> Z) : wtype Z := mkW 4 enc32 dec32 1
  (Some (print_d, fun f => let '(v, f) := scan_num f in (match v with Some v => Some (as_d wide v) | None => None end, f))).
Definition w_uint (wide : Z -> Z) : wtype Z := mkW 4 enc32 (fun b => u32 (dec32 b)) 1
  (Some (print_u, fun f => let '(v, f) := scan_num f in (match v with Some v => Some (as_u wide v) | None => None end, f))).

(** the flags of the functions below *)
Record fmt := mkFmt { binary : bool; header : bool; weights : bool }.

Section IO.
  Context {E : Type}.
  Variables (w : wtype E) (wide : Z -> Z).

  (** An edge being filled field by field: [None] is a field nobody wrote, or one of which fread
      delivered only some bytes. *)
  Definition cell : Type := option Z * option Z * option E.
  Definition fresh : cell := (None, None, None).
  Definition full (e : edge E) : cell := (Some (e_src e), Some (e_dst e), Some (e_val e)).
  Definition as_edge (c : cell) : option (edge E) :=
    match c with (Some s, Some d, Some v) => Some (mkE s d v) | _ => None end.
  (** [a[p].src = x] and the like *)
  Definition st_src (a : list cell) (p : Z) (x : option Z) : R (list cell) := do c <- rd a p ;; wr a p (x, snd (fst c), snd c).
  Definition st_dst (a : list cell) (p : Z) (x : option Z) : R (list cell) := do c <- rd a p ;; wr a p (fst (fst c), x, snd c).
  Definition st_val (a : list cell) (p : Z) (x : option E) : R (list cell) := do c <- rd a p ;; wr a p (fst c, x).

  (** one [fread(&field, size, 1, ifile); if (feof(ifile)) return false; assert(...)] of lines 92-100:
      [true] if the function goes on *)
  Definition rd_field {X} (n : nat) (dec : list Z -> X) (st : list cell -> option X -> R (list cell)) (f : stream) (a : list cell) : R (bool * stream * list cell) :=
    let '(r, f) := f_read n f in
    match r with
    | FFull b => do a <- st a (Some (dec b)) ;; Ok (negb (s_eof f), f, a)
    | FPart k => do a <- (if k =? 0 then Ok a else st a None) ;; if s_eof f then Ok (false, f, a) else Err AssertFail
    end.
  (** one conversion of fscanf *)
  Definition sc_field {X} (sc : stream -> option X * stream) (st : list cell -> option X -> R (list cell)) (f : stream) (a : list cell) : R (bool * stream * list cell) :=
    let '(v, f) := sc f in
    match v with Some x => do a <- st a (Some x) ;; Ok (true, f, a) | None => Ok (false, f, a) end.
  Definition scan_d (f : stream) : option Z * stream :=
    let '(v, f) := scan_num f in (match v with Some v => Some (as_d wide v) | None => None end, f).
  (** lines 89-133, with [*src], [*dst], [*val] the fields of [a[p]] *)
  Definition readLine (fm : fmt) (f : stream) (a : list cell) (p : Z) : R (bool * stream * list cell) :=
    if binary fm then
      do q <- rd_field 4 dec32 (fun a => st_src a p) f a ;;
      let '(ok, f, a) := q in if negb ok then Ok (false, f, a) else
      do q <- rd_field 4 dec32 (fun a => st_dst a p) f a ;;
      let '(ok, f, a) := q in if negb ok then Ok (false, f, a) else
      if weights fm then rd_field (w_size w) (w_dec w) (fun a => st_val a p) f a
      else do a <- st_val a p (Some (w_one w)) ;; Ok (true, f, a)
    else if weights fm then
      match w_text w with
      | Some (_, sc) =>
        do q <- sc_field scan_d (fun a => st_src a p) f a ;;
        let '(ok, f, a) := q in if negb ok then Ok (false, f, a) else
        do q <- sc_field scan_d (fun a => st_dst a p) f a ;;
        let '(ok, f, a) := q in if negb ok then Ok (false, f, a) else
        do q <- sc_field sc (fun a => st_val a p) f a ;;
        let '(ok, f, a) := q in Ok (ok && negb (s_eof f), f, a)
      | None => Ok (negb (s_eof f), f, a)   (* lines 119-121: a message, nothing read *)
      end
    else
      do q <- sc_field scan_d (fun a => st_src a p) f a ;;
      let '(ok, f, a) := q in if negb ok then Ok (false, f, a) else
      do q <- sc_field scan_d (fun a => st_dst a p) f a ;;
      let '(ok, f, a) := q in if negb ok then Ok (false, f, a) else
      do a <- st_val a p (Some (w_one w)) ;; Ok (negb (s_eof f), f, a).

  (** lines 155-168: counts, in steps of at most [fuel] *)
  Fixpoint count_lines (fuel : nat) (fm : fmt) (f : stream) (mx nx cnt : Z) (tmp : list cell) : R (Z * Z * Z) :=
    match fuel with
    | O => Err NoFuel
    | S k =>
      if s_eof f then Ok (mx, nx, cnt) else
      do q <- readLine fm f tmp 0 ;;
      let '(ok, f, tmp) := q in
      if negb ok then Ok (mx, nx, cnt) else
      do c <- rd tmp 0 ;;
      do s <- need (fst (fst c)) ;; do d <- need (snd (fst c)) ;;
      count_lines k fm f (if s <? mx then mx else s) (if d <? nx then nx else d) (cnt + 1) tmp
    end.
  (** lines 136-154: the header; also the rest of the file *)
  Definition read_header (fm : fmt) (f : stream) : R (Z * Z * Z * stream) :=
    if binary fm then
      let '(r, f) := f_read 12 f in
      match r with
      | FFull b => Ok (dec32 (firstn 4 b), dec32 (firstn 4 (skipn 4 b)), dec32 (skipn 8 b), f)
      | FPart _ => Err AssertFail
      end
    else
      let '(m, f) := scan_d f in
      match m with None => Err AssertFail | Some m =>
      let '(n, f) := scan_d f in
      match n with None => Err AssertFail | Some n =>
      let '(z, f) := scan_num f in
      match z with None => Err AssertFail | Some z => Ok (m, n, i32 (as_u wide z), f) end end end.
  (** lines 135-174 *)
  Definition get_maxid_and_nnz (fuel : nat) (fm : fmt) (f : stream) : R (Z * Z * Z) :=
    if header fm then do q <- read_header fm f ;; let '(m, n, z, _) := q in Ok (m, n, z)
    else count_lines fuel fm f 0 0 0 [fresh].

  (** lines 177-206 *)
  Definition line (fm : fmt) (e : edge E) : list Z :=
    if binary fm then enc32 (e_src e) ++ enc32 (e_dst e) ++ (if weights fm then w_enc w (e_val e) else [])
    else if weights fm then
      match w_text w with
      | Some (pr, _) => print_d (e_src e) ++ [32] ++ print_d (e_dst e) ++ [32] ++ pr (e_val e) ++ [10]
      | None => []
      end
    else print_d (e_src e) ++ [32] ++ print_d (e_dst e) ++ [10].
  (** lines 222-226 and 230 *)
  Definition header_bytes (fm : fmt) (m n nnz : Z) : list Z :=
    if header fm then
      (if binary fm then enc32 m ++ enc32 n ++ enc32 nnz else print_d m ++ [32] ++ print_d n ++ [32] ++ print_u nnz ++ [10])
    else [].
  (** lines 208-240: the bytes of the file *)
  Definition write_bytes (fm : fmt) (el : elist E) : R (list Z) :=
    forZ 0 (el_nnz el) (fun i b => do e <- rde el i ;; Ok (b ++ line fm e)) (header_bytes fm (el_m el) (el_n el) (el_nnz el)).
  (** a directory: file i is the i-th entry if that is there *)
  Definition dirt : Type := list (option (list Z)).
  Definition file_at (d : dirt) (i : Z) : option (list Z) :=
    match nth_error d (Z.to_nat i) with Some o => o | None => None end.
  Definition put_file (d : dirt) (i : Z) (b : list Z) : dirt :=
    let d := d ++ repeat None (Z.to_nat (i + 1 - zlen d)) in upd d (Z.to_nat i) (Some b).
  (** every rank writes its file *)
  Definition write_edgelist (fm : fmt) (d : dirt) (els : list (elist E)) : R dirt :=
    foldR (fun d (p : Z * elist E) => do b <- write_bytes fm (snd p) ;; Ok (put_file d (fst p) b)) (combine (zrange 0 (zlen els)) els) d.

  (** the files opened by the loops at 250-275 and 296-333: i, i + nr, ... up to the first missing *)
  Fixpoint opened (fuel : nat) (nr i : Z) (d : dirt) : R (list (list Z)) :=
    match fuel with
    | O => Err NoFuel
    | S k => match file_at d i with None => Ok [] | Some b => do l <- opened k nr (i + nr) d ;; Ok (b :: l) end
    end.
  (** lines 247-275 *)
  Definition pass1 (fuel : nat) (fm : fmt) (fs : list (list Z)) : R (Z * Z * Z) :=
    foldR (fun st b => let '(m, n, z) := st in
      do q <- get_maxid_and_nnz fuel fm (f_open b) ;;
      let '(m_, n_, z_) := q in Ok (Z.max m_ m, Z.max n_ n, i32 (z + z_))) fs (0, 0, 0).
  (** lines 312-331 *)
  Fixpoint read_edges (fuel : nat) (fm : fmt) (f : stream) (a : list cell) (cnt : Z) : R (list cell * Z) :=
    match fuel with
    | O => Err NoFuel
    | S k =>
      if s_eof f then Ok (a, cnt) else
      do q <- readLine fm f a cnt ;;
      let '(ok, f, a) := q in
      if negb ok then Ok (a, cnt) else read_edges k fm f a (cnt + 1)
    end.
  (** lines 296-333; the space of [nnz] edges allocated at 291 *)
  Definition pass2 (fuel : nat) (fm : fmt) (fs : list (list Z)) (nnz : Z) : R (list cell * Z) :=
    foldR (fun st b =>
      do f <- (if header fm then do q <- read_header fm (f_open b) ;; Ok (snd q) else Ok (f_open b)) ;;
      read_edges fuel fm f (fst st) (snd st)) fs (repeat fresh (Z.to_nat nnz), 0).
  (** lines 242-334 on all ranks; the two MPI_Allreduce calls take the maxima *)
  Definition load_edgelist (fuel : nat) (fm : fmt) (nr : Z) (d : dirt) : R (list (elist E)) :=
    do fss <- mapR (fun r => opened fuel nr r d) (zrange 0 nr) ;;
    do ps <- mapR (pass1 fuel fm) fss ;;
    let m := fold_right Z.max 0 (map (fun p => fst (fst p)) ps) in
    let n := fold_right Z.max 0 (map (fun p => snd (fst p)) ps) in
    mapR (fun q : list (list Z) * (Z * Z * Z) =>
      do a <- pass2 fuel fm (fst q) (snd (snd q)) ;;
      Ok (mkEL (map as_edge (fst a)) m n (snd (snd q)))) (combine fss ps).
End IO.
