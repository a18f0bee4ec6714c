(** src/graph_converter.cpp:226-337: the command line of the converter.  An argument is a string (of non-zero
    characters).  getopt_long is modelled as glibc does it, without POSIXLY_CORRECT: arguments that are no
    options are moved behind the options, in their order; a lone [-] is none, and after [--] there are
    none; messages about wrong options are not modelled.  Long options may be abbreviated in getopt_long,
    but to see that a name is not spelled out it goes through the whole table up to an entry of zeros, which
    this table (lines 230-247) does not have: it reads past its end. *)
From Coq Require Import String Ascii.
From Verif Require Import Base FileIO Cmd Convert.

(** ** sscanf(s, "%i", &x) *)
(** the value of a digit *)
Definition digit_of (c : Z) : Z :=
  if is_digit c then c - 48 else if (97 <=? c) && (c <=? 102) then c - 87 else if (65 <=? c) && (c <=? 70) then c - 55 else 99.
(** the longest run of digits of the base: how many, and their value *)
Fixpoint number (base : Z) (acc : Z) (s : list Z) : Z :=
  match s with c :: r => if digit_of c <? base then number base (base * acc + digit_of c) r else acc | [] => acc end.
Definition digit_first (base : Z) (s : list Z) : bool := match s with c :: _ => digit_of c <? base | [] => false end.
(** white space, a sign, then 0x and hexadecimal digits, 0 and octal digits, or decimal digits.  [None]: no
    number, nothing is stored.  [half]: what becomes of 0x without a digit after it.  [wide]: what is
    stored for a number out of range. *)
Definition scan_i (wide : Z -> Z) (half : option Z) (s : list Z) : option Z :=
  let s := skip_ws s in
  let '(neg, s) := match s with c :: r => if c =? 45 then (true, r) else if c =? 43 then (false, r) else (false, s) | [] => (false, []) end in
  let signed v := Some (as_d wide (if neg : bool then - v else v)) in
  let plain := if digit_first 10 s then signed (number 10 0 s) else None in
  match s with
  | c0 :: c :: r =>
    if c0 =? 48 then if (c =? 120) || (c =? 88) then if digit_first 16 r then signed (number 16 0 r) else half else signed (number 8 0 (c :: r))
    else plain
  | _ => plain
  end.

(** ** The options *)
(** lines 230-247: a long option sets a variable to 1, or stands for a letter; [true]: it has an argument *)
Inductive target := Sets (f : options -> options) | Letter (c : ascii).
Definition set_upper (o : options) : options := mkO (o_selfloops o) (o_duplicatededges o) 1 (o_bidirectional o) (o_inputformat o) (o_outputformat o) (o_inputheader o) (o_outputheader o) (o_inputedgeweights o) (o_outputedgeweights o) (o_edgeweighttype o) (o_nvertices o) (o_random_range o) (o_nsplits o) (o_randomizeID o).
Definition set_bidir (o : options) : options := mkO (o_selfloops o) (o_duplicatededges o) (o_uppertriangular o) 1 (o_inputformat o) (o_outputformat o) (o_inputheader o) (o_outputheader o) (o_inputedgeweights o) (o_outputedgeweights o) (o_edgeweighttype o) (o_nvertices o) (o_random_range o) (o_nsplits o) (o_randomizeID o).
Definition set_random (o : options) : options := mkO (o_selfloops o) (o_duplicatededges o) (o_uppertriangular o) (o_bidirectional o) (o_inputformat o) (o_outputformat o) (o_inputheader o) (o_outputheader o) (o_inputedgeweights o) (o_outputedgeweights o) (o_edgeweighttype o) (o_nvertices o) (o_random_range o) (o_nsplits o) 1.
Definition longOptions : list (string * bool * target) := [
  ("uppertriangular", false, Sets set_upper); ("bidirectional", false, Sets set_bidir); ("selfloops", true, Letter "s"); ("duplicatededges", true, Letter "d");
  ("inputformat", true, Letter "i"); ("outputformat", true, Letter "o"); ("inputheader", true, Letter "n"); ("outputheader", true, Letter "u");
  ("inputedgeweights", true, Letter "e"); ("outputedgeweights", true, Letter "w"); ("edgeweighttype", true, Letter "t"); ("r", true, Letter "r");
  ("nvertices", true, Letter "v"); ("split", true, Letter "p"); ("randomizeID", false, Sets set_random); ("help", false, Letter "h")]%string%char.
(** line 251; a letter followed by a colon has an argument *)
Definition shortOptions : string := "h:s:d:i:o:n:u:e:w:t:v:r:p".
Fixpoint find_letter (s : string) (c : ascii) : option bool :=
  match s with
  | EmptyString => None
  | String a r => if Ascii.eqb a c then Some (match r with String b _ => Ascii.eqb b ":" | EmptyString => false end) else find_letter r c
  end.
Definition short_option (c : ascii) : option bool := if Ascii.eqb c ":" || Ascii.eqb c ";" then None else find_letter shortOptions c.

Section Parse.
  Variables (wide : Z -> Z) (half : option Z).
  (** one of the variables; [z]: sscanf stored it *)
  Definition stored (c : ascii) (z : Z) (o : options) : option options :=
    let '(mkO s d u b i p n q e w t v r k x) := o in
    if Ascii.eqb c "s" then Some (mkO z d u b i p n q e w t v r k x) else if Ascii.eqb c "d" then Some (mkO s z u b i p n q e w t v r k x)
    else if Ascii.eqb c "i" then Some (mkO s d u b z p n q e w t v r k x) else if Ascii.eqb c "o" then Some (mkO s d u b i z n q e w t v r k x)
    else if Ascii.eqb c "n" then Some (mkO s d u b i p z q e w t v r k x) else if Ascii.eqb c "u" then Some (mkO s d u b i p n z e w t v r k x)
    else if Ascii.eqb c "e" then Some (mkO s d u b i p n q z w t v r k x) else if Ascii.eqb c "w" then Some (mkO s d u b i p n q e z t v r k x)
    else if Ascii.eqb c "t" then Some (mkO s d u b i p n q e w z v r k x) else if Ascii.eqb c "v" then Some (mkO s d u b i p n q e w t z r k x)
    else if Ascii.eqb c "r" then Some (mkO s d u b i p n q e w t v z k x) else if Ascii.eqb c "p" then Some (mkO s d u b i p n q e w t v r z x)
    else None.
  (** lines 256-303, the switch; [arg]: optarg, NULL if there is none.  [inl tt]: the help is printed
      and main returns. *)
  Definition handle (c : ascii) (arg : option string) (o : options) : R (unit + options) :=
    if Ascii.eqb c "h" then Ok (inl tt) else
    match arg with
    | None => Err NullDeref
    | Some a => match scan_i wide half (chars a) with
                | None => Ok (inr o)
                | Some z => match stored c z o with Some o => Ok (inr o) | None => Err ExitCall end
                end
    end.

  (** the letters of an argument [-abc].  The state after it: the options and, if a letter still needs its
      argument, the letter.  An unknown letter is reported and left out (line 299). *)
  Fixpoint short (s : string) (o : options) : R (unit + options * option ascii) :=
    match s with
    | EmptyString => Ok (inr (o, None))
    | String c r =>
      match short_option c with
      | None => short r o
      | Some false => do q <- handle c None o ;; match q with inl _ => Ok (inl tt) | inr o => short r o end
      | Some true =>
        match r with
        | EmptyString => Ok (inr (o, Some c))
        | _ => do q <- handle c (Some r) o ;; Ok (match q with inl _ => inl tt | inr o => inr (o, None) end)
        end
      end
    end.
  (** an argument [--name] or [--name=value] *)
  Fixpoint split_eq (s : string) : string * option string :=
    match s with
    | EmptyString => (EmptyString, None)
    | String c r => if Ascii.eqb c "=" then (EmptyString, Some r) else let '(n, v) := split_eq r in (String c n, v)
    end.
  Definition long (s : string) (o : options) : R (unit + options * option ascii) :=
    let '(name, value) := split_eq s in
    match find (fun p => String.eqb (fst (fst p)) name) longOptions with
    | None => Err OOB
    | Some (_, false, t) =>
      match value with
      | Some _ => Ok (inr (o, None))      (* reported: no argument allowed *)
      | None => match t with
                | Sets f => Ok (inr (f o, None))
                | Letter c => do q <- handle c None o ;; Ok (match q with inl _ => inl tt | inr o => inr (o, None) end)
                end
      end
    | Some (_, true, t) =>
      match t, value with
      | Letter c, Some v => do q <- handle c (Some v) o ;; Ok (match q with inl _ => inl tt | inr o => inr (o, None) end)
      | Letter c, None => Ok (inr (o, Some c))
      | Sets f, _ => Ok (inr (f o, None))   (* no such entry *)
      end
    end.
  (** lines 249-304, the loop.  [pend]: the letter whose argument comes next; if there is no next argument this
      is reported and the option left out.  [files]: the arguments that are no options so far. *)
  Fixpoint parse (args : list string) (pend : option ascii) (o : options) (files : list string) : R (unit + options * list string) :=
    match args with
    | [] => Ok (inr (o, files))
    | a :: rest =>
      match pend with
      | Some c => do q <- handle c (Some a) o ;; match q with inl _ => Ok (inl tt) | inr o => parse rest None o files end
      | None =>
        match a with
        | String dash (String c r) =>
          if Ascii.eqb dash "-" then
            if Ascii.eqb c "-" then
              match r with
              | EmptyString => Ok (inr (o, files ++ rest))
              | _ => do q <- long r o ;; match q with inl _ => Ok (inl tt) | inr (o, p) => parse rest p o files end
              end
            else do q <- short (String c r) o ;; match q with inl _ => Ok (inl tt) | inr (o, p) => parse rest p o files end
          else parse rest None o (files ++ [a])
        | _ => parse rest None o (files ++ [a])
        end
      end
    end.
  (** main.  [HelpShown]: nothing but the help; [Crashed]: undefined behaviour while the options are read *)
  Inductive command (A : Type) := HelpShown | Crashed (e : err) | Converter (o : options) (r : outcome A).
  Definition converter_cmd {A} (args : list string) (process : options -> string -> string -> Z -> R A) : command A :=
    match parse args None initOptions [] with
    | Err e => Crashed _ e
    | Ok (inl _) => HelpShown _
    | Ok (inr (o, [ifilename; ofilename])) => Converter _ o (converter_main o (process o ifilename ofilename))
    | Ok (inr _) => HelpShown _
    end.
End Parse.
Arguments HelpShown {A}. Arguments Crashed {A}. Arguments Converter {A}.
