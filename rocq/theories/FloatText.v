(** Edge files with weights of type float and double: include/GMDP/utils/edgelist.h:88-134 and 177-206.
    Floats are Coq's SpecFloat, as in Float32.v: 24 bits of precision and exponents below 128, or 53 bits
    and exponents below 1024.  Assumed of the C library, as glibc does it: fprintf rounds the exact value to
    the decimals asked for, ties to even, and fscanf stores the float nearest to the number in the file,
    ties to even.  Simplified: there is one NaN. *)
From Coq Require Import ZArith SpecFloat.
From Verif Require Import Base Segment DCSC EdgeList Apps FileIO Float32.
Local Open Scope Z_scope.

(** m*2^e*10^k rounded to an integer, ties to even *)
Definition scaled (k : nat) (m e : Z) : Z :=
  let n := m * 10 ^ Z.of_nat k in
  if 0 <=? e then n * 2 ^ e else
  let d := 2 ^ (- e) in let q := n / d in let r := n mod d in
  if 2 * r <? d then q else if d <? 2 * r then q + 1 else if Z.even q then q else q + 1.
(** the last [k] digits of [n] *)
Fixpoint last_digits (k : nat) (n : Z) : list Z :=
  match k with O => [] | S k => last_digits k (n / 10) ++ [48 + n mod 10] end.
(** the number n/10^k *)
Definition print_fixed (k : nat) (n : Z) : list Z :=
  dec_digits (S (Z.to_nat (Z.log2 n))) (n / 10 ^ Z.of_nat k) ++ [46] ++ last_digits k n.
(** %.8f and %.15lf (lines 192 and 194): [k] decimals *)
Definition print_f (k : nat) (x : spec_float) : list Z :=
  let sign (s : bool) := if s then [45] else [] in
  match x with
  | S754_zero s => sign s ++ print_fixed k 0
  | S754_finite s m e => sign s ++ print_fixed k (scaled k (Zpos m) e)
  | S754_infinity s => sign s ++ [105; 110; 102]
  | S754_nan => [110; 97; 110]
  end.

Section F.
  Variables prec emax : Z.
  (** the float nearest to n/10^k, or -n/10^k *)
  Definition read_dec (neg : bool) (n : Z) (k : nat) : spec_float :=
    match n with
    | Zpos m => SFdiv prec emax (S754_finite neg m 0) (S754_finite false (Z.to_pos (10 ^ Z.of_nat k)) 0)
    | _ => S754_zero neg
    end.
  (** %f and %lf (lines 110 and 113): white space, an optional sign, digits, which may have a point.  Other ways
      to write a number (an exponent, hexadecimal, inf, nan) are not modelled: what [other] says. *)
  Definition scan_f (other : stream -> option spec_float * stream) (f : stream) : option spec_float * stream :=
    let b := skip_ws (s_rest f) in
    let '(neg, b1) := match b with c :: r => if c =? 45 then (true, r) else if c =? 43 then (false, r) else (false, b) | [] => (false, []) end in
    let '(d1, b2) := span_digits b1 in
    let '(d2, b3) := match b2 with c :: r => if c =? 46 then span_digits r else ([], b2) | [] => ([], []) end in
    let letter := match b3 with c :: _ => ((65 <=? c) && (c <=? 90)) || ((97 <=? c) && (c <=? 122)) | [] => false end in
    if letter then other f else
    (match d1 ++ d2 with [] => None | d => Some (read_dec neg (digits_val d) (length d2)) end, mkS b3 (s_eof f || at_end b3)).

  (** the bits of a float: sign, exponent, mantissa without its leading bit; subnormal numbers have exponent 0,
      infinities and NaN the largest exponent *)
  Definition emin : Z := 3 - emax - prec.
  Definition f_bits (x : spec_float) : Z :=
    let sign (s : bool) := if s then 2 * emax * 2 ^ (prec - 1) else 0 in
    match x with
    | S754_zero s => sign s
    | S754_infinity s => sign s + (2 * emax - 1) * 2 ^ (prec - 1)
    | S754_nan => (2 * emax - 1) * 2 ^ (prec - 1) + 2 ^ (prec - 2)
    | S754_finite s m e => sign s + (if Zpos m <? 2 ^ (prec - 1) then Zpos m else (e - emin) * 2 ^ (prec - 1) + Zpos m)
    end.
  Definition f_unbits (z : Z) : spec_float :=
    let m := z mod 2 ^ (prec - 1) in let b := z / 2 ^ (prec - 1) in
    let s := 2 * emax <=? b in let e := b mod (2 * emax) in
    if e =? 2 * emax - 1 then (if m =? 0 then S754_infinity s else S754_nan)
    else if e =? 0 then (match m with Zpos p => S754_finite s p emin | _ => S754_zero s end)
    else match m + 2 ^ (prec - 1) with Zpos p => S754_finite s p (e + emin - 1) | _ => S754_nan end.
End F.
(** the [n] lowest bytes of a word, the lowest first, and back *)
Fixpoint le_bytes (n : nat) (z : Z) : list Z := match n with O => [] | S n => z mod 256 :: le_bytes n (z / 256) end.
Fixpoint le_val (b : list Z) : Z := match b with [] => 0 | c :: r => c + 256 * le_val r end.

(** T = float and T = double *)
Definition w_float (other : stream -> option spec_float * stream) : wtype spec_float :=
  mkW 4 (fun x => le_bytes 4 (f_bits 24 128 x)) (fun b => f_unbits 24 128 (le_val b)) (of_int 24 128 1)
    (Some (print_f 8, scan_f 24 128 other)).
Definition w_double (other : stream -> option spec_float * stream) : wtype spec_float :=
  mkW 8 (fun x => le_bytes 8 (f_bits 53 1024 x)) (fun b => f_unbits 53 1024 (le_val b)) (of_int 53 1024 1)
    (Some (print_f 15, scan_f 53 1024 other)).
