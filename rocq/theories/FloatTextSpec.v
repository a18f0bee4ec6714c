(** What becomes of a float or double weight that goes through a text edge file. *)
From Coq Require Import ZArith SpecFloat QArith Qabs.
From Verif Require Import Base DCSC EdgeList Float32.
Local Open Scope Q_scope.

Definition signbit (x : spec_float) : bool := match x with S754_zero s | S754_infinity s | S754_finite s _ _ => s | S754_nan => false end.
(** [f v]: the weight that comes back for [v].  The file has [k] decimals.
    - it is finite, and no further from [v] than the last decimal;
    - weights of magnitude [lim] or more, and those that k decimals can express, come back unchanged;
    - weights below half of the last decimal come back as 0 (with their sign);
    - weights come back in the order they had, though different ones may come back equal. *)
Record through_text (fin : spec_float -> Prop) (k : Z) (lim : Q) (f : spec_float -> spec_float) : Prop := mkTT {
  tt_near : forall v, fin v -> fin (f v) /\ Qabs (fval (f v) - fval v) <= 1 / inject_Z (10 ^ k);
  tt_large : forall v, fin v -> lim <= Qabs (fval v) -> f v = v;
  tt_exact : forall v n, fin v -> fval v * inject_Z (10 ^ k) == inject_Z n -> f v = v;
  tt_tiny : forall v, fin v -> Qabs (fval v) * inject_Z (10 ^ k) < 1 # 2 -> f v = S754_zero (signbit v);
  tt_order : forall v w, fin v -> fin w -> fval v <= fval w -> fval (f v) <= fval (f w);
  tt_twice : forall v, fin v -> f (f v) = f v }.
(** the edge with its weight changed by [f] *)
Definition reweigh (f : spec_float -> spec_float) (e : edge spec_float) : edge spec_float := mkE (e_src e) (e_dst e) (f (e_val e)).
