(** Matrix factorisation by gradient descent, in terms of the edge list only. *)
From Coq Require Import QArith Qcanon.
From Verif Require Import Base DCSC RankSpec Sgd.
Local Open Scope Qc_scope.

Definition qint (w : Z) : Qc := Q2Qc (inject_Z w).
(** exact arithmetic for src/SGD.cpp; [far] is the comparison of line 51 *)
Definition qreals (far : Qc -> Qc -> bool) : reals Qc := mkRe 0 Qcplus Qcminus Qcmult Qcopp qint far.

Section Factorise.
  Variables (K : nat) (es : list (edge Z)).
  (** [x v i]: entry [i] of the vector of vertex [v] *)
  Definition qover (f : nat -> Qc) : Qc := qsum (map f (seq 0 K)).
  (** how far the product of the two vectors is from the weight of the edge *)
  Definition miss (x : Z -> nat -> Qc) (e : edge Z) : Qc := qint (e_val e) - qover (fun i => x (e_src e) i * x (e_dst e) i).
  Definition squared_error (x : Z -> nat -> Qc) : Qc := qsum (map (fun e => miss x e * miss x e) es).
  (** one entry for every end of an edge at [v] *)
  Definition pull (x : Z -> nat -> Qc) (v : Z) (i : nat) : Qc :=
    qsum (map (fun e => miss x e * x (e_src e) i) (filter (fun e => (e_dst e =? v)%Z) es)) +
    qsum (map (fun e => miss x e * x (e_dst e) i) (filter (fun e => (e_src e =? v)%Z) es)).
  Definition touched (v : Z) : bool := existsb (fun e => (e_src e =? v)%Z || (e_dst e =? v)%Z) es.
  (** vertices without edges stay *)
  Definition downhill (lambda : Qc) (x : Z -> nat -> Qc) (v : Z) (i : nat) : Qc := if touched v then pull x v i - lambda * x v i else 0.
  Definition descend (lambda step : Qc) (x : Z -> nat -> Qc) (v : Z) (i : nat) : Qc := x v i + step * downhill lambda x v i.
  Fixpoint descent (lambda step : Qc) (k : nat) (x : Z -> nat -> Qc) : Z -> nat -> Qc :=
    match k with O => x | S k => descend lambda step (descent lambda step k x) end.
  (** what the descent makes smaller, for the vertices 1..n: the squared error, and [lambda] times the
      squares of the vectors of all vertices that have edges *)
  Definition objective (n : Z) (lambda : Qc) (x : Z -> nat -> Qc) : Qc :=
    squared_error x + lambda * qsum (map (fun v => if touched v then qover (fun i => x v i * x v i) else 0) (zrange 1 (n + 1))).
  Definition along_line (x y : Z -> nat -> Qc) (t : Qc) : Z -> nat -> Qc := fun v i => x v i + t * y v i.
  Definition inner (n : Z) (x y : Z -> nat -> Qc) : Qc := qsum (map (fun v => qover (fun i => x v i * y v i)) (zrange 1 (n + 1))).
End Factorise.
