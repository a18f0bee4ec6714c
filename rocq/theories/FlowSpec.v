(** The PageRank equation over rational numbers, in terms of the edge list only. *)
From Coq Require Import QArith Qabs Qcanon.
From Verif Require Import Base DCSC AppSpec IncRank.
Local Open Scope Q_scope.

Definition qtotal (l : list Q) : Q := fold_right Qplus 0 l.
Section Flow.
  Context {E : Type}.
  Variables (n : Z) (es : list (edge E)).
  (** what [v] gets if every vertex [u] spreads [x u] evenly over its out-edges *)
  Definition inflow (x : Z -> Q) (v : Z) : Q :=
    qtotal (map (fun e => x (e_src e) / inject_Z (out_degree es (e_src e))) (filter (fun e => (e_dst e =? v)%Z) es)).
  (** [x] solves x(v) = start + (1-alpha) * inflow(v) up to [err] at every vertex *)
  Definition solves_within (alpha start err : Q) (x : Z -> Q) : Prop :=
    forall v, (1 <= v <= n)%Z -> Qabs (x v - (start + (1 - alpha) * inflow x v)) <= err.
  (** the sum of all differences *)
  Definition apart (x y : Z -> Q) : Q := qtotal (map (fun v => Qabs (x v - y v)) (zrange 1 (n + 1))).
End Flow.

(** Exact arithmetic for src/IncrementalPageRank.cpp; the file has alpha = start = 0.3, eps = 1e-8. *)
Definition qdoubles (alpha start eps : Qc) : doubles Qc :=
  mkDb start 0%Qc (fun r d => r / Q2Qc (inject_Z d))%Qc Qcplus (fun u => (1 - alpha) * u)%Qc
    (fun x => negb (Qle_bool (Qabs x) eps)) (fun x y => negb (Qle_bool (Qabs (x - y)%Qc) eps)).
(** the convergence test of src/PageRank.cpp, line 43, with tolerance [eps] *)
Definition qfar (eps x y : Qc) : bool := negb (Qle_bool (Qabs (x - y)%Qc) eps).
