(** What PageRank is supposed to compute, for any arithmetic on the ranks. *)
From Coq Require Import QArith Qcanon.
Local Open Scope Z_scope.
From Verif Require Import Base Reduce DCSC Apps AppSpec.

Section PageRankSpec.
  Context {F E : Type}.
  Variables (fl : floats F) (n : Z) (es : list (edge E)).
  (** [x]: a new value of [v] if the values were [R]: the shares arriving along the in-edges of [v],
      added up in some order, then mixed with alpha; the old value if there are no in-edges *)
  Definition rank_step (R : Z -> F) (v : Z) (x : F) : Prop :=
    let l := map (fun e => fl_share fl (R (e_src e)) (out_degree es (e_src e))) (filter (fun e => e_dst e =? v) es) in
    (l = [] /\ x = R v) \/ (exists u, combination (fl_add fl) l u /\ x = fl_mix fl u).
  (** no vertex with an in-edge moved far *)
  Definition settled (R R' : Z -> F) : Prop :=
    forall v, 1 <= v <= n -> in_degree es v <> 0 -> fl_far fl (R' v) (R v) = false.
End PageRankSpec.

(** exact arithmetic: rational numbers *)
Definition qsum (l : list Qc) : Qc := fold_right Qcplus 0%Qc l.
Definition qfloats (alpha start : Qc) (far : Qc -> Qc -> bool) : floats Qc :=
  mkFl start 0%Qc (fun r d => r / Q2Qc (inject_Z d))%Qc Qcplus (fun u => alpha + (1 - alpha) * u)%Qc far.
