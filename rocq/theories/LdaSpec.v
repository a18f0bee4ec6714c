(** Assigning words of documents to topics, in terms of the edge list only.  An edge joins a document
    and a term; its weight is how often the term occurs in the document. *)
From Coq Require Import QArith Qcanon.
From Verif Require Import Base DCSC RankSpec Sgd SgdSpec Lda.
Local Open Scope Qc_scope.

(** exact arithmetic for src/LDA.cpp; [far] is the comparison of line 54, [log] any function *)
Definition qlogs (far : Qc -> Qc -> bool) (log : Qc -> Qc) : lreals Qc :=
  mkLg (qreals far) 1 Qcdiv log (fun a b => if Qclt_le_dec b a then true else false).

Section Topics.
  (** [K] topics; the documents are the vertices up to [ndoc], the terms those up to [n] *)
  Variables (K : nat) (ndoc n : Z) (es : list (edge Z)).
  (** [w] occurrences divided among the topics in proportion to [gamma] *)
  Definition portion (gamma : nat -> Qc) (w : Z) (i : nat) : Qc := gamma i / qover K gamma * qint w.
  (** [f v u w i]: how much of topic [i] an edge of weight [w] between [v] and [u] has.  Summed over
      every end of an edge at [v]; vertices without edges stay *)
  Definition gather (f : Z -> Z -> Z -> nat -> Qc) (x : Z -> nat -> Qc) (v : Z) (i : nat) : Qc :=
    if touched es v then
      qsum (map (fun e => f v (e_src e) (e_val e) i) (filter (fun e => (e_dst e =? v)%Z) es)) +
      qsum (map (fun e => f v (e_dst e) (e_val e) i) (filter (fun e => (e_src e =? v)%Z) es))
    else x v i.
  (** at first in proportion to random numbers that depend on the weight of the edge *)
  Definition seeded (rnd : Z -> nat -> Qc) : (Z -> nat -> Qc) -> Z -> nat -> Qc := gather (fun _ _ w => portion (rnd w) w).
  (** what all terms together have of topic [i] *)
  Definition topic_total (x : Z -> nat -> Qc) (i : nat) : Qc := qsum (map (fun v => x v i) (filter (fun v => (ndoc <? v)%Z) (zrange 1 (n + 1)))).
  Variables alpha eta : Qc.
  Definition smoothed (x : Z -> nat -> Qc) (i : nat) : Qc := topic_total x i + qint (n - ndoc) * (eta - 1).
  Definition belief (x : Z -> nat -> Qc) (v u : Z) (i : nat) : Qc :=
    (x v i + (if (v <=? ndoc)%Z then alpha else eta) - 1) * (x u i + (if (v <=? ndoc)%Z then eta else alpha) - 1) / smoothed x i.
  Definition round (x : Z -> nat -> Qc) : Z -> nat -> Qc := gather (fun v u w => portion (belief x v u) w) x.
  Fixpoint rounds (k : nat) (x : Z -> nat -> Qc) : Z -> nat -> Qc := match k with O => x | S k => round (rounds k x) end.
  (** the probability of term [t] in document [d]; the proportions of the document are smoothed with [eta] *)
  Definition chance (x : Z -> nat -> Qc) (d t : Z) : Qc :=
    qover K (fun i => (x t i + (eta - 1)) / smoothed x i * ((x d i + (eta - 1)) / qover K (fun j => x d j + (eta - 1)))).
  Definition loglik (log : Qc -> Qc) (x : Z -> nat -> Qc) : Qc :=
    qsum (map (fun e => qint (e_val e) * log (chance x (e_src e) (e_dst e))) es).
  (** the weights of the ends of edges at [v] *)
  Definition occurrences (v : Z) : Qc :=
    qsum (map (fun e => qint (e_val e)) (filter (fun e => (e_dst e =? v)%Z) es)) + qsum (map (fun e => qint (e_val e)) (filter (fun e => (e_src e =? v)%Z) es)).
End Topics.
