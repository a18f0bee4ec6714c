(** * Sharing vertex properties between graphs *)
From Verif Require Import Base BaseLemmas Share ShareSpec ShareProofs ShareBad.

(** ** C17 *)
(** Calls that follow the rules never touch or free anything twice: the sequence runs through, every
    living graph whose origin lives shows the common values, and once all graphs are destroyed nothing
    that was allocated is left. (The order of destruction does not matter.) *)
Theorem C17_disciplined_sharing_safe {X} (h : list (op X)) : disciplined h ->
  exists s, run_ops init h = Ok s /\
    (forall g, is_loaded h g = true -> is_dead h g = false -> is_dead h (origin h g) = false ->
       exists x, value h (origin h g) = Some x /\ seen s g = Ok x) /\
    ((forall g, is_loaded h g = true -> is_dead h g = true) -> forall l, heap s l = CNone \/ heap s l = CFreed).
Proof. exact (disciplined_safe h). Qed.
Print Assumptions C17_disciplined_sharing_safe.

(** After calls that followed the rules, [g] shares from [k]. If it then shares a second time, it frees
    the vector [k] shows: the next access through [k] is a use after free, and destroying the graph the
    vector came from frees it a second time. *)
Theorem C17_sharing_twice_breaks_source {X} (p : list (op X)) g k j :
  disciplined (p ++ [OShare g k]) -> is_dead p (origin p k) = false -> is_dead p j = false ->
  (forall f, run_ops init (p ++ [OShare g k; OShare g j; OUse k f]) = Err UAF) /\
  run_ops init (p ++ [OShare g k; OShare g j; ODestroy (origin p k)]) = Err DoubleFree.
Proof. exact (twice p g k j). Qed.
Print Assumptions C17_sharing_twice_breaks_source.
(** A graph that shares with itself frees its vector and keeps the pointer. *)
Theorem C17_sharing_with_itself {X} (p : list (op X)) g :
  disciplined p -> is_loaded p g = true -> is_dead p g = false -> is_dead p (origin p g) = false ->
  (forall f, run_ops init (p ++ [OShare g g; OUse g f]) = Err UAF) /\
  (forall k, is_dead p k = false -> run_ops init (p ++ [OShare g g; OShare g k]) = Err DoubleFree).
Proof. exact (itself p g). Qed.
Print Assumptions C17_sharing_with_itself.
(** A graph [g] that shares after [k] shared from it frees the vector [k] shows. *)
Theorem C17_source_must_not_share {X} (p : list (op X)) k g j :
  disciplined (p ++ [OShare k g]) -> is_dead p (origin p g) = false -> is_dead p j = false ->
  (forall f, run_ops init (p ++ [OShare k g; OShare g j; OUse k f]) = Err UAF) /\
  (forall i, is_dead p i = false -> run_ops init (p ++ [OShare k g; OShare g j; OShare k i]) = Err DoubleFree).
Proof. exact (source_shares p k g j). Qed.
Print Assumptions C17_source_must_not_share.
(** The properties are gone with the graph they came from. *)
Theorem C17_source_must_outlive_uses {X} (p : list (op X)) g f :
  disciplined p -> is_loaded p g = true -> is_dead p g = false -> is_dead p (origin p g) = true ->
  run_ops init (p ++ [OUse g f]) = Err UAF.
Proof. exact (source_gone p g f). Qed.
Print Assumptions C17_source_must_outlive_uses.
(** Loading a graph a second time abandons what the first load allocated. *)
Theorem C17_reload_leaks {X} (p : list (op X)) g x :
  disciplined p -> is_loaded p g = true -> is_dead p g = false ->
  exists s, run_ops init (p ++ [OLoad g x; ODestroy g]) = Ok s /\
    exists l1 l2 l3, l1 <> l2 /\ heap s l1 = CMat /\ heap s l2 = CMat /\ heap s l3 = CAct /\
      (has_shared p g = false -> exists l4 y, value p g = Some y /\ heap s l4 = CVec y) /\ o_dead (obj s g) = true.
Proof. exact (reload_leaks p g x). Qed.
Print Assumptions C17_reload_leaks.

(** Two graphs share from a third, one of them through the other; the owner goes first. *)
Definition c17_p : list (op Z) := [OLoad 0 5; OLoad 1 7; OLoad 2 9; OUse 0 (fun z => z + 1)].
Definition c17_h : list (op Z) := c17_p ++ [OShare 1 0; OShare 2 1; OUse 2 (fun z => 2 * z); ODestroy 1; OUse 2 (fun z => z + 3); OEdges 2; ODestroy 0; ODestroy 2].
Fixpoint disc (p h : list (op Z)) : Prop := match h with [] => True | o :: t => allowed p o /\ disc (p ++ [o]) t end.
Lemma disc_ok h : forall p, disc p h -> forall p' o q, h = p' ++ o :: q -> allowed (p ++ p') o.
Proof.
  induction h as [|o h IH]; intros p D p' o' q E; [destruct p'; discriminate|]. destruct D as [A D]. destruct p' as [|o1 p']; cbn [app] in E; injection E as <- E.
  - rewrite app_nil_r. exact A.
  - replace (p ++ o :: p') with ((p ++ [o]) ++ p') by (rewrite <- app_assoc; reflexivity). apply (IH _ D _ _ _ E).
Qed.
Lemma disc_disciplined h : disc [] h -> disciplined h.
Proof. intros D p o q E. apply (disc_ok h [] D p o q E). Qed.
Ltac dis := apply disc_disciplined; cbn; repeat match goal with |- _ /\ _ => split end; try reflexivity; try discriminate; try exact I.
Example C17_example : disciplined c17_h /\ (forall g, is_loaded c17_h g = true -> is_dead c17_h g = true) /\
  disciplined (c17_p ++ [OShare 1 0]) /\ is_dead c17_p (origin c17_p 0) = false /\
  (do s <- run_ops init (c17_p ++ [OShare 1 0; OShare 2 1; OUse 2 (fun z => 2 * z)]) ;; mapR (seen s) [0; 1; 2]%nat) = Ok [12; 12; 12].
Proof.
  split; [unfold c17_h, c17_p; cbn [app]; dis|]. split; [|split; [unfold c17_p; cbn [app]; dis|split; [reflexivity|]]].
  - intros [|[|[|g]]] H; try reflexivity. discriminate.
  - vm_compute. reflexivity.
Qed.
Example C17_example_gone : let p := c17_p ++ [OShare 1 0; ODestroy 0] in
  disciplined p /\ is_loaded p 1 = true /\ is_dead p 1 = false /\ is_dead p (origin p 1) = true.
Proof. split; [unfold c17_p; cbn [app]; dis|]. split; [reflexivity|]. split; reflexivity. Qed.
