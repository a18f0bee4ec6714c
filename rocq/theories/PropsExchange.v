(** C35: the message exchanges between ranks cannot deadlock. *)
From Verif Require Import Base Mpi Exchange ExchangeSpec ExchangeProofs.

(** Any number of ranks performs any sequence of exchanges (matrix-vector products of both kinds,
    ApplyEdges, MapReduce, exchanges of edges, barriers), for any assignment of tiles and segments to
    ranks, in any schedule, with sends that return at once or wait for the receiver, as MPI likes.  In
    every state that can come up:
    - all ranks are done, or a step that MPI guarantees is possible;
    - a bound on the number of steps holds, so no run goes on for ever;
    - every message that was received is the one its receiver takes it for: same exchange, same vector,
      same segment, same part;
    - where nothing can happen any more, all ranks are done, no message is left over, and on each
      channel exactly the messages that were sent have been received, in order. *)
Theorem C35_exchanges_never_deadlock : forall nr es, 0 < nr -> Forall (exchange_ok nr) es ->
  forall n st, steps nr n (start nr (all_ops nr 0 es)) st ->
    (finished nr st \/ exists st', step nr true st st') /\
    (n <= fold_right (fun r k => 2 * length (all_ops nr 0 es r) + k) 0 (zrange 0 nr))%nat /\
    (forall c a b, In (c, (a, b)) (st_log st) -> a = b) /\
    ((forall st', ~ step nr false st st') ->
       finished nr st /\ st_sends st = [] /\ st_recvs st = [] /\
       forall s d t, 0 <= s < nr -> 0 <= d < nr ->
         map fst (on (s, d, t) (st_log st)) = sends d t (all_ops nr 0 es s) /\
         map snd (on (s, d, t) (st_log st)) = recvs s t (all_ops nr 0 es d)).
Proof. exact exchanges_run. Qed.
Print Assumptions C35_exchanges_never_deadlock.

(** So from wherever a run has got to, the steps MPI guarantees lead to the end. *)
Theorem C35_exchanges_complete : forall nr es, 0 < nr -> Forall (exchange_ok nr) es ->
  forall n st, steps nr n (start nr (all_ops nr 0 es)) st -> exists st', sure_steps nr st st' /\ finished nr st'.
Proof. exact exchanges_complete. Qed.
Print Assumptions C35_exchanges_complete.

(** Three ranks, tiles dealt out diagonally, segments owned in reverse order; products, a reduction and
    an exchange of edges: rank 1 sends rank 0 eleven messages with tag 0, and rank 2 ten. *)
Definition diagonal : layout := mkLay 3 3 (fun i j => (i + j) mod 3) (fun k => 2 - k).
Example C35_example_ok : Forall (exchange_ok 3) [XShuffle; XMult diagonal (fun _ _ => 2%nat) (fun _ _ => 3%nat); XEdges diagonal (fun _ _ => 2%nat); XReduce].
Proof.
  assert (layout_ok 3 diagonal) as K by (constructor; cbn [diagonal ly_tile ly_own ly_ntx ly_nty]; [intros; apply Z.mod_pos_bound; lia|intros k [H|H]; lia]).
  repeat constructor; auto; apply K; auto.
Qed.
Example C35_example_messages :
  map (fun d => zlen (sends d 0 (all_ops 3 0 [XShuffle; XMult diagonal (fun _ _ => 2%nat) (fun _ _ => 3%nat); XEdges diagonal (fun _ _ => 2%nat); XReduce] 1))) [0; 1; 2] = [11; 0; 10].
Proof. vm_compute. reflexivity. Qed.
(** The model has deadlocks: two ranks that send to each other before receiving can get stuck. *)
Example C35_bad_order_deadlocks :
  let bad := fun r => [Snd (1 - r) 0 tt; SndWait (1 - r) 0; Rcv (1 - r) 0 tt; RcvWait (1 - r) 0] in
  exists st, steps 2 2 (start 2 bad) st /\ ~ finished 2 st /\ forall st', ~ step 2 true st st'.
Proof.
  intros bad. eexists. split; [eapply steps_S; [eapply steps_S; [apply steps_0|]|]|].
  - apply (do_snd 2 false (start 2 bad) 0 1 0 tt (tl (bad 0))); [lia|reflexivity].
  - apply do_snd with (r := 1) (k := tl (bad 1)) (d := 0) (t := 0) (l := tt); [lia|reflexivity].
  - split; [intros F; specialize (F 0 ltac:(lia)); discriminate|].
    intros st' H. inversion H as [? r d t l k B E|? r s t l k B E|? c a b s1 s2 r1 r2 E1 E2 E3 E4|? r d t k B E W|? r s t k B E|? r k B E|? r k B E|? r k B E]; subst; cbn in *.
    all: try (destruct r1; discriminate).
    all: try (assert (r = 0 \/ r = 1) as [-> | ->] by lia; cbn in E; try discriminate E).
    all: injection E as <- <- <-; specialize (W eq_refl); discriminate W.
Qed.
