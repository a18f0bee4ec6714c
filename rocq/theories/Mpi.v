(** The message passing the ranks use: what MPI promises about MPI_Send, MPI_Recv, MPI_Isend,
    MPI_Irecv, MPI_Waitall and collective operations.  Nothing here models a line of /repo; the
    communication of the library is written as lists of these operations in Exchange.v.

    Messages from one rank to another with the same tag are received in the order in which they are
    sent.  A blocking call is split into the call and the return from it.  A receive returns when a
    message has been matched with it.  Whether a send waits until the message has been received
    or returns at once (with the message in a buffer) is up to the library, and so is whether a
    collective operation waits for all ranks: executions may do either ([step false]); what they can
    count on is only that these operations return once nothing can be missing ([step true]). *)
From Verif Require Import Base.

Section Mpi.
  Context {L : Type}.
  (** [L]: what a message is about *)
  Inductive op :=
  | Snd (d t : Z) (l : L)   (* MPI_Isend to d with tag t, or the call of MPI_Send *)
  | SndWait (d t : Z)       (* the return from MPI_Send *)
  | Rcv (s t : Z) (l : L)   (* MPI_Irecv from s, or the call of MPI_Recv; l: what the receiver takes the message for *)
  | RcvWait (s t : Z)       (* the return from MPI_Recv *)
  | WaitAll                 (* MPI_Waitall on all requests *)
  | Enter                   (* a collective operation is called *)
  | Leave.                  (* and returns *)

  (** channels: source, destination, tag *)
  Definition chan := (Z * Z * Z)%type.
  Definition chan_eqb (c c' : chan) : bool := match c, c' with (s, d, t), (s', d', t') => (s =? s') && (d =? d') && (t =? t') end.
  (** the messages or receives of one channel, oldest first *)
  Definition on (c : chan) (p : list (chan * L)) : list L := map snd (filter (fun x => chan_eqb c (fst x)) p).

  (** what every rank still has to do; sends and receives not yet matched; how many collective
      operations each rank has called; the pairs matched so far *)
  Record state := mkS {
    st_rest : Z -> list op; st_sends : list (chan * L); st_recvs : list (chan * L); st_in : Z -> nat;
    st_log : list (chan * (L * L)) }.

  Definition set_rest (st : state) (r : Z) (k : list op) : Z -> list op := fun r' => if r' =? r then k else st_rest st r'.

  Variable nr : Z.
  (** One step; [sure]: one that MPI guarantees to be possible. *)
  Inductive step (sure : bool) : state -> state -> Prop :=
  | do_snd st r d t l k : 0 <= r < nr -> st_rest st r = Snd d t l :: k ->
      step sure st (mkS (set_rest st r k) (st_sends st ++ [((r, d, t), l)]) (st_recvs st) (st_in st) (st_log st))
  | do_rcv st r s t l k : 0 <= r < nr -> st_rest st r = Rcv s t l :: k ->
      step sure st (mkS (set_rest st r k) (st_sends st) (st_recvs st ++ [((s, r, t), l)]) (st_in st) (st_log st))
  | do_match st c a b s1 s2 r1 r2 :
      st_sends st = s1 ++ (c, a) :: s2 -> on c s1 = [] -> st_recvs st = r1 ++ (c, b) :: r2 -> on c r1 = [] ->
      step sure st (mkS (st_rest st) (s1 ++ s2) (r1 ++ r2) (st_in st) (st_log st ++ [(c, (a, b))]))
  | do_sndwait st r d t k : 0 <= r < nr -> st_rest st r = SndWait d t :: k ->
      (sure = true -> on (r, d, t) (st_sends st) = []) ->
      step sure st (mkS (set_rest st r k) (st_sends st) (st_recvs st) (st_in st) (st_log st))
  | do_rcvwait st r s t k : 0 <= r < nr -> st_rest st r = RcvWait s t :: k -> on (s, r, t) (st_recvs st) = [] ->
      step sure st (mkS (set_rest st r k) (st_sends st) (st_recvs st) (st_in st) (st_log st))
  | do_waitall st r k : 0 <= r < nr -> st_rest st r = WaitAll :: k -> (forall s t, on (s, r, t) (st_recvs st) = []) ->
      (sure = true -> forall d t, on (r, d, t) (st_sends st) = []) ->
      step sure st (mkS (set_rest st r k) (st_sends st) (st_recvs st) (st_in st) (st_log st))
  | do_enter st r k : 0 <= r < nr -> st_rest st r = Enter :: k ->
      step sure st (mkS (set_rest st r k) (st_sends st) (st_recvs st) (fun r' => if r' =? r then S (st_in st r) else st_in st r') (st_log st))
  | do_leave st r k : 0 <= r < nr -> st_rest st r = Leave :: k ->
      (sure = true -> forall r', 0 <= r' < nr -> (st_in st r <= st_in st r')%nat) ->
      step sure st (mkS (set_rest st r k) (st_sends st) (st_recvs st) (st_in st) (st_log st)).

  (** [n] steps *)
  Inductive steps : nat -> state -> state -> Prop :=
  | steps_0 st : steps 0 st st
  | steps_S n st st' st'' : steps n st st' -> step false st' st'' -> steps (S n) st st''.

  Definition start (prog : Z -> list op) : state := mkS (fun r => if (0 <=? r) && (r <? nr) then prog r else []) [] [] (fun _ => O) [].
  Definition finished (st : state) : Prop := forall r, 0 <= r < nr -> st_rest st r = [].
  (** the messages a program sends to [d] with tag [t], and those it receives from [s] *)
  Definition sends (d t : Z) (l : list op) : list L := flat_map (fun o => match o with Snd d' t' x => if (d' =? d) && (t' =? t) then [x] else [] | _ => [] end) l.
  Definition recvs (s t : Z) (l : list op) : list L := flat_map (fun o => match o with Rcv s' t' x => if (s' =? s) && (t' =? t) then [x] else [] | _ => [] end) l.
End Mpi.
Arguments op L : clear implicits. Arguments state L : clear implicits.
Arguments SndWait {L}. Arguments RcvWait {L}. Arguments WaitAll {L}. Arguments Enter {L}. Arguments Leave {L}.
