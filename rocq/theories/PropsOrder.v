(** The order in which messages are combined: C80.
    A reduction that is not associative, such as the sum of floating-point numbers, gives a result
    that depends on the order of combination.  The statements below are about every reduction. *)
From Verif Require Import Base BaseLemmas Layout Reduce Segment DCSC MatSpec TileProofs SpMat Vec GraphVert Graph Runtime RunSpec GraphOps GraphHist Tree OrderSpec OrderHist.
From Verif Require Import ReduceProofs TreeProofs OrderFinal.
From Verif Require Import PropsRun.

(** A loaded graph has, for each direction and each vertex, one order in which the messages arriving
    at that vertex are combined.  Every program and every later history of calls that leaves the
    edges alone follows it, with any number of threads and any contents of uninitialised memory. *)
Theorem C80_fixed_order {V E byte} neq (m : machine V E byte) (dv : V) n blobs h g :
  setting m n blobs -> calls_fit n m h -> reached neq m dv n blobs h g ->
  exists q ord, can_mean neq dv n blobs h q /\ order_of n (gs_es q) ord /\ shows_properties n m g (gs_P q) /\ shows_edges m g (gs_es q) /\
    forall h', calls_fit n m h' -> keeps_edges h' ->
      (exists g' q', run_calls neq m h' g = Ok g' /\ calls_in neq n ord h' q (Some q') /\ shows_properties n m g' (gs_P q') /\ shows_edges m g' (gs_es q')) \/
      (run_calls neq m h' g = Err NoFuel /\ calls_in neq n ord h' q None).
Proof. exact (fun H => fixed_order neq m dv n blobs H h g). Qed.
Print Assumptions C80_fixed_order.
(** what a history means under a given order is determined: it has one meaning at most *)
Theorem C80_one_meaning {V E byte} (neq : V -> V -> bool) n ord (h h' : list (Z * gcall V E byte)) q o o' :
  same_calls h h' -> calls_in neq n ord h q o -> calls_in neq n ord h' q o' -> o = o'.
Proof. exact (fun H => OrderProofs.calls_in_one neq n ord h h' H q o o'). Qed.
Print Assumptions C80_one_meaning.
(** an order combines every arriving message once *)
Theorem C80_order_uses_all {S T U V E} n (es : list (edge E)) ord (pg : program S T U V E) (dv : V) st v :
  order_of n es ord -> 1 <= v <= n -> combined_of (pr_reduce pg (v_s st)) (received es pg dv st v) (reduced_in pg dv ord st v).
Proof. exact (reduced_received n es ord pg dv st v). Qed.
Print Assumptions C80_order_uses_all.

(** The same calls on the same graph, with other numbers of threads, give the same properties. *)
Theorem C80_repeatable {V E byte} neq (m : machine V E byte) (dv : V) n blobs h g h1 h2 g1 :
  setting m n blobs -> calls_fit n m h -> reached neq m dv n blobs h g ->
  calls_fit n m h1 -> calls_fit n m h2 -> keeps_edges h1 -> keeps_edges h2 -> same_calls h1 h2 ->
  run_calls neq m h1 g = Ok g1 -> exists g2 P, run_calls neq m h2 g = Ok g2 /\ shows_properties n m g1 P /\ shows_properties n m g2 P.
Proof. exact (fun H A B C D F G I => repeatable neq m dv n blobs H h g g1 h1 h2 A B C D F G I). Qed.
Print Assumptions C80_repeatable.
(** After [reset], the same calls on the same graph object give the same properties again. *)
Theorem C80_reset_repeats {V E byte} neq (m : machine V E byte) (dv : V) n blobs h g h0 t t' a h1 h2 g1 :
  setting m n blobs -> calls_fit n m h -> reached neq m dv n blobs h g ->
  calls_fit n m (h0 ++ (t, CReset a) :: h1) -> calls_fit n m ((t', CReset a) :: h2) -> keeps_edges h0 -> keeps_edges h1 -> keeps_edges h2 -> same_calls h1 h2 ->
  run_calls neq m (h0 ++ (t, CReset a) :: h1) g = Ok g1 ->
  exists g2 P, run_calls neq m ((t', CReset a) :: h2) g1 = Ok g2 /\ shows_properties n m g1 P /\ shows_properties n m g2 P.
Proof. exact (fun H A B C D F G I J => reset_repeats' neq m dv n blobs H h g g1 h0 t a t' h1 h2 A B C D F G I J). Qed.
Print Assumptions C80_reset_repeats.
(** Two runs of a program from the same graph take the same number of supersteps and leave the same
    program object and the same properties. *)
Theorem C80_runs_repeat {V E byte S T U} neq (m : machine V E byte) (dv : V) n blobs h g th1 th2 (jb : job S T U V E) (fr1 fr2 : frame T U byte) r1 k :
  setting m n blobs -> calls_fit n m h -> reached neq m dv n blobs h g -> call_fits n m th1 (CRun jb fr1) -> call_fits n m th2 (CRun jb fr2) ->
  run_job neq m th1 jb fr1 None g = Ok (r1, k) ->
  exists r2 P, run_job neq m th2 jb fr2 None g = Ok (r2, k) /\ r_s r2 = r_s r1 /\ shows_properties n m (r_g r1) P /\ shows_properties n m (r_g r2) P.
Proof. exact (fun H A B C D => run_repeats neq m dv n blobs H h g th1 th2 jb fr1 fr2 r1 k A B C D). Qed.
Print Assumptions C80_runs_repeat.

(** *** Examples *)
(** 300 vertices lie on two ranks; a program that writes the arriving digits one after the other *)
Definition exdigits : job Z Z Z Z Z :=
  mkJ (mkP OUT_EDGES false false (fun _ v _ => (v, true)) (fun _ t e _ => t + e) (fun _ a b => 10 * a + b) (fun _ u _ => u) (fun _ s => s)) 0 1 55 66 20.
Definition exdb (k : Z) : list (list (edge Z)) := map (fun x => mkE (fst x) 32 (snd x)) [(1, 1); (32, 2); (20, 4); (300, 5); (290, 6); (2, 3)] :: map (fun _ => []) (zrange 1 k).
Definition exdh (t : Z) : list (Z * gcall Z Z (Z * Z)) := [(t, CSetAll 0); (t, CAllActive)].
Definition exdg (m : machine Z Z (Z * Z)) b h : graph Z Z (Z * Z) :=
  match (do g <- load m 0 300 b ;; run_calls neqZ m h g) with Ok g => g | _ => mkG 0 0 (mkM 0 0 0 0 [] []) (mkM 0 0 0 0 [] []) [] [] [] end.
Definition exread (m : machine Z Z (Z * Z)) (g : R (graph Z Z (Z * Z))) : R (list (option Z)) :=
  do g <- g ;; mapR (fun p => read_property m g p 32 (-1)) (zrange 0 (m_nr m)).
Definition exruns (t : Z) : list (Z * gcall Z Z (Z * Z)) := [(t, CAllActive); (t, CRun exdigits exf)].

Lemma exdb_ok k e : In e (concat (exdb k)) -> 1 <= e_src e <= 300 /\ 1 <= e_dst e <= 300.
Proof.
  unfold exdb. cbn [concat]. rewrite in_app_iff. intros [H|H]; [cbn in H; intuition subst; cbn; lia|]. apply in_concat in H as (l & Hl & H). apply in_map_iff in Hl as (i & <- & _). destruct H.
Qed.
Lemma exd_fits nr nt t : 1 <= t -> calls_fit 300 (exm nr nt false) (exdh t) /\ calls_fit 300 (exm nr nt false) (exruns t) /\ calls_fit 300 (exm nr nt false) [(t, CReset 0)].
Proof. intros H. repeat split; repeat constructor; auto; discriminate. Qed.
Lemma exd_reached nr nt t : 1 <= nr -> 1 <= nt -> (exists g, (do g <- load (exm nr nt false) 0 300 (exdb nr) ;; run_calls neqZ (exm nr nt false) (exdh t) g) = Ok g) ->
  setting (exm nr nt false) 300 (exdb nr) /\ reached neqZ (exm nr nt false) 0 300 (exdb nr) (exdh t) (exdg (exm nr nt false) (exdb nr) (exdh t)).
Proof.
  intros Hr Hnt (g & Hg). split.
  - split; [apply exm_ok; auto|]. split; [lia|]. split; [|exact (exdb_ok nr)]. unfold exdb, zlen. cbn [m_nr exm length]. rewrite map_length. change (Z.of_nat (Datatypes.S (length (zrange 1 nr))) = nr). pose proof (zlen_zrange 1 nr). unfold zlen in *. lia.
  - unfold exdg. rewrite Hg. apply bind_Ok in Hg as (g0 & H0 & H1). exists g0. auto.
Qed.
Example C80_example :
  setting (exm 2 1 false) 300 (exdb 2) /\ reached neqZ (exm 2 1 false) 0 300 (exdb 2) (exdh 1) (exdg (exm 2 1 false) (exdb 2) (exdh 1)) /\
  calls_fit 300 (exm 2 1 false) (exdh 1) /\ calls_fit 300 (exm 2 1 false) (exruns 1) /\ calls_fit 300 (exm 2 1 false) (exruns 7) /\ calls_fit 300 (exm 2 1 false) ((5, CReset 0) :: exruns 7) /\
  keeps_edges (exruns 1) /\ keeps_edges (exruns 7) /\ same_calls (exruns 1) (exruns 7) /\ ~ commutative (pr_reduce (j_pg exdigits) 0) /\ ~ associative (pr_reduce (j_pg exdigits) 0) /\
  exread (exm 2 1 false) (run_calls neqZ (exm 2 1 false) (exruns 1) (exdg (exm 2 1 false) (exdb 2) (exdh 1))) = Ok [Some (-1); Some 2784] /\
  exread (exm 2 1 false) (run_calls neqZ (exm 2 1 false) (exruns 7) (exdg (exm 2 1 false) (exdb 2) (exdh 1))) = Ok [Some (-1); Some 2784] /\
  exread (exm 2 1 false) (run_calls neqZ (exm 2 1 false) (exruns 1 ++ (5, CReset 0) :: exruns 7) (exdg (exm 2 1 false) (exdb 2) (exdh 1))) = Ok [Some (-1); Some 2784].
Proof.
  destruct (exd_reached 2 1 1) as [A B]; [lia|lia|eexists; vm_compute; reflexivity|]. destruct (exd_fits 2 1 1) as (F1 & F2 & _); [lia|]. destruct (exd_fits 2 1 7) as (_ & F3 & _); [lia|]. destruct (exd_fits 2 1 5) as (_ & _ & F4); [lia|].
  split; [exact A|]. split; [exact B|]. split; [exact F1|]. split; [exact F2|]. split; [exact F3|]. split; [constructor; [inversion F4; auto|exact F3]|].
  split; [repeat constructor|]. split; [repeat constructor|]. split; [repeat constructor|]. split; [intros H; specialize (H 0 1); discriminate|]. split; [intros H; specialize (H 1 0 0); discriminate|].
  split; [vm_compute; reflexivity|]. split; vm_compute; reflexivity.
Qed.

(** The order is that of the loaded graph: on another number of ranks the same edges and the same
    program can give another result. *)
Theorem C80_other_ranks_refuted : exists (jb : job Z Z Z Z Z) (b1 b2 : list (list (edge Z))) h g1 g2 r1 r2 v,
  concat b1 = concat b2 /\ setting (exm 1 1 false) 300 b1 /\ setting (exm 2 1 false) 300 b2 /\
  reached neqZ (exm 1 1 false) 0 300 b1 h g1 /\ reached neqZ (exm 2 1 false) 0 300 b2 h g2 /\
  run_job neqZ (exm 1 1 false) 1 jb exf None g1 = Ok (r1, 1) /\ run_job neqZ (exm 2 1 false) 1 jb exf None g2 = Ok (r2, 1) /\
  1 <= v <= 300 /\ forall p1 p2, owns (exm 1 1 false) (r_g r1) p1 v = Ok true -> owns (exm 2 1 false) (r_g r2) p2 v = Ok true ->
    read_property (exm 1 1 false) (r_g r1) p1 v 0 <> read_property (exm 2 1 false) (r_g r2) p2 v 0.
Proof.
  set (g1 := exdg (exm 1 1 false) (exdb 1) (exdh 1)). set (g2 := exdg (exm 2 1 false) (exdb 2) (exdh 1)).
  set (r1 := match run_job neqZ (exm 1 1 false) 1 exdigits exf None g1 with Ok (r, _) => r | _ => mkR 0 g1 [] [] [] end).
  set (r2 := match run_job neqZ (exm 2 1 false) 1 exdigits exf None g2 with Ok (r, _) => r | _ => mkR 0 g1 [] [] [] end).
  destruct (exd_reached 1 1 1) as [A1 B1]; [lia|lia|eexists; vm_compute; reflexivity|]. destruct (exd_reached 2 1 1) as [A2 B2]; [lia|lia|eexists; vm_compute; reflexivity|].
  exists exdigits, (exdb 1), (exdb 2), (exdh 1), g1, g2, r1, r2, 32. split; [reflexivity|]. split; [exact A1|]. split; [exact A2|]. split; [exact B1|]. split; [exact B2|].
  split; [vm_compute; reflexivity|]. split; [vm_compute; reflexivity|]. split; [lia|]. intros p1 p2 H1 H2.
  assert (p1 = 0) as ->. { assert (owns (exm 1 1 false) (r_g r1) p1 32 = Ok (0 =? p1)) as Q by (destruct p1; vm_compute; reflexivity). rewrite Q in H1. destruct (Z.eqb_spec 0 p1) as [e|e]; [exact (eq_sym e)|discriminate H1]. }
  assert (p2 = 1) as ->. { assert (owns (exm 2 1 false) (r_g r2) p2 32 = Ok (1 =? p2)) as Q by (destruct p2 as [|[]|]; vm_compute; reflexivity). rewrite Q in H2. destruct (Z.eqb_spec 1 p2) as [e|e]; [exact (eq_sym e)|discriminate H2]. }
  vm_compute. discriminate.
Qed.
Print Assumptions C80_other_ranks_refuted.
