(** src/LDA.cpp.  As in Apps.v, timing, printing and reading the file are left out; the results are
    the graph and the log-likelihood that line 340 prints. *)
From Verif Require Import Base Layout Reduce DCSC MatSpec Segment Vec SpMat GraphVert Graph Runtime GraphOps RunSpec GraphHist Apps Sgd.

(** *** runs whose [do_every_iteration] uses the graph *)
Section Seeing.
  Context {S T U V E byte : Type}.
  Variable neq : V -> V -> bool.
  Variable m : machine V E byte.
  Variables (th : Z) (jb : job S T U V E) (fr : frame T U byte).
  Notation gr := (graph V E byte).
  Notation state := (@rstate S T U V E byte).
  (** [do_every_iteration]: what it makes of the program object and the graph *)
  Variable every : Z -> S -> gr -> R (S * gr).
  (** the same program, left without the [setAllActive] at the end of a superstep *)
  Definition unforced (pg : program S T U V E) : program S T U V E :=
    mkP (pr_order pg) false (pr_reqv pg) (pr_send pg) (pr_process pg) (pr_reduce pg) (pr_apply pg) (pr_every pg).
  (** GraphMatRuntime.h:136-252: the pass up to line 226 is [superstep] of Runtime.v, then line 236 and
      lines 250-252 *)
  Definition superstep_seeing (it : Z) (q : state) : R (state * bool) :=
    do r <- superstep (f_sert fr) (m_serv m) (f_seru fr) (f_enct fr) (f_dect fr) (m_encv m) (m_decv m) (f_encu fr) (f_decu fr) (m_nr m) th (j_dv jb) neq (unforced (j_pg jb)) it q ;;
    let q := fst r in
    do sg <- every it (r_s q) (r_g q) ;;
    do g <- (if pr_all_vertices (j_pg jb) then all_active (m_nr m) th (snd sg) else Ok (snd sg)) ;;
    Ok (mkR (fst sg) g (r_x q) (r_y q) (r_log q), snd r).
  (** GraphMatRuntime.h:136-261 *)
  Fixpoint loop_seeing (fuel : nat) (it : Z) (q : state) : R (state * Z) :=
    match fuel with
    | O => Err NoFuel
    | Datatypes.S f =>
      do r <- superstep_seeing it q ;;
      let it := it + 1 in
      if it =? j_iterations jb then Ok (fst r, it)
      else if (j_iterations jb <=? 0) && snd r then Ok (fst r, it)
      else loop_seeing f it (fst r)
    end.
  (** GraphMatRuntime.h:93-279, with a temporary structure *)
  Definition run_seeing (tmp : list (list (seg T byte)) * list (list (seg U byte))) (g : gr) : R (state * Z) :=
    do g <- (if pr_all_vertices (j_pg jb) then all_active (m_nr m) th g else Ok g) ;;
    loop_seeing (j_fuel jb) 0 (mkR (j_s jb) g (fst tmp) (snd tmp) (map (fun _ => []) (zrange 0 (m_nr m)))).
End Seeing.

(** Besides the operations of Sgd.v: 1.0, division, [log] and [>].  [re_far x y] is now
    [fabs(x-y) > 1e-3] (line 54).  Nothing is assumed about the operations. *)
Record lreals (F : Type) := mkLg { lg_re : reals F; lg_one : F; lg_div : F -> F -> F; lg_log : F -> F; lg_gt : F -> F -> bool }.
Arguments mkLg {F}. Arguments lg_re {F}. Arguments lg_one {F}. Arguments lg_div {F}. Arguments lg_log {F}. Arguments lg_gt {F}.

Section Lda.
  Context {F : Type}.
  Variable lg : lreals F.
  Notation re := (lg_re lg).
  Notation zero := (re_zero re). Notation one := (lg_one lg). Notation add := (re_add re). Notation sub := (re_sub re). Notation mul := (re_mul re). Notation div := (lg_div lg).
  (** the number of topics; line 268 has 20 *)
  Variable K : nat.
  Notation get := (at_ re).
  (** lines 37-68; [type] is 'd' or 'w' *)
  Record ld_vertex := mkLD { ld_N : list F; ld_doc : bool; ld_ll : F }.
  Definition ld_neq (a b : ld_vertex) : bool :=
    fold_left (fun (result : bool) i => if re_far re (get (ld_N b) i) (get (ld_N a) i) then true else result) (seq 0 K) false.
  Definition addN (a b : list F) : list F := each K (fun i => add (get a i) (get b i)).
  (** lines 88-100, 166-175: the entries of [gamma] are added up while they are computed *)
  Definition scaled (gamma : nat -> F) (w : Z) : list F :=
    let sum := fold_left (fun s i => add s (gamma i)) (seq 0 K) zero in
    each K (fun i => mul (div (gamma i) sum) (re_int re w)).
  Definition ld_apply (u : list F) (v : ld_vertex) : ld_vertex := mkLD (each K (get u)) (ld_doc v) (ld_ll v).
  (** lines 69-112; [rnd w i]: the [i]-th number [rand_r] gives from seed [w], divided by [RAND_MAX].
      As in Sgd.v a message is only its array. *)
  Variable rnd : Z -> nat -> F.
  Definition lda_init : program unit (list F) (list F) ld_vertex Z := mkP ALL_EDGES true false
    (fun _ v _ => (ld_N v, true))
    (fun _ _ w _ => scaled (rnd w) w)
    (fun _ => addN)
    (fun _ => ld_apply)
    (fun _ s => s).
  (** lines 128-193 without [do_every_iteration]; the object is [global_N] *)
  Variables (alpha eta vocab_size : F).
  Definition lda : program (list F) (list F) (list F) ld_vertex Z := mkP ALL_EDGES true true
    (fun _ v _ => (ld_N v, true))
    (fun s t w v =>
       let my_offset := if ld_doc v then alpha else eta in
       let other_offset := if ld_doc v then eta else alpha in
       scaled (fun i => div (mul (sub (add (get (ld_N v) i) my_offset) one) (sub (add (get t i) other_offset) one)) (add (get s i) (mul vocab_size (sub eta one)))) w)
    (fun _ => addN)
    (fun _ => ld_apply)
    (fun _ s => s).
  (** lines 195-250; [s]: [N_k] after the constructor *)
  Definition lda_ll : program (list F) (list F) F ld_vertex Z := mkP OUT_EDGES true true
    (fun _ v _ => (ld_N v, true))
    (fun s t w v =>
       let phi_wk i := div (add (get (ld_N v) i) (sub eta one)) (get s i) in
       let theta_kj i := add (get t i) (sub eta one) in
       let sum := fold_left (fun x i => add x (theta_kj i)) (seq 0 K) zero in
       let dot := fold_left (fun x i => add x (mul (phi_wk i) (div (theta_kj i) sum))) (seq 0 K) zero in
       mul (re_int re w) (lg_log lg dot))
    (fun _ => add)
    (fun _ u v => mkLD (ld_N v) (ld_doc v) u)
    (fun _ s => s).
  (** lines 203-212 *)
  Definition new_ll (N_k : list F) (nterms : Z) : R (list F) :=
    if lg_gt lg eta one then Ok (each K (fun i => add (get N_k i) (mul (re_int re nterms) (sub eta one)))) else Err AssertFail.
  (** lines 114-121, 261-264 *)
  Definition if_term (v : ld_vertex) : ld_vertex * list F := (v, if ld_doc v then each K (fun _ => zero) else each K (get (ld_N v))).
  Definition return_ll (v : ld_vertex) : ld_vertex * F := (v, ld_ll v).

  Context {byte : Type}.
  Variable m : machine ld_vertex Z byte.
  Variable th : Z.
  (** lines 144-147; every rank gets a result, the model keeps that of the first (C14: they are equal) *)
  Definition calc_global (g : graph ld_vertex Z byte) : R (list F * graph ld_vertex Z byte) :=
    do r <- g_applyReduceAllVertices (m_nr m) th if_term addN (fun _ => each K (fun _ => zero)) g ;;
    match snd r with s :: _ => Ok (s, fst r) | [] => Err Uninit end.
End Lda.
Arguments ld_vertex F : clear implicits.
Arguments mkLD {F}. Arguments ld_N {F}. Arguments ld_doc {F}. Arguments ld_ll {F}.

(** lines 267-312; [junk i]: what the array of the local variable of line 278 holds, never set;
    [fresh]: what a vertex holds that nothing was stored in; [niterations] at least 1.  The result is global_N
    with the graph *)
Definition lda_topics {F byte} (lg : lreals F) (K : nat) (rnd : Z -> nat -> F) (alpha eta : F) (m : machine (ld_vertex F) Z byte) (th : Z)
  (fr : frame (list F) (list F) byte) (dt : list F) (dv fresh : ld_vertex F) (junk : Z -> nat -> F)
  (ndoc nterms niterations : Z) (n : Z) (blobs : list (list (edge Z))) : R (list F * graph (ld_vertex F) Z byte) :=
  let re := lg_re lg in
  let neq := ld_neq lg K in
  let vocab_size := re_int re nterms in
  do g <- load m fresh n blobs ;;
  if negb (ndoc + nterms =? n) then Err ExitCall else
  do g <- forZ 1 (n + 1) (fun i g => run_call neq m th (CSet i (mkLD (each K (junk i)) (i <=? ndoc) (re_zero re))) g) g ;;
  do g <- run_call neq m th CAllActive g ;;
  do r <- run_job neq m th (mkJ (lda_init lg K rnd) tt 1 dt dv 1) fr None g ;;
  do sg <- calc_global lg K m th (r_g (fst r)) ;;
  do ldap_tmp <- program_init m th fr dt (snd sg) ;;
  do g <- run_call neq m th CAllActive (snd sg) ;;
  do r <- run_seeing neq m th (mkJ (lda lg K alpha eta vocab_size) (fst sg) niterations dt dv (Z.to_nat niterations)) fr (fun _ _ g => calc_global lg K m th g) ldap_tmp g ;;
  Ok (r_s (fst r), r_g (fst r)).
(** lines 329-338 *)
Definition lda_total {F byte} (lg : lreals F) (K : nat) (eta : F) (m : machine (ld_vertex F) Z byte) (th : Z) (fr2 : frame (list F) F byte) (dt : list F) (dv : ld_vertex F)
  (nterms : Z) (global_N : list F) (g : graph (ld_vertex F) Z byte) : R (graph (ld_vertex F) Z byte * list F) :=
  do nk <- new_ll lg K eta global_N nterms ;;
  do g <- run_call (ld_neq lg K) m th CAllActive g ;;
  do r <- run_job (ld_neq lg K) m th (mkJ (lda_ll lg K eta) nk 1 dt dv 1) fr2 None g ;;
  g_applyReduceAllVertices (m_nr m) th return_ll (re_add (lg_re lg)) (fun _ => re_zero (lg_re lg)) (r_g (fst r)).
(** lines 267-341 without the printing *)
Definition run_lda {F byte} (lg : lreals F) (K : nat) (rnd : Z -> nat -> F) (alpha eta : F) (m : machine (ld_vertex F) Z byte) (th : Z)
  (fr : frame (list F) (list F) byte) (fr2 : frame (list F) F byte) (dt : list F) (dv fresh : ld_vertex F) (junk : Z -> nat -> F)
  (ndoc nterms niterations : Z) (n : Z) (blobs : list (list (edge Z))) : R (graph (ld_vertex F) Z byte * list F) :=
  do q <- lda_topics lg K rnd alpha eta m th fr dt dv fresh junk ndoc nterms niterations n blobs ;;
  lda_total lg K eta m th fr2 dt dv nterms (fst q) (snd q).
