(** src/SGD.cpp and src/LDA.cpp from the arguments and edge files to the printed text (Sgd.v and Lda.v have the part in
    between).  Not modelled: lines about times and progress.  [show2], [show6]: what printf writes for a double with %.2f and %lf; [rms e k]: sqrt(e / k). *)
From Coq Require Import String.
From Verif Require Import Base Segment DCSC SpMat Graph GraphVert GraphHist Apps Sgd Lda FileIO Cmd ConvertCmd CmdArgs.

Section Sgd.
  Context {F byte : Type}.
  Variables (re : reals F) (K : nat) (show2 show6 : F -> list Z) (rms : F -> Z -> F).
  (** SGD.cpp:191, 215 *)
  Definition rmse_line (e : F) (nnz : Z) : list Z := chars "RMSE error = " ++ show6 (rms e nnz) ++ chars " per edge " ++ [10].
  (** SGD.cpp:219-221 and 69-73 *)
  Definition sgd_line (i : Z) (v : sg_vertex F) : list Z := print_d i ++ chars " : " ++ concat (map (fun x => chars " " ++ show2 x ++ chars " ") (sg_lv v)) ++ [10].
  (** SGD.cpp:163-224; [lambda], [step]: the numbers of line 170.  Every rank has its own G.nnz *)
  Definition sgd_cmd (wide : Z -> Z) (ffuel : nat) (th : Z) (dir : dirt) (lambda step : F) (m : machine (sg_vertex F) Z byte) (fr1 : frame (list F) (list F) byte) (fr2 : frame (list F) F byte) (dt1 dt2 : list F) (dv fresh : sg_vertex F)
    (init : Z -> nat -> F) : R (list (list Z)) :=
    do q <- read_mtx (w_int wide) wide ffuel (m_nr m) dir ;;
    do p <- run_sgd re K lambda step m th fr1 fr2 dt1 dt2 dv fresh init 10 (fst q) (snd q) ;;
    let '(g, e1, e2) := p in
    mapR (fun r =>
      do nnz <- rd (g_nnz g) r ;; do a <- rd e1 r ;; do b <- rd e2 r ;;
      do l <- print_owned m fresh 10 sgd_line g r ;;
      Ok (rmse_line a nnz ++ rmse_line b nnz ++ l)) (zrange 0 (m_nr m)).
  (** SGD.cpp:226-235 *)
  Definition sgd_main (wide : Z -> Z) (ffuel : nat) (th : Z) (disk : string -> dirt) (prog : string) (lambda step : F) (m : machine (sg_vertex F) Z byte) fr1 fr2 dt1 dt2 dv fresh init (args : list string) : R (list (list Z)) :=
    match args with a1 :: _ => sgd_cmd wide ffuel th (disk a1) lambda step m fr1 fr2 dt1 dt2 dv fresh init | _ => usage (m_nr m) prog " A.mtx " end.
End Sgd.

Section Lda.
  Context {F byte : Type}.
  Variables (lg : lreals F) (K : nat) (show2 show6 : F -> list Z).
  (** LDA.cpp:316-318 and 61-66 *)
  Definition lda_line (i : Z) (v : ld_vertex F) : list Z :=
    print_d i ++ chars " : " ++ chars (if ld_doc v then "d " else "w ") ++ concat (map (fun x => chars " " ++ show2 x ++ chars " ") (ld_N v)) ++ [10].
  (** LDA.cpp:314-320 on rank [r] with [from] = 0 and [k] = ndoc; lines 321-327 with [from] = ndoc and [k] = nterms *)
  Definition lda_print (m : machine (ld_vertex F) Z byte) (d : ld_vertex F) (from k : Z) (g : graph (ld_vertex F) Z byte) (r : Z) : R (list Z) :=
    do l <- mapR (fun i =>
        do o <- owns m g r (i + from) ;;
        if o : bool then do a <- read_property m g r (i + from) d ;; do a <- need a ;; Ok (lda_line (i + from) a) else Ok [])
      (zrange 1 (Z.min 5 k + 1)) ;;
    Ok (concat l).
  (** LDA.cpp:267-341 *)
  Definition lda_cmd (wide : Z -> Z) (ffuel : nat) (th : Z) (dir : dirt) (rnd : Z -> nat -> F) (alpha eta : F) (m : machine (ld_vertex F) Z byte) (fr : frame (list F) (list F) byte) (fr2 : frame (list F) F byte) (dt : list F) (dv fresh : ld_vertex F)
    (junk : Z -> nat -> F) (ndoc nterms niterations : Z) : R (list (list Z)) :=
    do q <- read_mtx (w_int wide) wide ffuel (m_nr m) dir ;;
    do p <- lda_topics lg K rnd alpha eta m th fr dt dv fresh junk ndoc nterms niterations (fst q) (snd q) ;;
    do t <- lda_total lg K eta m th fr2 dt dv nterms (fst p) (snd p) ;;
    mapR (fun r =>
      do a <- lda_print m fresh 0 ndoc (snd p) r ;;
      do b <- lda_print m fresh ndoc nterms (snd p) r ;;
      do x <- rd (snd t) r ;;
      Ok (a ++ b ++ (if r =? 0 then chars "Total Loglikelihood = " ++ show6 x ++ chars " " ++ [10] else []))) (zrange 0 (m_nr m)).
  (** LDA.cpp:377-391 *)
  Definition lda_main (wide : Z -> Z) (ffuel : nat) (th : Z) (disk : string -> dirt) (prog : string) rnd alpha eta (m : machine (ld_vertex F) Z byte) fr fr2 dt dv fresh junk (args : list string) : R (list (list Z)) :=
    match args with
    | a1 :: a2 :: a3 :: l => lda_cmd wide ffuel th (disk a1) rnd alpha eta m fr fr2 dt dv fresh junk (atoi wide a2) (atoi wide a3) (match l with a4 :: _ => atoi wide a4 | [] => 10 end)
    | _ => usage (m_nr m) prog " A.mtx #DOC #TERMS {#iterations (default 10)}"
    end.
End Lda.
