(** Properties of src/SGD.cpp (C69).  Notation as in PropsApps.v; what is computed is said in SgdSpec.v. *)
From Coq Require Import QArith Qcanon.
Local Open Scope Z_scope.
From Verif Require Import Base BaseLemmas Layout Reduce Segment DCSC MatSpec TileProofs SpMat Vec GraphVert Graph Runtime RunSpec GraphOps GraphHist.
From Verif Require Import RunFinal PropsMat Apps AppSpec RankSpec AppExample PropsApps PropsIncRank Sgd SgdSpec SgdProofs.

(** ** C69: stochastic gradient descent *)
(** With exact arithmetic: each vertex ends with the vector it gets by the given number of steps of
    [descend] from the initial vectors, all vertices moving at once; every rank gets as errors the sum
    of (weight - product of the vectors of the two ends)^2 over all edges, before and after. *)
Theorem C69_sgd_descends {byte} far K lambda step (m : machine (sg_vertex Qc) Z byte) n blobs th fr1 fr2 dt1 dt2 dv fresh init iterations :
  setting m n blobs -> threads_ok m (m_serv m) th -> frame_ok m th fr1 -> frame_ok m th fr2 -> 1 <= iterations ->
  let x := descent K (concat blobs) lambda step (Z.to_nat iterations) init in
  exists g P, run_sgd (qreals far) K lambda step m th fr1 fr2 dt1 dt2 dv fresh init iterations n blobs =
      Ok (g, map (fun _ => squared_error K (concat blobs) init) (zrange 0 (m_nr m)), map (fun _ => squared_error K (concat blobs) x) (zrange 0 (m_nr m))) /\
    shows_properties n m g P /\ forall v, 1 <= v <= n -> sg_lv (P v) = map (x v) (seq 0 K).
Proof. exact (fun H Ht H1 H2 => run_sgd_spec far K lambda step m n blobs H th fr1 fr2 dt1 dt2 dv fresh Ht H1 H2 init iterations). Qed.
Print Assumptions C69_sgd_descends.
(** A step goes against the gradient of [objective]: along every line through [x] the objective is a
    polynomial whose linear coefficient is -2 times the inner product of the line's direction with
    that of the step.  Parallel edges and self loops included. *)
Theorem C69_step_is_gradient K (es : list (edge Z)) n lambda x y : (forall e, In e es -> 1 <= e_src e <= n /\ 1 <= e_dst e <= n) ->
  exists a b c, forall t, objective K es n lambda (along_line x y t) =
    (objective K es n lambda x - (1 + 1) * t * inner K n (downhill K es lambda x) y + t * t * (a + t * b + t * t * c))%Qc.
Proof. exact (fun H => objective_line K es n H lambda x y). Qed.
Print Assumptions C69_step_is_gradient.

Definition ql_to (l : list Qc) : list Z := flat_map q_to l.
Fixpoint ql_of (l : list Z) : R (list Qc) :=
  match l with [] => Ok [] | a :: b :: r => do x <- q_of [a; b] ;; do y <- ql_of r ;; Ok (x :: y) | _ => Err Uninit end.
Lemma ql_ok l : ql_of (ql_to l) = Ok l.
Proof. induction l as [|q l IH]; [reflexivity|]. unfold ql_to in *. cbn [flat_map q_to app ql_of]. change [Qnum q; Z.pos (Qden q)] with (q_to q). rewrite q_ok. cbn [bind]. rewrite IH. reflexivity. Qed.
Definition sg_to (p : sg_vertex Qc) : list Z := ql_to (sg_err p :: sg_lv p).
Definition sg_of (l : list Z) : R (sg_vertex Qc) := do l <- ql_of l ;; match l with e :: l => Ok (mkSG l e) | [] => Err Uninit end.
Lemma sg_ok a : sg_of (sg_to a) = Ok a. Proof. unfold sg_of, sg_to. rewrite ql_ok. destruct a; reflexivity. Qed.
Definition axf_ll : frame (list Qc) (list Qc) (list Z) := ax_f ql_to ql_of ql_to ql_of true [].
Definition axf_lq : frame (list Qc) Qc (list Z) := ax_f ql_to ql_of q_to q_of true half.
(** two users rate two of three items; vectors of length 2, one step *)
Definition sg_blobs : list (list (edge Z)) := [[mkE 1 3 2; mkE 1 4 1]; [mkE 2 4 3; mkE 2 3 1]].
Definition sg_init (v : Z) (i : nat) : Qc := Q2Qc ((v + Z.of_nat i) # 4).
Definition sg_show (l : list (sg_vertex Qc)) : list (list Q) := map (fun p => map this (sg_lv p)) l.
Example C69_example : let m := ax_m sg_to sg_of true in
  (setting m 5 sg_blobs /\ threads_ok m (m_serv m) 3 /\ frame_ok m 3 axf_ll /\ frame_ok m 3 axf_lq) /\
  (do q <- run_sgd (qreals (fun _ _ => true)) 2 half half m 3 axf_ll axf_lq [] [] (mkSG [] half) (mkSG [half] half) sg_init 1 5 sg_blobs ;;
   do l <- ax_read m (fst (fst q)) (mkSG [] half) 5 ;; Ok (sg_show l, map this (snd (fst q)), map this (snd q))) 
  = Ok ([[95 # 128; 71 # 64]; [71 # 64; 189 # 128]; [89 # 128; 33 # 32]; [37 # 32; 199 # 128]; [5 # 4; 3 # 2]]%Q, [537 # 128; 537 # 128]%Q, [621443273 # 134217728; 621443273 # 134217728]%Q).
Proof.
  split; [|vm_compute; reflexivity]. split; [split; [apply ax_m_ok, sg_ok|]; split; [lia|]; split; [reflexivity|]; cbn; intuition subst; cbn; lia|].
  split; [split; [lia|reflexivity]|]. split; apply ax_f_ok; auto using ql_ok, q_ok.
Qed.
