(** Concrete machines for the examples about applications: values travel as lists of numbers. *)
From Verif Require Import Base BaseLemmas Layout Reduce Segment DCSC MatSpec TileProofs SpMat Vec GraphVert Graph Runtime RunSpec GraphOps GraphHist RunFinal PropsMat Apps AppSpec.

Section Codec.
  Context {A : Type}.
  Variables (to : A -> list Z) (of : list Z -> R A).
  Definition c_enc (l : list (Z * A)) : list (list Z) := map (fun p => fst p :: to (snd p)) l.
  Definition c_dec (l : list (list Z)) (k : Z) : R (list (Z * A)) := mapR (fun b => match b with i :: r => do v <- of r ;; Ok (i, v) | [] => Err Uninit end) l.
  Lemma c_ok : (forall a, of (to a) = Ok a) -> forall l, c_dec (c_enc l) (zlen l) = Ok l.
  Proof. intros H. induction l as [|[i a] l IH]; [reflexivity|]. unfold c_dec, c_enc in *. cbn [map mapR fst snd]. rewrite H. cbn [bind]. rewrite IH. reflexivity. Qed.
End Codec.
Definition z_to (z : Z) : list Z := [z].
Definition z_of (l : list Z) : R Z := match l with [z] => Ok z | _ => Err Uninit end.
Definition ax_m {V} (to : V -> list Z) of (ser : bool) : machine V Z (list Z) :=
  mkMach 2 3 isort ksort (fun _ _ _ => 7) (fun _ _ _ => 8) (fun _ => 9) (fun _ => 10) None (Some true) ser (c_enc to) (c_dec of).
Definition ax_f {T U} (tot : T -> list Z) oft (tou : U -> list Z) ofu (ser : bool) (du : U) : frame T U (list Z) :=
  mkF ser ser (c_enc tot) (c_dec oft) (c_enc tou) (c_dec ofu) (fun _ => 4) (fun _ => 5) None None du.
Lemma ax_m_ok {V} (to : V -> list Z) of ser : (forall a, of (to a) = Ok a) -> machine_ok (ax_m to of ser).
Proof. intros H. split; [cbn; lia|]. split; [cbn; lia|]. split; [apply isort_sorts|]. split; [apply ksort_sorts|]. apply c_ok; auto. Qed.
Lemma ax_f_ok {V T U} (tov : V -> list Z) ofv (tot : T -> list Z) oft (tou : U -> list Z) ofu ser serv du : (forall a, oft (tot a) = Ok a) -> (forall a, ofu (tou a) = Ok a) ->
  frame_ok (ax_m tov ofv serv) 3 (ax_f tot oft tou ofu ser du).
Proof. intros Ht Hu. split; [split; [lia|reflexivity]|]. split; [split; [lia|reflexivity]|]. split; apply c_ok; auto. Qed.
(** what the owner of each vertex reads *)
Definition ax_read {V} (m : machine V Z (list Z)) (g : graph V Z (list Z)) (d : V) (n : Z) : R (list V) :=
  mapR (fun v => do rs <- mapR (fun r => do o <- owns m g r v ;; do a <- read_property m g r v d ;; do a <- need a ;; Ok (if o : bool then [a] else [])) (zrange 0 (m_nr m)) ;;
                 match concat rs with [a] => Ok a | _ => Err Uninit end) (zrange 1 (n + 1)).
