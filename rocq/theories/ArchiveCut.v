(** Loading archives of tiles and vectors of which the end is missing. *)
From Verif Require Import BaseLemmas Segment DCSC DCSCFinal Tiles TileArchive Vec VecArchive.

Section Cut.
  Context {I : Type}.
  (** [kept] is [whole] without its end *)
  Definition cut_short (whole kept : list I) : Prop := exists item lost, whole = kept ++ item :: lost.
  (** a reader that gives the same when more items follow *)
  Definition steady {A} (get : list I -> R (A * list I)) : Prop := forall p y r q, get p = Ok (y, r) -> get (p ++ q) = Ok (y, r ++ q).
  Lemma cut_refused {A} (get : list I -> R (A * list I)) whole y kept : steady get -> get whole = Ok (y, []) -> cut_short whole kept -> exists e, get kept = Err e.
  Proof.
    intros S W (i & lost & ->). destruct (get kept) as [[z r]|e] eqn:G; [|eauto]. exfalso. apply (S _ _ _ (i :: lost)) in G. rewrite W in G. injection G as _ G. destruct r; discriminate G.
  Qed.
End Cut.
Ltac steps G := match goal with H : (do r <- ?g ;; _) = Ok _ |- _ => let a := fresh "a" in let p := fresh "p" in let Q := fresh "Q" in
  destruct g as [[a p]|] eqn:Q; [|discriminate H]; cbn [bind] in H; rewrite (G _ _ _ _ Q); cbn [bind] end.

Section Tiles.
  Context {E : Type}.
  Notation archive := (list (item E)).
  Lemma steady_int : steady (@get_int E).
  Proof. intros [|[z|v] p] y r q H; try discriminate. injection H as <- <-. reflexivity. Qed.
  Lemma steady_val : steady (@get_val E).
  Proof. intros [|[z|v] p] y r q H; try discriminate. injection H as <- <-. reflexivity. Qed.
  Lemma steady_many {A} (get : archive -> R (A * archive)) k : steady get -> steady (get_many get k).
  Proof.
    intros G. induction k as [|k IH]; intros p y r q H; [injection H as <- <-; reflexivity|]. cbn [get_many] in *.
    destruct (get p) as [[a p1]|] eqn:E1; [|discriminate]. cbn [bind snd fst] in H. destruct (get_many get k p1) as [[l p2]|] eqn:E2; [|discriminate]. cbn [bind snd fst] in H. injection H as <- <-.
    rewrite (G _ _ _ q E1). cbn [bind snd fst]. rewrite (IH _ _ _ q E2). reflexivity.
  Qed.
  Let ints k := steady_many get_int k steady_int.
  Let vals k := steady_many get_val k steady_val.
  Ltac finish := match goal with H : Ok _ = Ok _ |- _ => injection H as <- <-; reflexivity end.
  Lemma steady_dcsc : steady (@dcsc_load E).
  Proof. intros p y r q H. unfold dcsc_load in *. do 5 steps steady_int. destruct (0 <? a); [steps (vals (Z.to_nat a)); steps (ints (Z.to_nat a)); do 3 steps (ints (Z.to_nat (a3 + 1))); do 2 steps (ints (Z.to_nat a2))|]; finish. Qed.
  Lemma steady_coo : steady (@coo_load E).
  Proof. intros p y r q H. unfold coo_load in *. do 4 steps steady_int. destruct (0 <? a1); [steps (vals (Z.to_nat a1)); do 2 steps (ints (Z.to_nat a1)); steps (ints (Z.to_nat (a2 + 1)))|]; finish. Qed.
  Lemma steady_csr : steady (@csr_load E).
  Proof. intros p y r q H. unfold csr_load in *. do 3 steps steady_int. destruct (0 <? a1); [steps (vals (Z.to_nat a1)); steps (ints (Z.to_nat a1)); steps (ints (Z.to_nat (a + 1)))|]; finish. Qed.
  Lemma steady_dcsr : steady (@dcsr_load E).
  Proof. intros p y r q H. unfold dcsr_load in *. do 5 steps steady_int. destruct (0 <? a2); [steps (vals (Z.to_nat a2)); steps (ints (Z.to_nat a2)); steps (ints (Z.to_nat (a + 1))); steps (ints (Z.to_nat a1))|]; finish. Qed.
  Lemma steady_simd : steady (@simd_load E).
  Proof. intros p y r q H. unfold simd_load in *. do 4 steps steady_int. destruct (0 <? a1); [steps (vals (Z.to_nat a1)); do 2 steps (ints (Z.to_nat a1)); do 2 steps (ints (Z.to_nat (a2 + 1)))|]; finish. Qed.
  Lemma steady_hybrid : steady (@hybrid_load E).
  Proof. intros p y r q H. unfold hybrid_load in *. do 5 steps steady_int. destruct (0 <? a1); [steps steady_dcsr; steps steady_simd|]; finish. Qed.
End Tiles.

Section Vectors.
  Context {T byte : Type}.
  Notation archive := (list (vitem T byte)).
  Lemma stv_bool : steady (@take_bool T byte). Proof. intros [|[] p] y r q H; try discriminate. injection H as <- <-. reflexivity. Qed.
  Lemma stv_int : steady (@take_int T byte). Proof. intros [|[] p] y r q H; try discriminate. injection H as <- <-. reflexivity. Qed.
  Lemma stv_val : steady (@take_val T byte). Proof. intros [|[] p] y r q H; try discriminate. injection H as <- <-. reflexivity. Qed.
  Lemma stv_byte : steady (@take_byte T byte). Proof. intros [|[] p] y r q H; try discriminate. injection H as <- <-. reflexivity. Qed.
  Lemma stv_many {A} (take : archive -> R (A * archive)) k : steady take -> steady (take_many take k).
  Proof.
    intros G. induction k as [|k IH]; intros p y r q H; [injection H as <- <-; reflexivity|]. cbn [take_many] in *.
    destruct (take p) as [[a p1]|] eqn:E1; [|discriminate]. cbn [bind snd fst] in H. destruct (take_many take k p1) as [[l p2]|] eqn:E2; [|discriminate]. cbn [bind snd fst] in H. injection H as <- <-.
    rewrite (G _ _ _ q E1). cbn [bind snd fst]. rewrite (IH _ _ _ q E2). reflexivity.
  Qed.
  Lemma stv_array {A} (take : archive -> R (A * archive)) count : steady take -> steady (take_array take count).
  Proof. intros G p y r q H. unfold take_array in *. destruct (count <? 0); [discriminate|]. apply stv_many; auto. Qed.
  Lemma stv_list {A} (take : archive -> R (A * archive)) : steady take -> steady (take_list take).
  Proof. intros G p y r q H. unfold take_list in *. steps stv_int. apply stv_array; auto. Qed.
  Ltac finish := match goal with H : Ok _ = Ok _ |- _ => injection H as <- <-; reflexivity end.
  Lemma stv_buf : steady (@buf_restore T byte).
  Proof.
    intros p y r q H. unfold buf_restore in *. steps stv_bool. do 5 steps stv_int. steps (stv_array _ a1 stv_val). steps (stv_array _ a2 stv_int). steps (stv_array _ a1 stv_val). steps (stv_array _ a1 stv_int). steps (stv_array _ a3 stv_byte). do 2 steps (stv_array _ (a4 + 1) stv_int). finish.
  Qed.
  Lemma stv_md : steady (@take_md T byte).
  Proof. intros p y r q H. unfold take_md in *. do 3 steps stv_int. finish. Qed.
  Lemma stv_seg junk fresh : steady (@seg_restore T byte junk fresh).
  Proof.
    intros p y r q H. unfold seg_restore in *. steps stv_bool. do 2 steps stv_int. destruct a.
    - cbn [bind] in *. steps stv_md. steps (stv_list _ stv_md). do 2 steps (stv_list _ stv_buf). finish.
    - destruct (buf_restore p2) as [[b p3]|] eqn:Eb; [|discriminate H]. cbn [bind fst snd] in H. rewrite (stv_buf _ _ _ q Eb). cbn [bind fst snd]. steps stv_md. steps (stv_list _ stv_md). do 2 steps (stv_list _ stv_buf). finish.
  Qed.
  Lemma stv_vec junk fresh : steady (@vec_restore T byte junk fresh).
  Proof. intros p y r q H. unfold vec_restore in *. do 5 steps stv_int. do 2 steps (stv_list _ stv_int). steps (stv_list _ (stv_seg junk fresh)). finish. Qed.
End Vectors.
