(** Proofs about Mem.v, continued: whole histories of lists, tiles, vectors and graphs. *)
From Verif Require Import Base BaseLemmas Segment DCSC EdgeList Mem MemSpec MemProofs.

Lemma holds_live : forall h, heap_ok h -> holds h (h_live h).
Proof. intros h (A & B). split; [exact A|]. split; [reflexivity|exact B]. Qed.
Lemma holds_ok : forall h L, holds h L -> heap_ok h.
Proof. intros h L (A & B & C). split; assumption. Qed.
Lemma holds_is : forall h L, holds h L -> Permutation (h_live h) L.
Proof. intros h L (A & B & C). exact B. Qed.
Lemma clean_of_wp : forall A (m : M A), (forall F, wp never m F (fun _ L => Permutation L F)) -> clean m.
Proof.
  intros A m W h H. specialize (W (h_live h) h (holds_live h H)). destruct (m h) as [[a h']|e]; [|contradiction].
  destruct W as (L & HL & P). exists a, h'. split; [reflexivity|]. split; [eapply holds_ok; exact HL|]. rewrite (holds_is _ _ HL). exact P.
Qed.
Lemma leaves_of_wp : forall A n (m : M A), (forall F, wp never m F (fun _ L => exists K, length K = n /\ Permutation L (K ++ F))) -> leaves n m.
Proof.
  intros A n m W h H. specialize (W (h_live h) h (holds_live h H)). destruct (m h) as [[a h']|e]; [|contradiction].
  destruct W as (L & HL & K & N & P). exists a, h', K. split; [reflexivity|]. split; [eapply holds_ok; exact HL|]. split; [exact N|].
  rewrite (holds_is _ _ HL). exact P.
Qed.

(** ** code that does not break a precondition; nothing is said about memory *)
Definition nm {A} (m : M A) (Q : A -> Prop) : Prop := forall h, match m h with Ok (a, _) => Q a | Err e => ~ misuse e end.
Lemma nm_ret : forall A (a : A) (Q : A -> Prop), Q a -> nm (ret a) Q.
Proof. intros A a Q H h. exact H. Qed.
Lemma nm_bind : forall A B (m : M A) (f : A -> M B) Q, nm m (fun a => nm (f a) Q) -> nm (bindM m f) Q.
Proof.
  intros A B m f Q H h. unfold bindM. specialize (H h). destruct (m h) as [[a h']|e]; [apply H|exact H].
Qed.
Lemma nm_conseq : forall A (m : M A) (Q Q' : A -> Prop), nm m Q -> (forall a, Q a -> Q' a) -> nm m Q'.
Proof. intros A m Q Q' H I h. specialize (H h). destruct (m h) as [[a h']|e]; [apply I; exact H|exact H]. Qed.
Lemma nm_request : forall k (Q : ptr -> Prop), (forall p, Q p) -> nm (request k) Q.
Proof. intros k Q H h. apply H. Qed.
Lemma nm_give : forall k p (Q : unit -> Prop), Q tt -> nm (give_back k p) Q.
Proof.
  intros k p Q H h. unfold give_back. destruct p; [exact H| |unfold misuse; intros [X|[X|X]]; discriminate].
  destruct (take_out b (h_live h)) as [[k' l]|]; [|unfold misuse; intros [X|[X|X]]; discriminate].
  destruct (kind_eqb k k'); [exact H|unfold misuse; intros [X|[X|X]]; discriminate].
Qed.
Lemma nm_each : forall A B (f : A -> M B) (P : B -> Prop) l, (forall a, In a l -> nm (f a) P) -> nm (eachM f l) (fun bs => Forall P bs /\ length bs = length l).
Proof.
  induction l as [|a l IH]; intro H; cbn [eachM].
  - apply nm_ret. split; [constructor|reflexivity].
  - apply nm_bind. eapply nm_conseq; [apply H; left; reflexivity|]. cbn beta. intros b Hb. apply nm_bind.
    eapply nm_conseq; [apply IH; intros; apply H; right; assumption|]. cbn beta. intros bs (Hbs & N). apply nm_ret.
    split; [constructor; assumption|cbn; rewrite N; reflexivity].
Qed.
Lemma nm_each_any : forall A B (f : A -> M B) (Q : list B -> Prop) l, (forall a, nm (f a) (fun _ => True)) -> (forall bs, Q bs) -> nm (eachM f l) Q.
Proof. intros. eapply nm_conseq; [apply nm_each; intros; apply H|]. intros. apply H0. Qed.
Lemma nm_ok : forall A n (m : M A), nm m (fun _ => True) ->
  (forall F, wp misuse m F (fun _ L => exists K, length K = n /\ Permutation L (K ++ F))) -> leaves n m.
Proof.
  intros A n m N W. apply leaves_of_wp. intros F h H. specialize (W F h H). specialize (N h). destruct (m h) as [[a h']|e]; [exact W|contradiction].
Qed.
Ltac nmstep :=
  lazymatch goal with
  | |- nm (bindM _ _) _ => apply nm_bind
  | |- nm (ret _) _ => apply nm_ret
  | |- nm (request _) _ => apply nm_request; intro
  | |- nm (give_back _ _) _ => apply nm_give
  | |- nm (match ?x with _ => _ end) _ => destruct x
  | |- nm (eachM _ _) _ => apply nm_each_any; [intro|intro]
  end.
Ltac nms := unfold mm_malloc, mm_free, new_array, delete_array, new_object, delete_object in *; repeat (cbn beta; nmstep); cbn beta.

(** the parts that cannot break a precondition *)
Lemma nm_buf_new : nm buf_new (fun _ => True). Proof. unfold buf_new. nms. exact I. Qed.
Lemma nm_buf_alloc_serialized : forall b, nm (buf_alloc_serialized b) (fun _ => True). Proof. intro. unfold buf_alloc_serialized. nms. exact I. Qed.
Lemma nm_buf_decompress : forall ser b, nm (buf_decompress ser b) (fun _ => True). Proof. intros. unfold buf_decompress. nms; exact I. Qed.
Lemma nm_buf_receive : forall ser b, nm (buf_receive ser b) (fun _ => True).
Proof. intros [] b; cbn; [apply nm_buf_alloc_serialized|apply nm_ret; exact I]. Qed.
Lemma nm_buf_compress : forall ser b, nm (buf_compress ser b) (fun _ => True).
Proof.
  intros [] b; unfold buf_compress; nms; [|exact I]. eapply nm_conseq; [apply nm_buf_alloc_serialized|]. cbn beta. intros. nms. exact I.
Qed.
Lemma nm_buf_delete : forall b, nm (buf_delete b) (fun _ => True). Proof. intros. unfold buf_delete. nms. exact I. Qed.
Lemma nm_seg_delete : forall s, nm (seg_delete s) (fun _ => True).
Proof.
  intro s. unfold seg_delete. nms; try exact I; try (eapply nm_conseq; [apply nm_buf_delete|]; cbn beta; intros); nms; try exact I; apply nm_buf_delete.
Qed.
Lemma nm_mvec_delete : forall v, nm (mvec_delete v) (fun _ => True).
Proof. intro v. unfold mvec_delete. nms; [apply nm_seg_delete|exact I]. Qed.

Definition stored (s : mseg) : Prop := sg_properties s <> None.
Lemma nm_seg_alloc : forall s, nm (seg_alloc s) (fun r => stored (fst r)).
Proof.
  intro s. unfold seg_alloc, stored. destruct (sg_properties s) as [b|] eqn:EB.
  - nms. cbn [fst]. rewrite EB. discriminate.
  - nms. eapply nm_conseq; [apply nm_buf_new|]. cbn beta. intros. nms. cbn. discriminate.
Qed.
Lemma nm_seg_op : forall s o, (needs o = true -> stored s) -> nm (seg_op s o) (fun s' => (stored s -> stored s') /\ (makes o = true -> stored s')).
Proof.
  intros s o H. destruct o as [|ser squeeze|ser squeeze| |ser|ser|ser]; cbn [seg_op needs] in *.
  - nms. eapply nm_conseq; [apply nm_seg_alloc|]. cbn beta. intros r Hr. nms. auto.
  - nms. eapply nm_conseq; [apply nm_seg_alloc|]. cbn beta. intros r Hr. destruct squeeze.
    + nms. eapply nm_conseq; [apply nm_buf_compress|]. cbn beta. intros. nms. unfold stored; cbn; split; discriminate.
    + nms. auto.
  - specialize (H eq_refl). unfold stored in *. destruct (sg_properties s) as [b|] eqn:EB; [|contradiction].
    destruct squeeze.
    + nms. eapply nm_conseq; [apply nm_buf_decompress|]. cbn beta. intros. nms. cbn; split; discriminate.
    + nms. rewrite EB. split; discriminate.
  - nms. unfold stored; cbn. split; [auto|discriminate].
  - destruct (rev (sg_uninitialized s)) as [|b l].
    + nms. eapply nm_conseq; [apply nm_buf_new|]. cbn beta. intros b _. nms. eapply nm_conseq; [apply nm_buf_receive|]. cbn beta. intros. nms.
      unfold stored; cbn. split; [auto|discriminate].
    + nms. eapply nm_conseq; [apply nm_buf_receive|]. cbn beta. intros. nms. unfold stored; cbn. split; [auto|discriminate].
  - specialize (H eq_refl). unfold stored in *. destruct (sg_properties s) as [b|] eqn:EB; [|contradiction].
    nms. eapply nm_conseq; [apply nm_buf_receive|]. cbn beta. intros. nms. cbn; split; discriminate.
  - nms. eapply nm_conseq; [apply nm_seg_alloc|]. cbn beta. intros r Hr. destruct ser.
    + nms; [apply nm_buf_decompress|]. unfold stored; cbn; split; discriminate.
    + nms. unfold stored; cbn; split; discriminate.
Qed.
Lemma nm_on_seg : forall f (P : mseg -> mseg -> Prop) k ss s0, nth_error ss k = Some s0 -> nm (f s0) (P s0) ->
  nm (on_seg f k ss) (fun ss' => length ss' = length ss /\ (exists s1, nth_error ss' k = Some s1 /\ P s0 s1) /\ forall j, j <> k -> nth_error ss' j = nth_error ss j).
Proof.
  intros f P. induction k as [|k IH]; intros [|s ss] s0 H Hf; cbn in H; try discriminate; cbn [on_seg].
  - inversion H; subst. nms. eapply nm_conseq; [exact Hf|]. cbn beta. intros s1 H1. nms. split; [reflexivity|]. split; [exists s1; auto|].
    intros [|j] N; [contradiction|reflexivity].
  - nms. eapply nm_conseq; [eapply IH; eassumption|]. cbn beta. intros ss' (N & H1 & H2). nms. split; [cbn; rewrite N; reflexivity|]. split; [exact H1|].
    intros [|j] Nj; [reflexivity|]. cbn. apply H2. intro. subst. contradiction.
Qed.
Definition ready (nseg : nat) (mine : list nat) (ss : list mseg) : Prop :=
  length ss = nseg /\ forall k s, In k mine -> nth_error ss k = Some s -> stored s.
Lemma nm_one : forall nseg mine ss k o, ready nseg mine ss -> (k < nseg)%nat -> (needs o = true -> In k mine) ->
  nm (on_seg (fun s => seg_op s o) k ss) (fun ss' => ready nseg mine ss' /\ (makes o = true -> ready nseg (k :: mine) ss')).
Proof.
  intros nseg mine ss k o (N & H) Hk Hn. destruct (nth_error ss k) as [s0|] eqn:E0; [|apply nth_error_None in E0; lia].
  eapply nm_conseq; [apply nm_on_seg with (P := fun s s' => (stored s -> stored s') /\ (makes o = true -> stored s')); [exact E0|]|].
  - apply nm_seg_op. intro Q. exact (H k s0 (Hn Q) E0).
  - cbn beta. intros ss' (N' & (s1 & E1 & P1 & P2) & Other). split.
    + split; [congruence|]. intros j s Hj Es. destruct (Nat.eq_dec j k) as [->|D].
      * rewrite E1 in Es. inversion Es; subst. apply P1. exact (H k s0 Hj E0).
      * rewrite Other in Es by exact D. exact (H j s Hj Es).
    + intro Q. split; [congruence|]. intros j s Hj Es. destruct (Nat.eq_dec j k) as [->|D].
      * rewrite E1 in Es. inversion Es; subst. apply P2. exact Q.
      * rewrite Other in Es by exact D. destruct Hj as [Hj|Hj]; [congruence|]. exact (H j s Hj Es).
Qed.
Definition vready (nseg : nat) (mine : list nat) (v : mvec) : Prop := ready nseg mine (vc_segments v).
Lemma nm_mvec_ops : forall nseg mine ops v, vready nseg mine v -> fits nseg mine ops -> nm (mvec_ops ops v) (vready nseg mine).
Proof.
  intros nseg mine ops v H F. unfold mvec_ops, vready in *. apply nm_bind. eapply nm_conseq with (Q := ready nseg mine).
  - revert H F. generalize (vc_segments v). induction ops as [|[k o] ops IH]; intros ss H F; cbn [foldM fst snd].
    + apply nm_ret. exact H.
    + destruct (F k o (or_introl eq_refl)) as (F1 & F2). apply nm_bind.
      eapply nm_conseq; [apply nm_one; eassumption|]. cbn beta. intros ss' (H' & _). apply IH; [exact H'|].
      intros k' o' I'. apply F. right. exact I'.
  - cbn beta. intros ss' H'. apply nm_ret. exact H'.
Qed.
Lemma nm_mvec_new : forall nseg, nm (mvec_new nseg) (vready nseg []).
Proof.
  intro nseg. unfold mvec_new, new_object. apply nm_bind, nm_request. intro p. apply nm_bind. eapply nm_conseq; [apply nm_each with (P := fun _ => True); intros; unfold seg_new; nms; exact I|].
  cbn beta. intros ss (_ & N). nms. unfold vready, ready. cbn. split; [rewrite N; apply seq_length|]. intros k s [].
Qed.
Lemma nm_mvec_setAll : forall nseg mine m0 v, Forall (fun k => (k < nseg)%nat) mine -> vready nseg m0 v -> nm (mvec_setAll mine v) (vready nseg (rev mine ++ m0)).
Proof.
  intros nseg mine m0 v F H. unfold mvec_setAll, mvec_ops, vready in *. apply nm_bind. eapply nm_conseq with (Q := ready nseg (rev mine ++ m0)).
  - revert m0 H. generalize (vc_segments v). induction mine as [|k mine IH]; intros ss m0 H; cbn [map foldM fst snd].
    + apply nm_ret. exact H.
    + inversion F; subst. apply nm_bind. eapply nm_conseq; [apply nm_one with (mine := m0); [exact H|assumption|discriminate]|].
      cbn beta. intros ss' (_ & H'). cbn [rev]. rewrite <- app_assoc. apply IH; [assumption|]. apply H'. reflexivity.
  - cbn beta. intros ss' H'. apply nm_ret. exact H'.
Qed.
Lemma nm_made : forall nseg mine, Forall (fun k => (k < nseg)%nat) mine ->
  nm (v <~ mvec_new nseg ;; mvec_setAll mine v) (vready nseg mine).
Proof.
  intros nseg mine F. apply nm_bind. eapply nm_conseq; [apply nm_mvec_new|]. cbn beta. intros v H.
  eapply nm_conseq; [apply nm_mvec_setAll; eassumption|]. cbn beta. intros v' (N & H'). split; [exact N|].
  intros k s I Es. apply (H' k s); [|exact Es]. apply in_or_app. left. apply in_rev in I. exact I.
Qed.
Lemma nm_made_then : forall nseg mine B (f : mvec -> M B) Q, Forall (fun k => (k < nseg)%nat) mine ->
  (forall v, vready nseg mine v -> nm (f v) Q) -> nm (v <~ mvec_new nseg ;; v <~ mvec_setAll mine v ;; f v) Q.
Proof.
  intros nseg mine B f Q F H h. assert (N := nm_made nseg mine F h). unfold bindM in *.
  destruct (mvec_new nseg h) as [[v h1]|e]; [|exact N]. destruct (mvec_setAll mine v h1) as [[v1 h2]|e]; [|exact N]. apply H. exact N.
Qed.

(** tiles and matrices cannot break a precondition either *)
Lemma nm_dcsc_build : forall n, nm (dcsc_build n) (fun _ => True). Proof. intros. unfold dcsc_build. nms; exact I. Qed.
Lemma nm_dcsc_load : forall n, nm (dcsc_load n) (fun _ => True). Proof. intros. unfold dcsc_load. nms; exact I. Qed.
Lemma nm_dcsc_destroy : forall t, nm (dcsc_destroy t) (fun _ => True). Proof. intros. unfold dcsc_destroy. nms; exact I. Qed.
Lemma nm_mat_build : forall nr counts, nm (mat_build nr counts) (fun _ => True).
Proof.
  intros nr counts. unfold mat_build. apply nm_bind. eapply nm_conseq with (Q := fun _ => True).
  - nms; exact I.
  - cbn beta. intros p _. nms; try exact I. eapply nm_conseq; [apply nm_dcsc_build|]. cbn beta. intros. nms. exact I.
Qed.

Lemma nm_mat_load : forall counts, nm (mat_load counts) (fun _ => True).
Proof. intros. unfold mat_load. nms; try exact I. eapply nm_conseq; [apply nm_dcsc_load|]. cbn beta. intros. nms. exact I. Qed.
Lemma nm_mat_transpose : forall nr counts m, nm (mat_transpose nr counts m) (fun _ => True).
Proof.
  intros. unfold mat_transpose. apply nm_bind. eapply nm_conseq with (Q := fun _ => True); [nms; exact I|]. cbn beta. intros p _.
  nms. eapply nm_conseq; [apply nm_mat_build|]. cbn beta. intros t _. nms; exact I.
Qed.
Lemma nm_mat_destroy : forall m, nm (mat_destroy m) (fun _ => True).
Proof.
  intro m. unfold mat_destroy, tile_delete. nms; try exact I; (eapply nm_conseq; [apply nm_dcsc_destroy|]; cbn beta; intros; nms; exact I).
Qed.
Lemma nm_mat_delete : forall m, nm (mat_delete m) (fun _ => True).
Proof. intro m. unfold mat_delete. nms. eapply nm_conseq; [apply nm_mat_destroy|]. cbn beta. intros. nms. exact I. Qed.

(** ** graphs *)
Section GRAPHS.
  Variables (nr nseg : nat) (mine : list nat).
  Hypothesis MINE : Forall (fun k => (k < nseg)%nat) mine.
  Definition gready (g : mgraph) : Prop :=
    (mg_A g <> None /\ mg_AT g <> None) /\ (exists v, mg_vp g = Some v /\ vready nseg mine v) /\ (exists v, mg_active g = Some v /\ vready nseg mine v).
  Lemma nm_mg_vectors : nm (mg_vectors nseg mine) (fun r => vready nseg mine (fst r) /\ vready nseg mine (snd r)).
  Proof.
    unfold mg_vectors. apply nm_bind. eapply nm_conseq; [apply nm_mvec_new|]. cbn beta. intros v Hv. unfold new_object. apply nm_bind, nm_request. intro p.
    apply nm_bind. eapply nm_conseq; [apply nm_mvec_setAll; eassumption|]. cbn beta. intros v1 H1. unfold delete_object. apply nm_bind, nm_give.
    apply nm_made_then; [exact MINE|]. intros a Ha. apply nm_ret. cbn [fst snd]. split; [|exact Ha].
    destruct H1 as (N & H1). split; [exact N|]. intros k s J Es. apply (H1 k s); [|exact Es]. apply in_or_app. left. apply in_rev in J. exact J.
  Qed.
  Lemma nm_ReadEdgelist : forall z cA cT g, nm (mg_ReadEdgelist z nseg mine cA cT g) gready.
  Proof.
    intros. unfold mg_ReadEdgelist, new_object. apply nm_bind, nm_request. intro o. apply nm_bind. eapply nm_conseq; [apply nm_mat_build|]. cbn beta. intros a _.
    apply nm_bind. eapply nm_conseq; [apply nm_mat_transpose|]. cbn beta. intros t _. apply nm_bind. eapply nm_conseq; [apply nm_mg_vectors|]. cbn beta.
    intros vs (H1 & H2). apply nm_ret. split; [split; discriminate|]. split; [exists (fst vs)|exists (snd vs)]; auto.
  Qed.
  Lemma nm_clear : forall E (l : mlist E), nm (ml_clear l) (fun _ => True).
  Proof. intros. unfold ml_clear. nms; exact I. Qed.
  Lemma nm_load : forall l g, nm (load_graph nr nseg mine l g) gready.
  Proof.
    intros [a t|nnz a t|a t] g; cbn [load_graph].
    - apply nm_ReadEdgelist.
    - unfold mg_ReadMTX, ml_load_edgelist, mm_malloc. apply nm_bind, nm_bind, nm_request. intro p. apply nm_ret. apply nm_bind.
      eapply nm_conseq; [apply nm_ReadEdgelist|]. cbn beta. intros g' H. apply nm_bind. eapply nm_conseq; [apply nm_clear|]. cbn beta. intros _ _.
      apply nm_ret. exact H.
    - unfold mg_ReadGraphMatBin, new_object. apply nm_bind, nm_request. intro o. apply nm_bind. eapply nm_conseq; [apply nm_mat_load|]. cbn beta. intros a1 _.
      apply nm_bind, nm_request. intro o1. apply nm_bind. eapply nm_conseq; [apply nm_mat_load|]. cbn beta. intros t1 _.
      apply nm_bind. eapply nm_conseq; [apply nm_mg_vectors|]. cbn beta.
      intros vs (H1 & H2). apply nm_ret. split; [split; discriminate|]. split; [exists (fst vs)|exists (snd vs)]; auto.
  Qed.
  Lemma nm_destroy : forall g, nm (mg_destroy g) (fun _ => True).
  Proof.
    intros [a t v c]. unfold mg_destroy. cbn [mg_A mg_AT mg_vp mg_active].
    apply nm_bind. eapply nm_conseq with (Q := fun _ => True); [destruct a; [apply nm_mat_delete|apply nm_ret; exact I]|]. cbn beta. intros _ _.
    apply nm_bind. eapply nm_conseq with (Q := fun _ => True); [destruct t; [apply nm_mat_delete|apply nm_ret; exact I]|]. cbn beta. intros _ _.
    apply nm_bind. eapply nm_conseq with (Q := fun _ => True); [destruct v; [apply nm_mvec_delete|apply nm_ret; exact I]|]. cbn beta. intros _ _.
    destruct c; [apply nm_mvec_delete|apply nm_ret; exact I].
  Qed.
  Lemma nm_onv : forall v ops, (exists w, v = Some w /\ vready nseg mine w) -> fits nseg mine ops ->
    nm (onv v ops) (fun v' => exists w, v' = Some w /\ vready nseg mine w).
  Proof.
    intros v ops (w & -> & H) F. cbn [onv]. apply nm_bind. eapply nm_conseq; [apply nm_mvec_ops; eassumption|]. cbn beta. intros w' H'. apply nm_ret. eauto.
  Qed.
  Definition wready (w : mvec * mvec) : Prop := vready nseg mine (fst w) /\ vready nseg mine (snd w).
  Lemma nm_part : forall s p, gready (fst s) -> wready (snd s) -> fits nseg mine (part_ops p) ->
    nm (do_part s p) (fun s' => gready (fst s') /\ wready (snd s')).
  Proof.
    intros [[a t v c] [x y]] p (GA & GV & GC) (WX & WY) F. cbn [fst snd mg_A mg_AT mg_vp mg_active] in *.
    destruct p as [ops|ops|ops|ops]; cbn [part_ops do_part mg_A mg_AT mg_vp mg_active] in *; apply nm_bind.
    - eapply nm_conseq; [apply nm_onv; eassumption|]. cbn beta. intros v' H. apply nm_ret. split; [split; [exact GA|split; assumption]|split; assumption].
    - eapply nm_conseq; [apply nm_onv; eassumption|]. cbn beta. intros v' H. apply nm_ret. split; [split; [exact GA|split; assumption]|split; assumption].
    - eapply nm_conseq; [apply nm_mvec_ops; eassumption|]. cbn beta. intros v' H. apply nm_ret. split; [split; [exact GA|split; assumption]|split; assumption].
    - eapply nm_conseq; [apply nm_mvec_ops; eassumption|]. cbn beta. intros v' H. apply nm_ret. split; [split; [exact GA|split; assumption]|split; assumption].
  Qed.
  Lemma nm_parts : forall ps s, gready (fst s) -> wready (snd s) -> Forall (fun p => fits nseg mine (part_ops p)) ps ->
    nm (foldM do_part ps s) (fun s' => gready (fst s') /\ wready (snd s')).
  Proof.
    induction ps as [|p ps IH]; intros s G W F; cbn [foldM].
    - apply nm_ret. auto.
    - inversion F; subst. apply nm_bind. eapply nm_conseq; [apply nm_part; assumption|]. cbn beta. intros s' (G' & W'). apply IH; assumption.
  Qed.
  Lemma nm_new_space : nm (new_space nseg mine) wready.
  Proof.
    unfold new_space. apply nm_made_then; [exact MINE|]. intros x Hx. apply nm_made_then; [exact MINE|]. intros y Hy. apply nm_ret. split; assumption.
  Qed.
  Lemma nm_delete_space : forall w, nm (delete_space w) (fun _ => True).
  Proof. intro w. unfold delete_space. apply nm_bind. eapply nm_conseq; [apply nm_mvec_delete|]. cbn beta. intros _ _. apply nm_mvec_delete. Qed.
  Definition sready (there : bool) (s : mstate) : Prop :=
    gready (ms_graph s) /\ match ms_space s with Some w => there = true /\ wready w | None => there = false end.
  Lemma nm_ml_get : forall E (r : elist E) l, nm (ml_get_edges r l) (fun _ => True).
  Proof. intros. unfold ml_get_edges. nms; exact I. Qed.
  Lemma nm_ingest : forall new_nnz touched v, vready nseg [] v -> Forall (fun k => (k < nseg)%nat) touched ->
    nm (mvec_ingest nr new_nnz touched v) (fun _ => True).
  Proof.
    intros new_nnz touched v H F.
    assert (FT : fits nseg [] (map (fun k => (k, MTouch)) touched)).
    { intros k o J. apply in_map_iff in J. destruct J as (k' & Q & J). inversion Q; subst. split; [rewrite Forall_forall in F; auto|discriminate]. }
    unfold mvec_ingest. nms; try exact I; (eapply nm_conseq; [eapply nm_mvec_ops; [exact H|exact FT]|]); cbn beta; intros; nms; exact I.
  Qed.
  Lemma nm_act : forall there s a, sready there s -> act_fits nseg mine a ->
    match a with AInit => there = false | ARunWith _ | AClear => there = true | _ => True end ->
    nm (act nr nseg mine s a) (sready (has_space there a)).
  Proof.
    intros there [g w] a (G & W) F O. cbn [ms_graph ms_space] in *.
    destruct a as [p q|ps| |ps| |here new_nnz touched| |]; cbn [act ms_graph ms_space has_space act_fits] in *.
    - destruct G as (GA & GV & GC). destruct F as (F1 & F2). apply nm_bind. eapply nm_conseq; [apply nm_onv; eassumption|]. cbn beta. intros v' H'.
      apply nm_bind. eapply nm_conseq; [apply nm_onv; eassumption|]. cbn beta. intros c' Hc. apply nm_ret. split; [split; [exact GA|split; assumption]|exact W].
    - unfold run_program. cbn [ms_graph ms_space]. apply nm_bind. eapply nm_conseq; [apply nm_new_space|]. cbn beta. intros w1 H1. apply nm_bind.
      eapply nm_conseq; [apply nm_parts; eassumption|]. cbn beta. intros s' (G' & W'). apply nm_bind. eapply nm_conseq; [apply nm_delete_space|]. cbn beta. intros _ _.
      apply nm_ret. split; [exact G'|exact W].
    - apply nm_bind. eapply nm_conseq; [apply nm_new_space|]. cbn beta. intros w1 H1. apply nm_ret. split; [exact G|split; [reflexivity|exact H1]].
    - subst there. destruct w as [w|]; [|discriminate]. destruct W as (_ & W). unfold run_program. cbn [ms_graph ms_space]. apply nm_bind.
      eapply nm_conseq; [apply nm_parts; eassumption|]. cbn beta. intros s' (G' & W'). apply nm_ret. split; [exact G'|split; [reflexivity|exact W']].
    - subst there. destruct w as [w|]; [|discriminate]. apply nm_bind. eapply nm_conseq; [apply nm_delete_space|]. cbn beta. intros _ _. apply nm_ret.
      split; [exact G|reflexivity].
    - apply nm_bind. eapply nm_conseq with (Q := fun _ => True); [|cbn beta; intros _ _; apply nm_ret; split; [exact G|exact W]].
      unfold mg_saveVertexproperty. destruct G as (_ & (v & -> & _) & _). apply nm_bind. eapply nm_conseq; [apply nm_ml_get|]. cbn beta. intros l _.
      apply nm_bind. eapply nm_conseq; [apply nm_mvec_new|]. cbn beta. intros v1 H1. apply nm_bind. eapply nm_conseq; [apply nm_ingest; eassumption|]. cbn beta. intros v2 _.
      apply nm_bind. eapply nm_conseq; [apply nm_clear|]. cbn beta. intros _ _. apply nm_mvec_delete.
    - apply nm_bind. eapply nm_conseq with (Q := fun _ => True); [|cbn beta; intros _ _; apply nm_ret; split; [exact G|exact W]].
      unfold mg_getEdgelist. destruct G as ((GA & _) & _). destruct (mg_A g) as [a|]; [|contradiction]. apply nm_bind. eapply nm_conseq; [apply nm_ml_get|]. cbn beta. intros l _.
      apply nm_bind. eapply nm_conseq; [apply nm_clear|]. cbn beta. intros _ _. apply nm_ret. exact I.
    - apply nm_bind. eapply nm_conseq with (Q := fun _ => True); [|cbn beta; intros _ _; apply nm_ret; split; [exact G|exact W]].
      unfold mg_applyReduceAllVertices. destruct G as (_ & (v & -> & _) & _). nms; exact I.
  Qed.
  Lemma orderly_step : forall there a acts, orderly there (a :: acts) ->
    match a with AInit => there = false | ARunWith _ | AClear => there = true | _ => True end /\ orderly (has_space there a) acts.
  Proof. intros there a acts H. destruct a; cbn in *; try (split; [exact I|exact H]); destruct H as (-> & H); auto. Qed.
  Lemma nm_acts : forall acts there s, sready there s -> Forall (act_fits nseg mine) acts -> orderly there acts ->
    nm (foldM (act nr nseg mine) acts s) (fun _ => True).
  Proof.
    induction acts as [|a acts IH]; intros there s S F O; cbn [foldM].
    - apply nm_ret. exact I.
    - inversion F; subst. apply orderly_step in O. destruct O as (O1 & O2). apply nm_bind.
      eapply nm_conseq; [apply nm_act; eassumption|]. cbn beta. intros s' S'. eapply IH; eassumption.
  Qed.
  Lemma nm_life : forall l acts, Forall (act_fits nseg mine) acts -> orderly false acts -> nm (life nr nseg mine l acts) (fun _ => True).
  Proof.
    intros l acts F O. unfold life. apply nm_bind. eapply nm_conseq; [apply nm_load|]. cbn beta. intros g G. apply nm_bind.
    eapply nm_conseq; [eapply nm_acts; [|exact F|exact O]|]; [split; [exact G|reflexivity]|]. cbn beta. intros s _. apply nm_destroy.
  Qed.

  (** what stays behind *)
  Lemma acts_wp : forall acts there s O F, state_owns s O -> spaced s = there -> orderly there acts ->
    wp misuse (foldM (act nr nseg mine) acts s) (O ++ F)
       (fun s' L => ms_space s' = None /\ exists O' K, state_owns s' O' /\ length K = acts_leave acts /\ Permutation L (O' ++ K ++ F)).
  Proof.
    induction acts as [|a acts IH]; intros there s O F HO HT HR; cbn [foldM acts_leave].
    - apply wp_ret. cbn in HR. subst there. split; [unfold spaced in HR; destruct (ms_space s); [discriminate|reflexivity]|].
      exists O, []. split; [exact HO|]. split; [reflexivity|]. reflexivity.
    - apply orderly_step in HR. destruct HR as (HR1 & HR2). apply wp_bind. eapply wp_conseq; [apply act_wp; [exact HO|]|].
      + destruct a; cbn; try exact I. unfold spaced in HT. destruct (ms_space s); [congruence|reflexivity].
      + cbn beta. intros s' L (Sp & O' & K & HO' & N & P). eapply wp_perm; [exact P|]. eapply wp_conseq; [eapply IH; [exact HO'|exact Sp|]|].
        * rewrite HT. exact HR2.
        * cbn beta. intros s2 L2 (S2 & O2 & K2 & HO2 & N2 & P2). split; [exact S2|]. exists O2, (K2 ++ K). split; [exact HO2|].
          split; [rewrite app_length, N2, N; unfold act_keeps, act_leaves, ingest_keeps, save_leaves; destruct a; lia|]. perm.
  Qed.
  Lemma life_wp : forall l acts F, orderly false acts ->
    wp misuse (life nr nseg mine l acts) F (fun _ L => exists K, length K = (load_leaves l + acts_leave acts)%nat /\ Permutation L (K ++ F)).
  Proof.
    intros l acts F HR. unfold life. apply wp_bind. eapply wp_conseq; [apply load_graph_wp|]. cbn beta. intros g L (O & K & HO & N & P).
    eapply wp_perm; [exact P|]. apply wp_bind. eapply wp_conseq; [eapply acts_wp; [| |exact HR]|].
    - exists O, []. split; [exact HO|]. split; [reflexivity|]. rewrite app_nil_r. reflexivity.
    - reflexivity.
    - cbn beta. intros s' L2 (S2 & O2 & K2 & (Og & Ow & HG & HW & ->) & N2 & P2). rewrite S2 in HW. cbn in HW. subst Ow. rewrite app_nil_r in P2.
      eapply wp_perm; [exact P2|]. eapply wp_conseq; [apply mg_destroy_wp; exact HG|]. cbn beta. intros _ L3 P3.
      exists (K2 ++ K). split; [rewrite app_length, N2, N; unfold load_keeps, load_leaves; lia|]. perm.
  Qed.
  Theorem life_leaves : forall l acts, Forall (act_fits nseg mine) acts -> orderly false acts ->
    leaves (load_leaves l + acts_leave acts) (life nr nseg mine l acts).
  Proof. intros l acts F O. apply nm_ok; [apply nm_life; assumption|]. intro L. apply life_wp. exact O. Qed.
End GRAPHS.

(** ** vectors *)
Lemma mvec_act_wp : forall nr v a O F, vec_owns v O ->
  wp misuse (mvec_act nr v a) (O ++ F) (fun v' L => exists O' K, vec_owns v' O' /\ length K = vacts_leave [a] /\ Permutation L (O' ++ K ++ F)).
Proof.
  intros nr v [k o|n t] O F H; cbn [mvec_act vacts_leave].
  - eapply wp_conseq; [apply mvec_ops_wp; exact H|]. cbn beta. intros v' L (O' & HO' & P). exists O', []. auto.
  - eapply wp_conseq; [apply mvec_ingest_wp; exact H|]. cbn beta. intros v' L (O' & K & HO' & N & P). exists O', K.
    split; [exact HO'|]. split; [rewrite N; unfold ingest_keeps, save_leaves; lia|exact P].
Qed.
Lemma vacts_wp : forall nr acts v O F, vec_owns v O ->
  wp misuse (foldM (mvec_act nr) acts v) (O ++ F) (fun v' L => exists O' K, vec_owns v' O' /\ length K = vacts_leave acts /\ Permutation L (O' ++ K ++ F)).
Proof.
  induction acts as [|a acts IH]; intros v O F H; cbn [foldM].
  - apply wp_ret. exists O, []. auto.
  - apply wp_bind. eapply wp_conseq; [apply mvec_act_wp; exact H|]. cbn beta. intros v' L (O' & K & HO' & N & P).
    eapply wp_perm; [exact P|]. eapply wp_conseq; [apply IH; exact HO'|]. cbn beta. intros v2 L2 (O2 & K2 & HO2 & N2 & P2).
    exists O2, (K2 ++ K). split; [exact HO2|]. split; [rewrite app_length, N2, N; destruct a; cbn [vacts_leave]; lia|]. perm.
Qed.
Lemma vec_life_wp : forall nr make acts, (forall F, wp misuse make F (fun v L => exists O, vec_owns v O /\ Permutation L (O ++ F))) ->
  forall F, wp misuse (vec_life nr make acts) F (fun _ L => exists K, length K = vacts_leave acts /\ Permutation L (K ++ F)).
Proof.
  intros nr make acts W F. unfold vec_life. apply wp_bind. eapply wp_conseq; [apply W|]. cbn beta. intros v L (O & HO & P).
  eapply wp_perm; [exact P|]. apply wp_bind. eapply wp_conseq; [apply vacts_wp; exact HO|]. cbn beta. intros v2 L2 (O2 & K & HO2 & N & P2).
  eapply wp_perm; [exact P2|]. eapply wp_conseq; [apply mvec_delete_wp; exact HO2|]. cbn beta. intros _ L3 P3. exists K. auto.
Qed.
Lemma nm_touch : forall nseg touched have v, vready nseg have v -> Forall (fun k => (k < nseg)%nat) touched ->
  nm (mvec_ops (map (fun k => (k, MTouch)) touched) v) (vready nseg (rev touched ++ have)).
Proof. intros. apply nm_mvec_setAll; assumption. Qed.
Lemma nm_vacts : forall nr nseg acts have v, vready nseg have v -> proper nseg have acts -> nm (foldM (mvec_act nr) acts v) (fun _ => True).
Proof.
  intros nr nseg. induction acts as [|[k o|n t] acts IH]; intros have v H P; cbn [foldM].
  - apply nm_ret. exact I.
  - destruct P as (P1 & P2 & P3). apply nm_bind. cbn [mvec_act]. unfold mvec_ops. cbn [foldM fst snd]. apply nm_bind, nm_bind.
    eapply nm_conseq; [eapply nm_one; eassumption|]. cbn beta. intros ss (H1 & H2). apply nm_ret, nm_ret. eapply IH; [|exact P3].
    destruct (makes o); [apply H2; reflexivity|exact H1].
  - destruct P as (P1 & P3). apply nm_bind. cbn [mvec_act]. eapply nm_conseq with (Q := vready nseg (rev t ++ have)); [|cbn beta; intros v' H'; eapply IH; eassumption].
    unfold mvec_ingest. nms; try exact I; (eapply nm_conseq; [eapply nm_touch; eassumption|]); cbn beta; intros v' H'; nms; exact H'.
Qed.
Lemma nm_vec_life : forall nr nseg make have acts, nm make (vready nseg have) -> proper nseg have acts -> nm (vec_life nr make acts) (fun _ => True).
Proof.
  intros nr nseg make have acts N P. unfold vec_life. apply nm_bind. eapply nm_conseq; [exact N|]. cbn beta. intros v H. apply nm_bind.
  eapply nm_conseq; [eapply nm_vacts; eassumption|]. cbn beta. intros v' _. apply nm_mvec_delete.
Qed.
Lemma nm_buf_load : nm buf_load (fun _ => True).
Proof. unfold buf_load. apply nm_bind. eapply nm_conseq; [apply nm_buf_new|]. cbn beta. intros. nms. exact I. Qed.
Lemma nm_seg_load : forall sv, nm (seg_load sv) (fun s => fst sv = true -> stored s).
Proof.
  intros [props [n u]]. unfold seg_load, new_object. apply nm_bind, nm_request. intro p. apply nm_bind.
  eapply nm_conseq with (Q := fun b : option mbuf => props = true -> b <> None).
  - destruct props; [|apply nm_ret; discriminate]. apply nm_bind. eapply nm_conseq; [apply nm_buf_load|]. cbn beta. intros. apply nm_ret. discriminate.
  - cbn beta. intros b Hb. apply nm_bind, nm_each_any; [intros; apply nm_buf_load|]. intro rs. apply nm_bind, nm_each_any; [intros; apply nm_buf_load|]. intro us.
    apply nm_ret. unfold stored. cbn. exact Hb.
Qed.
Lemma nm_mvec_load : forall saved, nm (mvec_load saved) (vready (length saved) (saved_stored saved)).
Proof.
  intro saved. unfold mvec_load, new_object. apply nm_bind, nm_request. intro p. apply nm_bind.
  eapply nm_conseq with (Q := fun ss => length ss = length saved /\ forall k s, nth_error ss k = Some s -> forall b c, nth_error saved k = Some (b, c) -> b = true -> stored s).
  - induction saved as [|sv saved IH]; cbn [eachM].
    + apply nm_ret. split; [reflexivity|]. intros [|k] s Q; discriminate.
    + apply nm_bind. eapply nm_conseq; [apply nm_seg_load|]. cbn beta. intros s Hs. apply nm_bind. eapply nm_conseq; [exact IH|]. cbn beta. intros ss (N & H).
      apply nm_ret. split; [cbn; rewrite N; reflexivity|]. intros [|k] s1 Q b c Qb Hb; cbn in Q, Qb.
      * inversion Q; subst s1. inversion Qb; subst sv. apply Hs. exact Hb.
      * eapply H; eassumption.
  - cbn beta. intros ss (N & H). apply nm_ret. split; [exact N|]. intros k s J Es. unfold saved_stored in J. apply filter_In in J. destruct J as (_ & J).
    destruct (nth_error saved k) as [[b c]|] eqn:Eb; [|discriminate]. eapply H; eassumption.
Qed.
Theorem new_vector_leaves : forall nr nseg acts, proper nseg [] acts -> leaves (vacts_leave acts) (vec_life nr (mvec_new nseg) acts).
Proof.
  intros nr nseg acts P. apply nm_ok; [eapply nm_vec_life; [apply nm_mvec_new|exact P]|]. apply vec_life_wp. apply mvec_new_wp.
Qed.
Theorem loaded_vector_leaves : forall nr saved acts, proper (length saved) (saved_stored saved) acts -> leaves (vacts_leave acts) (vec_life nr (mvec_load saved) acts).
Proof.
  intros nr saved acts P. apply nm_ok; [eapply nm_vec_life; [apply nm_mvec_load|exact P]|]. apply vec_life_wp. apply mvec_load_wp.
Qed.
(** whatever the history, the only errors are broken preconditions *)
Lemma outcome : forall A n (m : M A), (forall F, wp misuse m F (fun _ L => exists K, length K = n /\ Permutation L (K ++ F))) ->
  forall h, heap_ok h ->
  (exists a h' K, m h = Ok (a, h') /\ heap_ok h' /\ length K = n /\ Permutation (h_live h') (K ++ h_live h)) \/
  m h = Err OOB \/ m h = Err AssertFail \/ m h = Err NullDeref.
Proof.
  intros A n m W h H. specialize (W (h_live h) h (holds_live h H)). destruct (m h) as [[a h']|e].
  - left. destruct W as (L & HL & K & N & P). exists a, h', K. split; [reflexivity|]. split; [eapply holds_ok; exact HL|]. split; [exact N|].
    rewrite (holds_is _ _ HL). exact P.
  - right. destruct W as [->|[->| ->]]; auto.
Qed.
Theorem vector_outcome : forall nr make acts h, (exists nseg, make = mvec_new nseg) \/ (exists saved, make = mvec_load saved) -> heap_ok h ->
  (exists a h' K, vec_life nr make acts h = Ok (a, h') /\ heap_ok h' /\ length K = vacts_leave acts /\ Permutation (h_live h') (K ++ h_live h)) \/
  vec_life nr make acts h = Err OOB \/ vec_life nr make acts h = Err AssertFail \/ vec_life nr make acts h = Err NullDeref.
Proof.
  intros nr make acts h Q H. apply outcome; [|exact H]. apply vec_life_wp. intro F. destruct Q as [(n & ->)|(s & ->)]; [apply mvec_new_wp|apply mvec_load_wp].
Qed.

(** ** edge lists *)
Section LISTS.
  Context {E : Type}.
  Notation elist := (elist E).
  Definition var_owns (l : mlist E) (O : blks) : Prop :=
    if some (ml_list l) then exists b, ml_edges l = At b /\ O = [(b, Aligned)] else O = [].
  Ltac fin := solve [auto|eassumption|eauto|cbn [lost]; repeat match goal with H : some _ = _ |- _ => rewrite H end; reflexivity|eexists; split; reflexivity|cbn [app]; perm].
  Lemma clear_wp : forall Er l O F, var_owns l O -> wp Er (ml_clear l) (O ++ F) (fun l' L => ml_list l' = mkEL [] 0 0 0 /\ Permutation L F).
  Proof.
    intros Er l O F H. apply ml_clear_wp. unfold var_owns, some in H. destruct (0 <? el_nnz (ml_list l)).
    - destruct H as (b & Eb & ->). exists b, F. split; [exact Eb|]. split; [reflexivity|]. split; reflexivity.
    - subst O. split; reflexivity.
  Qed.
  Lemma sized_wp : forall Er n F, wp Er (ml_sized n) F (fun p L => if 0 <? n then exists b, p = At b /\ L = (b, Aligned) :: F else L = F).
  Proof. intros. unfold ml_sized. destruct (0 <? n); run; eauto. Qed.
  (** the counts after each operation *)
  Lemma copy_if_none : forall keep (l : elist) r, some l = false -> copy_if keep l = Ok r -> snd r = 0.
  Proof.
    intros keep l r N H. unfold some in N. apply Z.ltb_ge in N. unfold copy_if in H. rewrite forZ_empty in H by lia. inversion H; reflexivity.
  Qed.
  Lemma dup_count : forall srt (l r : elist), remove_duplicate_edges_local srt l = Ok r -> some r = some l.
  Proof.
    intros srt l r H. unfold remove_duplicate_edges_local in H. destruct (0 <? el_nnz l) eqn:N; [|inversion H; reflexivity].
    unfold some at 2. rewrite N. destruct (sort_types srt l) as [l1|] eqn:E1; [|discriminate]. cbn [bind] in H.
    destruct (rde l1 0) as [e0|]; [|discriminate]. cbn [bind] in H. destruct (wr _ 0 (Some e0)) as [a0|]; [|discriminate]. cbn [bind] in H.
    rewrite forZ_foldR in H. revert H. generalize (zrange 1 (el_nnz l1)). intro zs.
    assert (A : forall zs (st : list (option (edge E)) * Z) r1, 1 <= snd st ->
      foldR (fun st i => do e <- rde l1 i ;; do p <- rde l1 (i - 1) ;;
        if (e_src e =? e_src p) && (e_dst e =? e_dst p) then Ok st
        else do a <- wr (fst st) (snd st) (Some e) ;; Ok (a, snd st + 1)) zs st = Ok r1 -> 1 <= snd r1).
    { clear. induction zs as [|z zs IH]; intros st r1 H1 H; cbn [foldR] in H; [inversion H; subst; exact H1|].
      destruct (rde l1 z) as [e|]; [|discriminate]. cbn [bind] in H. destruct (rde l1 (z - 1)) as [p|]; [|discriminate]. cbn [bind] in H.
      destruct ((e_src e =? e_src p) && (e_dst e =? e_dst p)); [cbn [bind] in H; eapply IH; eassumption|].
      destruct (wr (fst st) (snd st) (Some e)) as [a|]; [|discriminate]. cbn [bind] in H. eapply IH; [|exact H]. cbn. lia. }
    intro H. destruct (foldR _ zs (a0, 1)) as [r1|] eqn:E2; [|discriminate]. cbn [bind] in H. inversion H; subst. unfold some. cbn [el_nnz].
    apply Z.ltb_lt. specialize (A zs (a0, 1) r1). cbn [snd] in A. specialize (A ltac:(lia) E2). lia.
  Qed.
  Lemma bidir_count : forall (l r : elist), create_bidirectional_edges l = Ok r -> some r = some l /\ el_nnz r = el_nnz l * 2.
  Proof.
    intros l r H. unfold create_bidirectional_edges in H. destruct (forZ _ _ _ _) as [a|]; [|discriminate]. cbn [bind] in H. inversion H; subst.
    unfold some. cbn [el_nnz new_elist]. split; [|reflexivity]. destruct (Z.ltb_spec 0 (el_nnz l)); destruct (Z.ltb_spec 0 (el_nnz l * 2)); lia || reflexivity.
  Qed.
  Lemma cols_count : forall (l : elist) r, remove_empty_columns l = Ok r -> el_nnz (fst r) = el_nnz l.
  Proof.
    intros l r H. unfold remove_empty_columns in H. destruct (forZ 0 (el_nnz l) _ _) as [[c k]|]; [|discriminate]. cbn [bind] in H.
    destruct (forZ 0 (el_n l) _ _) as [[[a b] d]|]; [|discriminate]. cbn [bind] in H. destruct (assertb _); [|discriminate]. cbn [bind] in H.
    destruct (rewrite_edges _ _) as [l1|]; [|discriminate]. cbn [bind] in H. inversion H; reflexivity.
  Qed.
  Lemma by_row_none : forall lo hi (l r : elist), some l = false -> filter_edges_by_row lo hi l = Ok r -> some r = false.
  Proof.
    intros lo hi l r N H. unfold some in N. apply Z.ltb_ge in N. unfold filter_edges_by_row in H. rewrite forZ_empty in H by lia. cbn [bind] in H.
    inversion H; reflexivity.
  Qed.

  (** an operation does to the list what it does without memory, and loses as many arrays as [lost] says *)
  Definition result (o : R elist) (keeps : elist -> nat) (F : blks) (l : mlist E) (L : blks) : Prop :=
    exists r O K, o = Ok r /\ ml_list l = r /\ var_owns l O /\ length K = keeps r /\ Permutation L (O ++ K ++ F).
  Lemma replace_wp : forall (o : R elist) (l : mlist E) O F n (keeps : elist -> nat),
    var_owns l O ->
    (forall r, o = Ok r -> (0 <? n = true -> keeps r = b2n (negb (some r))) /\ (0 <? n = false -> some r = false /\ keeps r = 0%nat)) ->
    wp (fun e => o = Err e) (p <~ ml_sized n ;; r <~ lift o ;; ml_clear l ;;; ret (mkML p r)) (O ++ F) (result o keeps F).
  Proof.
    intros o l O F n keeps HO H. apply wp_bind. eapply wp_conseq; [apply sized_wp|]. cbn beta. intros p L HL. apply wp_bind.
    apply wp_lift; [|auto]. intros r Er. specialize (H r Er). destruct H as (H1 & H2). apply wp_bind.
    apply wp_perm with (L' := O ++ (if 0 <? n then match p with At b => [(b, Aligned)] | _ => [] end else []) ++ F).
    { destruct (0 <? n); [destruct HL as (b & -> & ->); perm|subst L; perm]. }
    eapply wp_conseq; [apply clear_wp; exact HO|]. cbn beta. intros ? L2 (_ & P2). apply wp_ret.
    exists r. destruct (0 <? n) eqn:N.
    - specialize (H1 eq_refl). destruct HL as (b & -> & ->). unfold var_owns. cbn [ml_list ml_edges]. destruct (some r) eqn:S.
      + exists [(b, Aligned)], []. split; [exact Er|]. split; [reflexivity|]. split; [eauto|]. split; [rewrite H1; reflexivity|exact P2].
      + exists [], [(b, Aligned)]. split; [exact Er|]. split; [reflexivity|]. split; [reflexivity|]. split; [rewrite H1; reflexivity|exact P2].
    - destruct (H2 eq_refl) as (S & K0). exists [], []. unfold var_owns. cbn [ml_list ml_edges]. rewrite S. repeat split; auto.
  Qed.
  Lemma in_place_wp : forall (o : R elist) (l : mlist E) O F (keeps : elist -> nat),
    var_owns l O -> (forall r, o = Ok r -> (some l.(ml_list) = true -> keeps r = b2n (negb (some r))) /\ (some (ml_list l) = false -> some r = false /\ keeps r = 0%nat)) ->
    wp (fun e => o = Err e) (r <~ lift o ;; ret (mkML (ml_edges l) r)) (O ++ F) (result o keeps F).
  Proof.
    intros o l O F keeps HO H. apply wp_bind. apply wp_lift; [|auto]. intros r Er. destruct (H r Er) as (H1 & H2). apply wp_ret. exists r. unfold var_owns in *.
    cbn [ml_list ml_edges]. destruct (some (ml_list l)).
    - destruct HO as (b & Eb & ->). specialize (H1 eq_refl). destruct (some r).
      + exists [(b, Aligned)], []. repeat split; fin.
      + exists [], [(b, Aligned)]. repeat split; auto.
    - subst O. destruct (H2 eq_refl) as (S & K0). rewrite S. exists [], []. repeat split; auto.
  Qed.
  Lemma ml_op_wp : forall i o l O F, in_place (VOp i o) -> var_owns l O ->
    wp (fun e => op_on (ml_list l) o = Err e) (ml_op l o) (O ++ F) (result (op_on (ml_list l) o) (lost (ml_list l) o) F).
  Proof.
    intros i o l O F IP HO. destruct o as [|srt|got| |lo hi|f| |f|r|r|]; cbn [ml_op op_on lost].
    - apply replace_wp; [exact HO|]. intros r Er. unfold remove_selfedges in Er. destruct (copy_if _ _) as [c|] eqn:C; [|discriminate]. cbn [bind] in Er.
      inversion Er; subst r. cbn [lost]. fold (some (ml_list l)). split; intro N; rewrite N; [reflexivity|].
      pose proof (copy_if_none _ _ _ N C) as Z0. unfold some. cbn [el_nnz]. rewrite Z0. split; reflexivity.
    - unfold ml_remove_duplicate_edges_local. destruct (0 <? el_nnz (ml_list l)) eqn:N.
      + apply replace_wp; [exact HO|]. intros r Er. apply dup_count in Er. unfold some at 2 in Er. rewrite N in Er. rewrite N, Er. split; [reflexivity|discriminate].
      + apply wp_ret. exists (ml_list l), O, []. split; [unfold remove_duplicate_edges_local; rewrite N; reflexivity|]. repeat split; auto.
    - unfold ml_shuffle_edges. run. eapply wp_conseq; [apply sized_wp|]. cbn beta. intros p L HL.
      assert (X : exists Op, (if some got then exists b, p = At b /\ Op = [(b, Aligned)] else Op = []) /\ Permutation L (Op ++ (b8, Array) :: (b7, Array) :: (b6, Array) :: (b5, Array) :: (b4, Array) :: (b3, Array) :: (b2, Array) :: (b1, Array) :: (b0, Array) :: (b, Array) :: O ++ F)).
      { unfold some. destruct (0 <? el_nnz got); [destruct HL as (c & -> & ->); exists [(c, Aligned)]; split; [eauto|reflexivity]|subst L; exists []; split; reflexivity]. }
      destruct X as (Op & HP & PL). eapply wp_perm; [exact PL|]. run. front O. eapply wp_conseq; [apply clear_wp; exact HO|]. cbn beta. intros ? L2 (_ & P2). run.
      exists got, Op, []. split; [reflexivity|]. split; [reflexivity|]. split; [exact HP|]. split; [reflexivity|exact P2].
    - apply replace_wp; [exact HO|]. intros r Er. apply bidir_count in Er. destruct Er as (S & N2).
      assert (Q : (0 <? el_nnz (ml_list l) * 2) = some r) by (unfold some; rewrite N2; reflexivity). rewrite Q.
      split; intro Sr; rewrite Sr; auto.
    - apply in_place_wp; [exact HO|]. intros r Er. cbn [lost]. split; intro S; rewrite S; cbn [andb]; [reflexivity|]. split; [|reflexivity]. eapply by_row_none; eassumption.
    - unfold ml_randomize_edgelist_square. apply wp_bind. apply wp_lift; [|auto]. intros r Er. pose proof (IP _ _ Er) as N. run.
      exists r, O, []. split; [exact Er|]. split; [reflexivity|]. split; [unfold var_owns, some in *; cbn [ml_list ml_edges]; rewrite N; exact HO|]. split; reflexivity.
    - unfold ml_remove_empty_columns. run. apply wp_lift; [|intros e Ee; rewrite Ee; reflexivity]. intros r Er. pose proof (cols_count _ _ Er) as N. run. cbn [fst snd]. run.
      exists (fst r), O, []. split; [rewrite Er; reflexivity|]. split; [reflexivity|]. split; [unfold var_owns, some in *; cbn [fst ml_list ml_edges]; rewrite N; exact HO|]. split; reflexivity.
    - unfold ml_rewrite. apply in_place_wp; [exact HO|]. intros r Er. pose proof (IP _ _ Er) as N. unfold some. rewrite N.
      split; intro S; rewrite S; auto.
    - unfold ml_load_edgelist. run. unfold var_owns in HO. exists r. destruct (some (ml_list l)) eqn:S1; destruct (some r) eqn:S2.
      + destruct HO as (c & Ec & ->). exists [(b, Aligned)], [(c, Aligned)]. unfold var_owns. cbn [ml_list ml_edges]. rewrite S2. repeat split; fin.
      + destruct HO as (c & Ec & ->). exists [], [(b, Aligned); (c, Aligned)]. unfold var_owns. cbn [ml_list ml_edges]. rewrite S2. repeat split; fin.
      + subst O. exists [(b, Aligned)], []. unfold var_owns. cbn [ml_list ml_edges]. rewrite S2. repeat split; fin.
      + subst O. exists [], [(b, Aligned)]. unfold var_owns. cbn [ml_list ml_edges]. rewrite S2. repeat split; fin.
    - unfold ml_get_edges. unfold var_owns in HO. fold (some r). destruct (some (ml_list l)) eqn:S1; destruct (some r) eqn:S2; run; exists r.
      + destruct HO as (c & Ec & ->). exists [(b, Aligned)], [(c, Aligned)]. unfold var_owns. cbn [ml_list ml_edges]. rewrite S2. repeat split; fin.
      + destruct HO as (c & Ec & ->). exists [], [(c, Aligned)]. unfold var_owns. cbn [ml_list ml_edges]. rewrite S2. repeat split; fin.
      + subst O. exists [(b, Aligned)], []. unfold var_owns. cbn [ml_list ml_edges]. rewrite S2. repeat split; fin.
      + subst O. exists [], []. unfold var_owns. cbn [ml_list ml_edges]. rewrite S2. repeat split; fin.
    - eapply wp_conseq; [apply clear_wp; exact HO|]. cbn beta. intros l' L (El & P). exists (mkEL [] 0 0 0), [], []. split; [reflexivity|].
      split; [exact El|]. split; [unfold var_owns; rewrite El; reflexivity|]. split; [reflexivity|exact P].
  Qed.
  Lemma filter_wp : forall f l O F, var_owns l O ->
    wp (fun e => (do r <- filter_edges f (ml_list l) ;; Ok (snd r)) = Err e) (ml_filter_edges f l) (O ++ F)
       (result (do r <- filter_edges f (ml_list l) ;; Ok (snd r)) (fun r => b2n (some (ml_list l) && negb (some r))) (O ++ F)).
  Proof.
    intros f l O F HO. unfold ml_filter_edges. apply wp_bind. eapply wp_conseq; [apply sized_wp|]. cbn beta. intros p L HL. apply wp_bind.
    apply wp_lift; [|intros e Ee; rewrite Ee; reflexivity]. intros [l0 r] Er. apply wp_ret. exists r. fold (some (ml_list l)) in HL. unfold var_owns. cbn [ml_list ml_edges snd].
    destruct (some (ml_list l)) eqn:S1; cbn [andb].
    - destruct HL as (b & -> & ->). destruct (some r) eqn:S2.
      + exists [(b, Aligned)], []. rewrite Er. repeat split; fin.
      + exists [], [(b, Aligned)]. rewrite Er. repeat split; fin.
    - subst L. unfold filter_edges in Er. destruct (copy_if _ _) as [c|] eqn:C; [|discriminate]. cbn [bind] in Er. inversion Er; subst.
      pose proof (copy_if_none _ _ _ S1 C) as Z0. unfold some. cbn [el_nnz]. rewrite Z0. exists [], []. unfold filter_edges. rewrite C. cbn [bind snd]. repeat split; try fin.
    rewrite Z0. reflexivity.
  Qed.
  Definition vars_own (ls : list (mlist E)) (Os : list blks) : Prop := Forall2 var_owns ls Os.
  Lemma ml_on_wp : forall (f : mlist E -> M (mlist E)) (g : elist -> R elist) (keeps : elist -> elist -> nat) i ls Os F,
    (forall l O F, var_owns l O -> wp (fun e => g (ml_list l) = Err e) (f l) (O ++ F) (result (g (ml_list l)) (keeps (ml_list l)) F)) ->
    vars_own ls Os ->
    wp (fun e => match nth_error (map ml_list ls) i with None => e = OOB | Some l => g l = Err e end) (ml_on f i ls) (concat Os ++ F)
       (fun ls' L => exists l r Os' K, nth_error (map ml_list ls) i = Some l /\ g l = Ok r /\ map ml_list ls' = replace i r (map ml_list ls) /\
          vars_own ls' Os' /\ length K = keeps l r /\ Permutation L (concat Os' ++ K ++ F)).
  Proof.
    intros f g keeps i ls Os F Hf H. revert i F. induction H as [|l O ls Os HO H IH]; intros i F.
    - destruct i; cbn [ml_on map nth_error]; apply wp_fail; reflexivity.
    - destruct i as [|i]; cbn [ml_on map nth_error concat replace]; rewrite <- app_assoc; apply wp_bind.
      + eapply wp_conseq; [apply Hf; exact HO|]. cbn beta. intros l' L (r & O' & K & Eg & El & HO' & N & P). apply wp_ret.
        exists (ml_list l), r, (O' :: Os), K. split; [reflexivity|]. split; [exact Eg|]. split; [cbn [map]; rewrite El; reflexivity|].
        split; [constructor; assumption|]. split; [exact N|]. perm.
      + front (concat Os). eapply wp_conseq; [apply IH|]. cbn beta. intros ls' L (l1 & r & Os' & K & E1 & E2 & E3 & H' & N & P). apply wp_ret.
        exists l1, r, (O :: Os'), K. split; [exact E1|]. split; [exact E2|]. split; [cbn [map]; rewrite E3; reflexivity|].
        split; [constructor; assumption|]. split; [exact N|]. perm.
  Qed.
  Lemma nth_own : forall ls Os i l, vars_own ls Os -> nth_error ls i = Some l -> exists O O1 O2, var_owns l O /\ Os = O1 ++ O :: O2.
  Proof.
    intros ls Os i l H. revert i. induction H as [|l0 O ls Os HO H IH]; intros [|i] E1; cbn in E1; try discriminate.
    - inversion E1; subst. exists O, [], Os. auto.
    - destruct (IH _ E1) as (O' & O1 & O2 & HO' & ->). exists O', (O :: O1), O2. auto.
  Qed.
  Lemma ml_act_wp : forall a ls Os F, in_place a -> vars_own ls Os -> forall n,
    wp (fun e => act_on (map ml_list ls, n) a = Err e) (ml_act ls a) (concat Os ++ F)
       (fun ls' L => exists k Os' K, act_on (map ml_list ls, n) a = Ok (map ml_list ls', (n + k)%nat) /\ vars_own ls' Os' /\ length K = k /\
          Permutation L (concat Os' ++ K ++ F)).
  Proof.
    intros a ls Os F IP H n. destruct a as [|i o|i f]; cbn [ml_act act_on].
    - apply wp_ret. exists 0%nat, (Os ++ [[]]), []. split; [rewrite map_app, Nat.add_0_r; reflexivity|].
      split; [apply Forall2_app; [exact H|constructor; [reflexivity|constructor]]|]. split; [reflexivity|]. rewrite concat_app. cbn [concat app]. rewrite app_nil_r. reflexivity.
    - intros h Hh. pose proof (ml_on_wp (fun l => ml_op l o) (fun l => op_on l o) (fun l r => lost l o r) i ls Os F
        (fun l O F HO => ml_op_wp i o l O F IP HO) H h Hh) as W. destruct (ml_on _ i ls h) as [[ls' h']|e].
      + destruct W as (L & HL & l & r & Os' & K & E1 & E2 & E3 & H' & N & P). exists L. split; [exact HL|]. exists (lost l o r), Os', K.
        rewrite E1, E2. cbn [bind]. rewrite E3. split; [reflexivity|]. auto.
      + destruct (nth_error (map ml_list ls) i) as [l|]; [rewrite W; reflexivity|subst e; reflexivity].
    - rewrite nth_error_map. destruct (nth_error ls i) as [l|] eqn:E1; cbn [option_map]; [|apply wp_fail; reflexivity].
      destruct (nth_own _ _ _ _ H E1) as (O & O1 & O2 & HO & EO). subst Os. apply wp_perm with (L' := O ++ concat O1 ++ concat O2 ++ F); [rewrite concat_app; cbn [concat]; perm|].
      apply wp_bind. intros h Hh. pose proof (filter_wp f l O (concat O1 ++ concat O2 ++ F) HO h Hh) as W.
      destruct (ml_filter_edges f l h) as [[l' h']|e].
      + destruct W as (L & HL & r & O' & K & Er & El & HO' & N & P). exists L. split; [exact HL|]. apply wp_ret.
        destruct (filter_edges f (ml_list l)) as [r0|] eqn:Ef; [|discriminate]. cbn [bind] in Er. assert (Q : snd r0 = r) by congruence. rewrite <- Q in El, N. clear Q. cbn [bind].
        exists (length K), ((O1 ++ O :: O2) ++ [O']), K. rewrite map_app. cbn [map]. rewrite El, N. split; [reflexivity|].
        split; [apply Forall2_app; [exact H|constructor; [exact HO'|constructor]]|]. split; [reflexivity|]. rewrite !concat_app. cbn [concat]. perm.
      + destruct (filter_edges f (ml_list l)); [discriminate|]. cbn [bind] in *. congruence.
  Qed.
  Lemma lists_wp : forall acts ls Os F n, Forall in_place acts -> vars_own ls Os ->
    wp (fun e => foldR act_on acts (map ml_list ls, n) = Err e) (foldM ml_act acts ls) (concat Os ++ F)
       (fun ls' L => exists k Os' K, foldR act_on acts (map ml_list ls, n) = Ok (map ml_list ls', (n + k)%nat) /\ vars_own ls' Os' /\ length K = k /\
          Permutation L (concat Os' ++ K ++ F)).
  Proof.
    induction acts as [|a acts IH]; intros ls Os F n IP H; cbn [foldM foldR].
    - apply wp_ret. exists 0%nat, Os, []. rewrite Nat.add_0_r. split; [reflexivity|]. split; [exact H|]. split; reflexivity.
    - inversion IP as [|? ? IP1 IP2]; subst. intros h Hh. unfold bindM. pose proof (ml_act_wp a ls Os F IP1 H n h Hh) as W. destruct (ml_act ls a h) as [[ls' h']|e].
      + destruct W as (L & HL & k & Os' & K & E1 & H' & N & P). rewrite E1. cbn [bind].
        pose proof (IH ls' Os' (K ++ F) (n + k)%nat IP2 H' h' (holds_perm _ _ _ HL P)) as W2. destruct (foldM ml_act acts ls' h') as [[ls2 h2]|e].
        * destruct W2 as (L2 & HL2 & k2 & Os2 & K2 & E2 & H2 & N2 & P2). exists L2. split; [exact HL2|]. exists (k + k2)%nat, Os2, (K2 ++ K).
          rewrite E2. split; [rewrite Nat.add_assoc; reflexivity|]. split; [exact H2|]. split; [rewrite app_length; lia|]. perm.
        * exact W2.
      + rewrite W. reflexivity.
  Qed.
  Lemma clear_all_wp : forall Er ls Os F, vars_own ls Os -> wp Er (eachM ml_clear ls) (concat Os ++ F) (fun _ L => Permutation L F).
  Proof.
    intros Er ls Os F H. apply wp_each_drop with (P := var_owns); [|exact H]. intros l O F1 HO. eapply wp_conseq; [apply clear_wp; exact HO|]. cbn beta. tauto.
  Qed.
  Theorem lists_leave : forall (acts : list (eact E)) ls n, Forall in_place acts -> lists_run acts = Ok (ls, n) -> leaves n (ml_life acts).
  Proof.
    intros acts ls n IP HR h Hh. unfold ml_life, lists_run in *.
    pose proof (lists_wp acts [] [] (h_live h) 0%nat IP (Forall2_nil _) h (holds_live h Hh)) as W. cbn [map] in W. rewrite HR in W.
    unfold bindM. destruct (foldM ml_act acts [] h) as [[ls' h']|e]; [|discriminate].
    destruct W as (L & HL & k & Os & K & E1 & H & N & P). inversion E1; subst.
    pose proof (clear_all_wp never ls' Os (K ++ h_live h) H h' (holds_perm _ _ _ HL P)) as W2. destruct (eachM ml_clear ls' h') as [[u h2]|e]; [|contradiction].
    destruct W2 as (L2 & HL2 & P2). exists tt, h2, K. split; [reflexivity|]. split; [eapply holds_ok; exact HL2|]. split; [reflexivity|].
    rewrite (holds_is _ _ HL2). exact P2.
  Qed.
  Theorem lists_fail : forall (acts : list (eact E)) e h, Forall in_place acts -> heap_ok h -> lists_run acts = Err e -> ml_life acts h = Err e.
  Proof.
    intros acts e h IP Hh HR. unfold ml_life, lists_run in *.
    pose proof (lists_wp acts [] [] (h_live h) 0%nat IP (Forall2_nil _) h (holds_live h Hh)) as W. cbn [map] in W. rewrite HR in W.
    unfold bindM. destruct (foldM ml_act acts [] h) as [[ls' h']|e']; [|congruence]. destruct W as (L & HL & k & Os & K & E1 & _). discriminate.
  Qed.
End LISTS.

(** ** tiles *)
Lemma tile_clean : forall T (make : M T) (drop : T -> M unit) (owns : T -> blks -> Prop),
  (forall F, wp never make F (fun t L => exists O, owns t O /\ Permutation L (O ++ F))) ->
  (forall t O F, owns t O -> wp never (drop t) (O ++ F) (fun _ L => Permutation L F)) -> clean (t <~ make ;; drop t).
Proof.
  intros T make drop owns H1 H2. apply clean_of_wp. intro F. apply wp_bind. eapply wp_conseq; [apply H1|]. cbn beta. intros t L (O & HO & P).
  eapply wp_perm; [exact P|]. apply H2. exact HO.
Qed.
Ltac built_by W := let X := fresh in intro; eapply wp_conseq; [apply W|cbn beta; intros ? ? (_ & X); exact X].
Theorem dcsc_clean : forall nnz, clean (t <~ dcsc_build nnz ;; dcsc_destroy t).
Proof. intro. apply tile_clean with (owns := dcsc_owns); [built_by dcsc_build_wp|apply dcsc_destroy_wp]. Qed.
Theorem dcsc_loaded_clean : forall nnz, clean (t <~ dcsc_load nnz ;; dcsc_destroy t).
Proof. intro. apply tile_clean with (owns := dcsc_owns); [built_by dcsc_load_wp|apply dcsc_destroy_wp]. Qed.
Theorem csr_clean : forall nnz, clean (t <~ csr_build nnz ;; csr_destroy t).
Proof. intro. apply tile_clean with (owns := csr_owns); [built_by csr_build_wp|apply csr_destroy_wp]. Qed.
Theorem csr_loaded_clean : forall nnz, clean (t <~ csr_load nnz ;; csr_destroy t).
Proof. intro. apply tile_clean with (owns := csr_owns); [built_by csr_load_wp|apply csr_destroy_wp]. Qed.
Theorem coo_clean : forall nnz, clean (t <~ coo_build nnz ;; coo_destroy t).
Proof. intro. apply tile_clean with (owns := coo_owns); [built_by coo_build_wp|apply coo_destroy_wp]. Qed.
Theorem simd_clean : forall np nnz, clean (t <~ simd_build np nnz ;; simd_destroy t).
Proof. intros. apply tile_clean with (owns := simd_owns); [built_by simd_build_wp|apply simd_destroy_wp]. Qed.
Theorem dcsr_clean : forall nnz, clean (t <~ dcsr_build nnz ;; dcsr_destroy t).
Proof. intros. apply tile_clean with (owns := dcsr_owns); [built_by dcsr_build_wp|apply dcsr_destroy_wp]. Qed.
(** a matrix, its transpose made from it, both deleted *)
Theorem mat_clean : forall nr counts countsT, clean (m <~ mat_build nr counts ;; t <~ mat_transpose nr countsT m ;; mat_delete t ;;; mat_destroy m).
Proof.
  intros. apply clean_of_wp. intro F. apply wp_bind. eapply wp_conseq; [apply mat_build_wp|]. cbn beta. intros m L (O & HO & P). eapply wp_perm; [exact P|].
  apply wp_bind. eapply wp_conseq; [apply mat_transpose_wp|]. cbn beta. intros t L1 (O1 & HO1 & P1). eapply wp_perm; [exact P1|].
  apply wp_bind. eapply wp_conseq; [apply mat_delete_wp; exact HO1|]. cbn beta. intros _ L2 P2. eapply wp_perm; [exact P2|]. apply mat_destroy_wp. exact HO.
Qed.
Theorem mat_loaded_clean : forall counts, clean (m <~ mat_load counts ;; mat_destroy m).
Proof. intros. apply tile_clean with (owns := mat_owns); [intro; apply mat_load_wp|apply mat_destroy_wp]. Qed.

(** *** the faults *)
Lemma faults_of_wp : forall A e (m : M A), (forall F, wp (fun e' => e' = e) m F (fun _ _ => False)) -> faults e m.
Proof.
  intros A e m W h H. specialize (W (h_live h) h (holds_live h H)). destruct (m h) as [[a h']|e']; [|congruence]. destruct W as (L & _ & []).
Qed.
Lemma wp_wrong_kind : forall k k' b L L' (Q : unit -> blks -> Prop), Permutation L ((b, k') :: L') -> kind_eqb k k' = false ->
  wp (fun e => e = BadFree) (give_back k (At b)) L Q.
Proof.
  intros k k' b L L' Q P N h (A & B & C). cbn. destruct (take_out_in b k' (h_live h) A) as (l' & E1 & P1).
  { apply Permutation_in with L; [symmetry; exact B|]. rewrite P. left. reflexivity. }
  rewrite E1, N. reflexivity.
Qed.
Lemma wp_unset : forall k L (Q : unit -> blks -> Prop), wp (fun e => e = Uninit) (give_back k Unset) L Q.
Proof. intros k L Q h H. reflexivity. Qed.
Lemma take_out_none : forall b l, ~ In b (map fst l) -> take_out b l = None.
Proof.
  induction l as [|[c k] l IH]; cbn; intro H; [reflexivity|]. destruct (Z.eqb_spec c b); [exfalso; apply H; auto|]. rewrite IH; [reflexivity|]. tauto.
Qed.
Lemma wp_gone : forall k b L (Q : unit -> blks -> Prop), ~ In b (map fst L) -> wp (fun e => e = DoubleFree) (give_back k (At b)) L Q.
Proof.
  intros k b L Q N h (A & B & C). cbn. rewrite take_out_none; [reflexivity|]. intro J. apply N. apply (Permutation_in b (Permutation_map fst B)). exact J.
Qed.
Lemma wp_nodup : forall A Er (m : M A) L Q, (NoDup (map fst L) -> wp Er m L Q) -> wp Er m L Q.
Proof. intros A Er m L Q H h Hh. apply H; [|exact Hh]. destruct Hh as (N & P & _). eapply Permutation_NoDup; [apply Permutation_map; exact P|exact N]. Qed.
Ltac pos H := rewrite (proj2 (Z.ltb_lt _ _) H).
Theorem coo_loaded_faults : forall nnz, 0 < nnz -> faults BadFree (t <~ coo_load nnz ;; coo_destroy t).
Proof.
  intros nnz H. apply faults_of_wp. intro F. unfold coo_load, coo_destroy. pos H. run. cbn [co_nnz co_a co_ja co_ia co_partition_start]. pos H. run.
  eapply wp_wrong_kind with (k' := Aligned); reflexivity.
Qed.
Theorem simd_loaded_faults : forall nnz, 0 < nnz -> faults BadFree (t <~ simd_load nnz ;; simd_destroy t).
Proof.
  intros nnz H. apply faults_of_wp. intro F. unfold simd_load, simd_destroy. pos H. run. cbn [si_nnz si_a si_ja si_ia si_partition_start si_simd_nnz]. pos H. run.
  eapply wp_wrong_kind with (k' := Aligned); [apply perm_swap|reflexivity].
Qed.
Theorem dcsr_loaded_faults : forall nnz, 0 < nnz -> faults Uninit (t <~ dcsr_load nnz ;; dcsr_destroy t).
Proof.
  intros nnz H. apply faults_of_wp. intro F. unfold dcsr_load, dcsr_destroy. pos H. run. cbn [ds_nnz ds_a ds_ja ds_ia ds_row_ids ds_partition_ptrs]. pos H. run.
  apply wp_unset.
Qed.
Theorem dcsr_clear_leaks : forall nnz, 0 < nnz -> leaves 5 (t <~ dcsr_build nnz ;; dcsr_destroy (dcsr_clear t)).
Proof.
  intros nnz H. apply leaves_of_wp. intro F. apply wp_bind. eapply wp_conseq; [apply dcsr_build_wp|]. cbn beta. intros t L (N & O & HO & P).
  unfold dcsr_destroy, dcsr_clear. cbn [ds_nnz]. change (0 <? 0) with false. cbn match. run. unfold dcsr_owns in HO. rewrite N in HO.
  rewrite (proj2 (Z.ltb_lt _ _) H) in HO. destruct HO as (b1 & b2 & b3 & b4 & b5 & _ & ->). eexists. split; [|exact P]. reflexivity.
Qed.
Theorem hybrid_leaks : forall np n1 n2,
  leaves (2 + (if 0 <? n1 then 5 else 0) + (if 0 <? n2 then 5 else 0)) (t <~ hybrid_build np n1 n2 ;; hybrid_destroy t).
Proof.
  intros np n1 n2. apply leaves_of_wp. intro F. apply wp_bind. eapply wp_conseq; [apply hybrid_build_wp|]. cbn beta. intros t L (N1 & N2 & O & HO & P).
  unfold hybrid_destroy. run. exists O. split; [|exact P]. destruct HO as (b1 & b2 & O1 & O2 & _ & _ & H1 & H2 & ->).
  unfold dcsr_owns in H1. unfold simd_owns in H2. rewrite N1 in H1. rewrite N2 in H2. cbn [length]. rewrite app_length.
  destruct (0 <? n1); [destruct H1 as (? & ? & ? & ? & ? & _ & ->)|subst O1]; (destruct (0 <? n2); [destruct H2 as (? & ? & ? & ? & ? & _ & ->)|subst O2]); reflexivity.
Qed.
(** a tile and its copy both destroyed *)
Theorem dcsc_copy_faults : forall nnz, 0 < nnz -> faults DoubleFree (t <~ dcsc_build nnz ;; dcsc_destroy t ;;; dcsc_destroy t).
Proof.
  intros nnz H. apply faults_of_wp. intro F. apply wp_bind. eapply wp_conseq; [apply dcsc_build_wp|]. cbn beta. intros t L (N & O & HO & P).
  eapply wp_perm; [exact P|]. apply wp_nodup. intro ND. apply wp_bind. eapply wp_conseq; [apply dcsc_destroy_wp; exact HO|]. cbn beta. intros _ L1 P1.
  eapply wp_perm; [exact P1|]. unfold dcsc_owns in HO. unfold dcsc_destroy. rewrite N in *. rewrite (proj2 (Z.ltb_lt _ _) H) in *.
  destruct HO as (b1 & b2 & b3 & b4 & b5 & b6 & b7 & -> & ->). cbn [dc_row_inds]. unfold mm_free. apply wp_bind. apply wp_gone.
  cbn [map app fst] in ND. inversion ND as [|? ? N1 N2]; subst. intro J. apply N1. cbn [In]. tauto.
Qed.
(** loading a graph twice: the first one is lost *)
Lemma graph_blocks : forall g O, graph_owns g O -> mg_A g <> None -> mg_AT g <> None -> mg_vp g <> None -> mg_active g <> None -> (4 <= length O)%nat.
Proof.
  intros [a t v c] O (Oa & Ot & Ov & Oc & HA & HT & HV & HC & ->) NA NT NV NC. cbn [mg_A mg_AT mg_vp mg_active] in *.
  destruct a; [|contradiction]. destruct t; [|contradiction]. destruct v; [|contradiction]. destruct c; [|contradiction]. cbn [opt_mat opt_vec] in *.
  destruct HA as (? & ? & _ & _ & ->). destruct HT as (? & ? & _ & _ & ->). destruct HV as (? & ? & _ & _ & ->). destruct HC as (? & ? & _ & _ & ->).
  rewrite !app_length. cbn [length]. lia.
Qed.
Theorem load_twice_leaks : forall nr nseg mine l1 l2 h, Forall (fun k => (k < nseg)%nat) mine -> heap_ok h ->
  exists a h' K, (g <~ load_graph nr nseg mine l1 mg_default ;; g <~ load_graph nr nseg mine l2 g ;; mg_destroy g) h = Ok (a, h') /\
    heap_ok h' /\ (4 <= length K)%nat /\ Permutation (h_live h') (K ++ h_live h).
Proof.
  intros nr nseg mine l1 l2 h MINE Hh. unfold bindM.
  pose proof (nm_load nr nseg mine MINE l1 mg_default h) as N1. pose proof (load_graph_wp nr nseg mine l1 mg_default (h_live h) h (holds_live h Hh)) as W1.
  destruct (load_graph nr nseg mine l1 mg_default h) as [[g1 h1]|e]; [|contradiction]. destruct W1 as (L1 & HL1 & O1 & K1 & HO1 & _ & P1).
  pose proof (nm_load nr nseg mine MINE l2 g1 h1) as N2. pose proof (load_graph_wp nr nseg mine l2 g1 L1 h1 HL1) as W2.
  destruct (load_graph nr nseg mine l2 g1 h1) as [[g2 h2]|e]; [|contradiction]. destruct W2 as (L2 & HL2 & O2 & K2 & HO2 & _ & P2).
  pose proof (mg_destroy_wp never g2 O2 (K2 ++ L1) HO2 h2 (holds_perm _ _ _ HL2 P2)) as W3.
  destruct (mg_destroy g2 h2) as [[a h3]|e]; [|contradiction]. destruct W3 as (L3 & HL3 & P3).
  exists a, h3, (K2 ++ O1 ++ K1). split; [reflexivity|]. split; [eapply holds_ok; exact HL3|]. split.
  - destruct N1 as ((A1 & A2) & (v & A3 & _) & (c & A4 & _)). pose proof (graph_blocks g1 O1 HO1 A1 A2 ltac:(congruence) ltac:(congruence)) as B.
    rewrite !app_length. lia.
  - rewrite (holds_is _ _ HL3). perm.
Qed.
