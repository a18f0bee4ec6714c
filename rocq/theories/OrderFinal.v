(** Histories on a loaded graph follow one order of combination *)
From Verif Require Import Base BaseLemmas Layout Reduce Segment DCSC MatSpec TileProofs SpMat Vec GraphVert Graph Runtime RunSpec RuntimeProofs GraphOps GraphHist GraphHistProofs ReduceProofs RunFinal Tree TreeProofs OrderSpec OrderHist OrderProofs.

Lemma calls_in_edges {V E byte} (neq : V -> V -> bool) n ord (h : list (Z * gcall V E byte)) : forall (q q' : gspec V E), keeps_edges h -> calls_in neq n ord h q (Some q') -> gs_es q' = gs_es q.
Proof.
  induction h as [|[t c] h IH]; intros q q' K H; cbn [calls_in] in H; [injection H as ->; reflexivity|]. inversion K as [|? ? K1 K2]; subst. destruct H as ([q2|] & H1 & H2); [|discriminate].
  rewrite (IH q2 q' K2 H2). cbn [fst snd] in *. destruct c; cbn [call_in spec_call] in H1; try contradiction; try (injection H1 as ->; reflexivity). destruct H1 as [(K0 & _ & H1)|[_ H1]]; [injection H1 as ->; reflexivity|discriminate].
Qed.

Section Final.
  Context {V E byte : Type}.
  Variable neq : V -> V -> bool.
  Variable m : machine V E byte.
  Variables (dv : V) (n : Z) (blobs : list (list (edge E))).
  Hypothesis Hset : setting m n blobs.
  Let Hm : machine_ok m. Proof. apply Hset. Qed.
  Let Hn : 0 <= n. Proof. apply Hset. Qed.
  Notation gr := (graph V E byte).

  Lemma reached_any h (g : gr) : calls_fit n m h -> reached neq m dv n blobs h g -> exists q, can_mean neq dv n blobs h q /\ is m n g q.
  Proof using Hset.
    intros Hok (g0 & El & Er). destruct Hset as (_ & _ & Lb & Hin). destruct (load_is m Hm n Hn dv blobs Lb Hin) as (g0' & El' & H0). rewrite El in El'. injection El' as <-.
    destruct (calls_any neq m Hm n Hn h g0 _ Hok H0) as ([q|] & So & R); [|congruence]. destruct R as (g' & E' & Hg'). rewrite Er in E'. injection E' as <-. exists q. auto.
  Qed.

  Lemma fixed_order h (g : gr) : calls_fit n m h -> reached neq m dv n blobs h g ->
    exists q ord, can_mean neq dv n blobs h q /\ order_of n (gs_es q) ord /\ shows_properties n m g (gs_P q) /\ shows_edges m g (gs_es q) /\
      forall h', calls_fit n m h' -> keeps_edges h' ->
        (exists g' q', run_calls neq m h' g = Ok g' /\ calls_in neq n ord h' q (Some q') /\ shows_properties n m g' (gs_P q') /\ shows_edges m g' (gs_es q')) \/
        (run_calls neq m h' g = Err NoFuel /\ calls_in neq n ord h' q None).
  Proof using Hset.
    intros Hok Hr. destruct (reached_any h g Hok Hr) as (q & Hq & Hg). exists q, (gorder m n g). split; [exact Hq|]. split; [apply gorder_of; auto|]. split; [apply is_properties; auto|]. split; [eapply is_edges; eauto|].
    intros h' Hok' Hk. destruct (calls_fixed neq m Hm n Hn h' g q Hok' Hk Hg) as ([q'|] & S1 & R1); [left|right; auto].
    destruct R1 as (g' & E1 & I1 & _). exists g', q'. split; [exact E1|]. split; [exact S1|]. split; [apply is_properties; auto|eapply is_edges; eauto].
  Qed.

  (** from the same properties and activity, the same *)
  Lemma repeat_from (g g1 g' : gr) q h1 h2 : is m n g q -> is m n g' q -> same_edges g g' -> calls_fit n m h1 -> calls_fit n m h2 -> keeps_edges h1 -> keeps_edges h2 -> same_calls h1 h2 ->
    run_calls neq m h1 g = Ok g1 -> exists g2 q', run_calls neq m h2 g' = Ok g2 /\ is m n g1 q' /\ is m n g2 q' /\ same_edges g g1 /\ same_edges g g2.
  Proof using Hset.
    intros Hg Hg' Sm F1 F2 K1 K2 Sc E1. destruct (calls_fixed neq m Hm n Hn h1 g q F1 K1 Hg) as (o1 & S1 & R1). destruct (calls_fixed neq m Hm n Hn h2 g' q F2 K2 Hg') as (o2 & S2 & R2).
    rewrite (gorder_same m n g g' Sm) in S2. assert (o1 = o2) as <- by (eapply calls_in_one; eauto). destruct o1 as [q'|]; [|congruence].
    destruct R1 as (g1' & E1' & I1 & Sm1). rewrite E1 in E1'. injection E1' as <-. destruct R2 as (g2 & E2 & I2 & Sm2). exists g2, q'. split; [exact E2|]. split; [exact I1|]. split; [exact I2|]. split; [exact Sm1|]. destruct Sm, Sm2. split; congruence.
  Qed.

  Lemma repeatable h (g g1 : gr) h1 h2 : calls_fit n m h -> reached neq m dv n blobs h g -> calls_fit n m h1 -> calls_fit n m h2 -> keeps_edges h1 -> keeps_edges h2 -> same_calls h1 h2 ->
    run_calls neq m h1 g = Ok g1 -> exists g2 P, run_calls neq m h2 g = Ok g2 /\ shows_properties n m g1 P /\ shows_properties n m g2 P.
  Proof using Hset.
    intros Hok Hr F1 F2 K1 K2 Sc E1. destruct (reached_any h g Hok Hr) as (q & Hq & Hg). destruct (repeat_from g g1 g q h1 h2) as (g2 & q' & E2 & I1 & I2 & _); auto; [split; reflexivity|].
    exists g2, (gs_P q'). split; [exact E2|]. split; apply is_properties; auto.
  Qed.

  Lemma reset_repeats h (g g1 : gr) h0 t a t' h1 h2 : calls_fit n m h -> reached neq m dv n blobs h g -> calls_fit n m h0 -> keeps_edges h0 ->
    calls_fit n m ((t, CReset a) :: h1) -> calls_fit n m ((t', CReset a) :: h2) -> keeps_edges h1 -> keeps_edges h2 -> same_calls h1 h2 ->
    run_calls neq m (h0 ++ (t, CReset a) :: h1) g = Ok g1 -> exists g2 P, run_calls neq m ((t', CReset a) :: h2) g1 = Ok g2 /\ shows_properties n m g1 P /\ shows_properties n m g2 P.
  Proof using Hset.
    intros Hok Hr F0 K0 F1 F2 K1 K2 Sc E1. destruct (reached_any h g Hok Hr) as (q & Hq & Hg).
    destruct (calls_fixed neq m Hm n Hn h0 g q F0 K0 Hg) as ([qa|] & _ & R).
    2:{ assert (forall h h' (g : gr), run_calls neq m h g = Err NoFuel -> run_calls neq m (h ++ h') g = Err NoFuel) as X. { clear. induction h as [|c h IH]; intros h' g; cbn [run_calls app]; [discriminate|]. destruct (run_call neq m (fst c) (snd c) g); cbn [bind]; [apply IH|auto]. }
        rewrite (X _ _ _ R) in E1. discriminate. }
    destruct R as (ga & Ea & Ia & Sa).
    assert (forall h h' (g g' : gr), run_calls neq m h g = Ok g' -> run_calls neq m (h ++ h') g = run_calls neq m h' g') as X. { clear. induction h as [|c h IH]; intros h' g g' H; cbn [run_calls app] in *; [injection H as ->; reflexivity|]. destruct (run_call neq m (fst c) (snd c) g); cbn [bind] in *; [apply IH; auto|discriminate]. }
    rewrite (X _ _ _ _ Ea) in E1. clear X. cbn [run_calls fst snd] in E1 |- *.
    inversion F1 as [|? ? Ha F1']; subst. inversion F2 as [|? ? Hb F2']; subst. cbn [fst snd] in Ha, Hb.
    destruct (call_fixed neq m Hm n Hn t (CReset a) ga qa Ha I Ia) as (oa & Sa1 & Ra). cbn [call_in spec_call] in Sa1. subst oa. destruct Ra as (gb & Eb & Ib & Sb). rewrite Eb in E1. cbn [bind] in E1.
    destruct (calls_fixed neq m Hm n Hn h1 gb _ F1' K1 Ib) as (o1 & S1 & R1). destruct o1 as [q1|]; [|congruence]. destruct R1 as (g1' & E1' & I1 & Sc1). rewrite E1 in E1'. injection E1' as <-.
    destruct (call_fixed neq m Hm n Hn t' (CReset a) g1 q1 Hb I I1) as (ob & Sb1 & Rb). cbn [call_in spec_call] in Sb1. subst ob. destruct Rb as (gc & Ec & Ic & Sc2). rewrite Ec. cbn [bind].
    assert (gs_es q1 = gs_es qa) as Es.
    { rewrite (calls_in_edges neq n _ h1 _ _ K1 S1). reflexivity. }
    rewrite Es in Ic. destruct (repeat_from gb g1 gc (mkGS (gs_es qa) (fun _ => a) (fun _ => None)) h1 h2) as (g2 & q' & E2 & J1 & J2 & _); auto.
    { destruct Sc1, Sc2. split; congruence. }
    exists g2, (gs_P q'). split; [exact E2|]. split; apply is_properties; auto.
  Qed.

  (** one run *)
  Lemma run_repeats {S T U} h (g : gr) th1 th2 (jb : job S T U V E) (fr1 fr2 : frame T U byte) r1 k : calls_fit n m h -> reached neq m dv n blobs h g ->
    call_fits n m th1 (CRun jb fr1) -> call_fits n m th2 (CRun jb fr2) -> run_job neq m th1 jb fr1 None g = Ok (r1, k) ->
    exists r2 P, run_job neq m th2 jb fr2 None g = Ok (r2, k) /\ r_s r2 = r_s r1 /\ shows_properties n m (r_g r1) P /\ shows_properties n m (r_g r2) P.
  Proof using Hset.
    intros Hok Hr [T1 F1] [T2 F2] E1. destruct (reached_any h g Hok Hr) as (q & Hq & Hg).
    destruct (run_op_fixed neq m Hm n Hn th1 jb fr1 None (fun _ => j_dt jb) g q T1 F1 Hg eq_refl) as [(K & r & Tk & Er & Es & Hg' & _ & Sm)|[En Er]]; [|congruence].
    rewrite E1 in Er. injection Er as <- ->.
    destruct (run_op_fixed neq m Hm n Hn th2 jb fr2 None (fun _ => j_dt jb) g q T2 F2 Hg eq_refl) as [(K2 & r2 & Tk2 & Er2 & Es2 & Hg2 & _ & Sm2)|[En Er2]].
    - rewrite (takes_one neq n (gorder m n g) jb _ q K2 K Tk2 Tk) in *. exists r2. eexists. split; [exact Er2|]. split; [congruence|]. split; [apply (is_properties neq m Hm n Hn _ _ Hg')|apply (is_properties neq m Hm n Hn _ _ Hg2)].
    - destruct Tk as (B & A1 & _). destruct (En K B A1).
  Qed.
  Lemma reset_repeats' h (g g1 : gr) h0 t a t' h1 h2 : calls_fit n m h -> reached neq m dv n blobs h g -> calls_fit n m (h0 ++ (t, CReset a) :: h1) ->
    calls_fit n m ((t', CReset a) :: h2) -> keeps_edges h0 -> keeps_edges h1 -> keeps_edges h2 -> same_calls h1 h2 ->
    run_calls neq m (h0 ++ (t, CReset a) :: h1) g = Ok g1 -> exists g2 P, run_calls neq m ((t', CReset a) :: h2) g1 = Ok g2 /\ shows_properties n m g1 P /\ shows_properties n m g2 P.
  Proof using Hset. intros A B C D F0 F1 F2 S. apply Forall_app in C as [C1 C2]. apply (reset_repeats h g g1 h0 t a t' h1 h2); auto. Qed.
End Final.

(** under an order that has every arriving edge once, every message is used once *)
Lemma reduced_received {S T U V E} n (es : list (edge E)) ord (pg : program S T U V E) (dv : V) st v :
  order_of n es ord -> 1 <= v <= n -> combined_of (pr_reduce pg (v_s st)) (received es pg dv st v) (reduced_in pg dv ord st v).
Proof.
  intros Ho Bv. apply (combined_of_perm _ (flat_map (fun a => olist (delivered pg dv st a)) (leaves (ord (pr_order pg) v)))); [apply eval_combined|].
  rewrite (Permutation_flat_map _ (Ho (pr_order pg) v Bv)).
  assert (forall l, flat_map (fun a => olist (delivered pg dv st a)) (filter (fun a => e_dst a =? v) l) = arriving l pg dv st along v) as G1.
  { unfold arriving. induction l as [|e l IH]; [reflexivity|]. cbn [filter flat_map along fst snd]. destruct (Z.eqb_spec (e_dst e) v) as [Ev|]; [|exact IH]. cbn [flat_map]. rewrite IH. f_equal. unfold delivered. rewrite Ev. destruct (message pg st (e_src e)); reflexivity. }
  assert (forall l, flat_map (fun a => olist (delivered pg dv st a)) (filter (fun a => e_dst a =? v) (map reversed l)) = arriving l pg dv st against v) as G2.
  { unfold arriving. induction l as [|e l IH]; [reflexivity|]. cbn [map filter flat_map against reversed e_src e_dst e_val fst snd]. destruct (Z.eqb_spec (e_src e) v) as [Ev|]; [|exact IH]. cbn [flat_map]. rewrite IH. f_equal. unfold delivered. cbn [reversed e_src e_dst e_val]. rewrite Ev. destruct (message pg st (e_dst e)); reflexivity. }
  unfold received, arrivals. destruct (pr_order pg); rewrite ?filter_app, ?flat_map_app, ?G2, ?G1; reflexivity.
Qed.
