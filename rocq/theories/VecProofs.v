From Verif Require Import BaseLemmas Layout LayoutProofs Bits BitsProofs Segment SegmentProofs SegHistory SegHistoryProofs Bucket BucketProofs Vec.

Lemma mapR_zrange {A} (f : Z -> R A) (Q : Z -> A -> Prop) m : 0 <= m ->
  (forall j, 0 <= j < m -> exists a, f j = Ok a /\ Q j a) ->
  exists l, mapR f (zrange 0 m) = Ok l /\ zlen l = m /\
    (forall j, 0 <= j < m -> exists a, rd l j = Ok a /\ f j = Ok a /\ Q j a).
Proof.
  intros Hm. replace m with (Z.of_nat (Z.to_nat m)) by lia. generalize (Z.to_nat m) as k. clear.
  induction k as [|k IH]; intros H.
  - exists []. split; [reflexivity|]. split; [reflexivity|]. intros; lia.
  - destruct IH as (l & E & L & I); [intros; apply H; lia|].
    destruct (H (Z.of_nat k)) as (a & Ea & Qa); [lia|].
    exists (l ++ [a]). replace (Z.of_nat (S k)) with (Z.of_nat k + 1) by lia.
    rewrite zrange_snoc, mapR_app by lia. rewrite E. cbn [mapR bind]. rewrite Ea. cbn [bind]. split; [reflexivity|].
    split; [rewrite zlen_app; change (zlen [a]) with 1; lia|]. intros j Hj.
    destruct (Z.eq_dec j (Z.of_nat k)) as [->|N].
    + exists a. rewrite rd_app2 by lia. rewrite L, Z.sub_diag. auto.
    + destruct (I j) as (b & B & P); [lia|]. exists b. rewrite rd_app1 by lia. auto.
Qed.

Lemma rd2_ok {A} (t : list (list A)) r j row a : rd t r = Ok row -> rd row j = Ok a -> rd2 t r j = Ok a.
Proof. intros H H'. unfold rd2. rewrite H. auto. Qed.
Lemma rd2_inv {A} (t : list (list A)) r j a : rd2 t r j = Ok a -> exists row, rd t r = Ok row /\ rd row j = Ok a.
Proof. intros H. apply bind_Ok in H. auto. Qed.

Definition dims {A} (nr ns : Z) (t : list (list A)) : Prop :=
  zlen t = nr /\ forall r row, rd t r = Ok row -> zlen row = ns.
Lemma dims_rd2 {A} nr ns (t : list (list A)) r j : dims nr ns t -> 0 <= r < nr -> 0 <= j < ns -> exists a, rd2 t r j = Ok a.
Proof.
  intros [H1 H2] Hr Hj. destruct (rd_ok t r) as [row Hrow]; [lia|]. destruct (rd_ok row j) as [a Ha]; [rewrite (H2 _ _ Hrow); lia|].
  exists a. eapply rd2_ok; eauto.
Qed.
Lemma dims_bounds {A} nr ns (t : list (list A)) r j a : dims nr ns t -> rd2 t r j = Ok a -> 0 <= r < nr /\ 0 <= j < ns.
Proof.
  intros [H1 H2] H. apply rd2_inv in H as (row & Hr & Hj). pose proof (rd_bounds _ _ _ Hr). pose proof (rd_bounds _ _ _ Hj).
  rewrite (H2 _ _ Hr) in *. lia.
Qed.

Lemma tab2_spec {A} nr ns (f : Z -> Z -> R A) (Q : Z -> Z -> A -> Prop) : 0 <= nr -> 0 <= ns ->
  (forall r j, 0 <= r < nr -> 0 <= j < ns -> exists a, f r j = Ok a /\ Q r j a) ->
  exists t, tab2 nr ns f = Ok t /\ dims nr ns t /\
    forall r j, 0 <= r < nr -> 0 <= j < ns -> exists a, rd2 t r j = Ok a /\ f r j = Ok a /\ Q r j a.
Proof.
  intros Hr Hs H. unfold tab2.
  destruct (mapR_zrange (fun r => mapR (fun j => f r j) (zrange 0 ns))
     (fun r row => zlen row = ns /\ forall j, 0 <= j < ns -> exists a, rd row j = Ok a /\ f r j = Ok a /\ Q r j a) nr Hr) as (t & E & L & I).
  { intros r Br. destruct (mapR_zrange (f r) (Q r) ns Hs) as (row & E & L & I); [auto|]. eauto. }
  exists t. split; auto. split.
  - split; auto. intros r row Hrow. destruct (I r) as (row' & E1 & _ & L1 & _); [pose proof (rd_bounds _ _ _ Hrow); lia|]. congruence.
  - intros r j Br Bj. destruct (I r Br) as (row & E1 & _ & L1 & I1). destruct (I1 j Bj) as (a & Ea & P). exists a.
    split; [eapply rd2_ok; eauto|auto].
Qed.

Section VP.
  Context {T byte : Type}.
  Notation sg := (seg T byte).
  Variable ser : bool.
  Variable thr : Z.
  Variables n ns nr : Z.
  Hypothesis Hn : 0 <= n.
  Hypothesis Hs : 1 <= ns.
  Hypothesis Hr : 1 <= nr.

  Definition ow (j : Z) : Z := j mod nr.
  Definition st (j : Z) : Z := start_at n ns j.
  Definition cap (j : Z) : Z := st (j + 1) - st j.

  Lemma vown_ok j : 0 <= j -> vown ns nr j = Ok (ow j).
  Proof.
    intros H. unfold vown, vector_partition_fn. destruct (Z.eqb_spec nr 0); [lia|]. rewrite rem_mod by lia. auto.
  Qed.
  Lemma ow_range j : 0 <= ow j < nr.
  Proof. unfold ow. apply Z.mod_pos_bound. lia. Qed.
  Lemma rd_st j : 0 <= j <= ns -> rd (starts n ns) j = Ok (st j).
  Proof. intros H. unfold st. rewrite rd_starts by lia. auto. Qed.
  Lemma cap_nonneg j : 0 <= cap j.
  Proof. unfold cap, st. pose proof (start_at_mono n ns j (j+1) Hn Hs ltac:(lia)). lia. Qed.
  Lemma st_bounds j : 0 <= j <= ns -> 0 <= st j <= n.
  Proof.
    intros H. unfold st. pose proof (start_at_mono n ns 0 j Hn Hs ltac:(lia)). unfold start_at in *. lia.
  Qed.

  (** the segment list of one rank *)
  Definition rwf (segs : list sg) : Prop :=
    zlen segs = ns /\ forall j s, rd segs j = Ok s -> swf ser thr s /\ s_cap s = cap j.

  Lemma rwf_new junk fresh : exists segs : list sg, vec_new n ns junk fresh = Ok segs /\ rwf segs /\
    forall j, 0 <= j < ns -> rd segs j = Ok (new_seg (cap j) (junk j) fresh).
  Proof.
    unfold vec_new. destruct (Z.ltb_spec 0 ns); [|lia]. cbn [assertb bind].
    destruct (mapR_zrange (fun j => do a <- rd (starts n ns) j ;; do b <- rd (starts n ns) (j + 1) ;; Ok (@new_seg T byte (b - a) (junk j) fresh))
        (fun j s => s = new_seg (cap j) (junk j) fresh) ns ltac:(lia)) as (l & E & L & I).
    - intros j Hj. rewrite !rd_st by lia. cbn [bind]. eexists; split; reflexivity.
    - exists l. split; auto. assert (forall j, 0 <= j < ns -> rd l j = Ok (new_seg (cap j) (junk j) fresh)) as I'.
      { intros j Hj. destruct (I j Hj) as (a & Ha & _ & ->). auto. }
      split; auto. split; auto. intros j s Hj. rewrite I' in Hj by (pose proof (rd_bounds _ _ _ Hj); lia). oki Hj.
      split; [apply swf_new, cap_nonneg|reflexivity].
  Qed.

  Lemma each_owned_spec r f (segs : list sg) (Q : Z -> sg -> sg -> Prop) : zlen segs = ns ->
    (forall j s, rd segs j = Ok s -> ow j = r -> exists s', f j s = Ok s' /\ Q j s s') ->
    exists segs', each_owned ns nr r f segs = Ok segs' /\ zlen segs' = ns /\
      forall j s, rd segs j = Ok s -> exists s', rd segs' j = Ok s' /\ ((ow j = r /\ Q j s s') \/ (ow j <> r /\ s' = s)).
  Proof.
    intros L H. unfold each_owned.
    destruct (mapR_zrange (fun j => do s <- rd segs j ;; do o <- vown ns nr j ;; if o =? r then f j s else Ok s)
       (fun j s' => exists s, rd segs j = Ok s /\ ((ow j = r /\ Q j s s') \/ (ow j <> r /\ s' = s))) ns ltac:(lia)) as (l & E & L' & I).
    - intros j Hj. destruct (rd_ok segs j) as [s Es]; [lia|]. rewrite Es. cbn [bind]. rewrite vown_ok by lia. cbn [bind].
      destruct (Z.eqb_spec (ow j) r) as [O|O].
      + destruct (H j s Es O) as (s' & E & q). exists s'. split; auto. exists s. auto.
      + exists s. split; auto. exists s. auto.
    - exists l. split; auto. split; auto. intros j s Es. pose proof (rd_bounds _ _ _ Es).
      destruct (I j) as (s' & E' & _ & s0 & E0 & q); [lia|]. exists s'. split; auto. rewrite E0 in Es. oki Es. auto.
  Qed.

  Lemma at_owner_spec r idx f (segs : list sg) (Q : sg -> sg -> Prop) : rwf segs -> 1 <= idx <= n ->
    (forall s, rd segs (vpart n ns idx) = Ok s -> ow (vpart n ns idx) = r ->
        1 <= idx - st (vpart n ns idx) <= s_cap s -> exists s', f (idx - st (vpart n ns idx)) s = Ok s' /\ Q s s') ->
    exists segs', at_owner n ns nr r idx f segs = Ok segs' /\ zlen segs' = ns /\
      forall j s, rd segs j = Ok s -> exists s', rd segs' j = Ok s' /\
         ((j = vpart n ns idx /\ ow j = r /\ Q s s') \/ (~ (j = vpart n ns idx /\ ow j = r) /\ s' = s)).
  Proof.
    intros [L W] Hi H. unfold at_owner. rewrite vpart_ok by auto. cbn [bind].
    pose proof (vpart_range n ns idx Hn Hs Hi) as [B1 B2]. fold (st (vpart n ns idx)) in B2. fold (st (vpart n ns idx + 1)) in B2.
    set (p := vpart n ns idx) in *. destruct (Z.leb_spec 0 p); [|lia]. cbn [assertb bind]. rewrite vown_ok by lia. cbn [bind].
    destruct (Z.eqb_spec (ow p) r) as [O|O].
    - destruct (rd_ok segs p) as [s Es]; [lia|]. rewrite Es. cbn [bind]. destruct (W p s Es) as [Ws C].
      unfold cap in C. destruct (Z.ltb_spec 0 (s_cap s)); [|lia]. cbn [assertb bind]. rewrite rd_st by lia. cbn [bind].
      destruct (H s Es O) as (s' & E & q); [lia|]. rewrite E. cbn [bind]. rewrite wr_ok by lia. eexists. split; [reflexivity|].
      split; [rewrite zlen_upd; auto|]. intros j s0 E0. destruct (Z.eq_dec j p) as [->|N].
      + rewrite Es in E0. oki E0. exists s'. rewrite rd_upd_same by lia. auto.
      + exists s0. rewrite rd_upd_other by lia. split; auto. right. split; auto. tauto.
    - exists segs. split; auto. split; auto. intros j s Es. exists s. split; auto. right. split; auto. intros [-> ?]. auto.
  Qed.

  (** restriction of a map on 1..n to segment [j], renumbered from 1 *)
  Definition restr (M : Z -> option T) (j k : Z) : option T :=
    if (1 <=? k) && (k <=? cap j) then M (st j + k) else None.
  Definition live (s : sg) : Prop := exists b, s_prop s = Some b /\ b_uninit b = false.
  (** rank [r]'s owned segments hold [M] *)
  Definition rholds (r : Z) (segs : list sg) (M : Z -> option T) : Prop :=
    forall j s, rd segs j = Ok s -> ow j = r -> forall k, sabs s k = option_map Some (restr M j (k + 1)).

  Definition shift (j : Z) (o : sop T) : sop T :=
    match o with OSet id a => OSet (id - st j) a | OUnset id => OUnset (id - st j) | o => o end.

  Lemma seg_ids j id : 0 <= j < ns -> (1 <= id <= n /\ vpart n ns id = j) <-> 1 <= id - st j <= cap j.
  Proof.
    intros Hj. rewrite <- (vpart_iff n ns id j Hn Hs Hj). fold (st j) (st (j+1)). unfold cap. lia.
  Qed.

  (** a segment-level step on segment j is the restriction of the global step *)
  Lemma restr_step (M : Z -> option T) (o : sop T) j k : 0 <= j < ns -> (match o with OSet id _ | OUnset id => 1 <= id - st j <= cap j | _ => True end) ->
    spec_sop (cap j) (restr M j) (shift j o) k = restr (spec_sop n M o) j k.
  Proof.
    intros Hj Hid. pose proof (st_bounds j ltac:(lia)). pose proof (st_bounds (j+1) ltac:(lia)). pose proof (cap_nonneg j).
    unfold restr. destruct o as [id a|id|a| |a]; simpl in *.
    - destruct (Z.eqb_spec k (id - st j)); destruct (Z.eqb_spec (st j + k) id); try lia;
        destruct (Z.leb_spec 1 k); destruct (Z.leb_spec k (cap j)); simpl; auto; lia.
    - destruct (Z.eqb_spec k (id - st j)); destruct (Z.eqb_spec (st j + k) id); try lia;
        destruct (Z.leb_spec 1 k); destruct (Z.leb_spec k (cap j)); simpl; auto; lia.
    - destruct (Z.leb_spec 1 k); destruct (Z.leb_spec k (cap j)); simpl; auto.
      unfold cap in *. destruct (Z.leb_spec 1 (st j + k)); destruct (Z.leb_spec (st j + k) n); simpl; auto; lia.
    - destruct ((1 <=? k) && (k <=? cap j)); auto.
    - destruct ((1 <=? k) && (k <=? cap j)); auto.
  Qed.

  Lemma restr_skip (M : Z -> option T) (o : sop T) j k : 0 <= j < ns -> (match o with OSet id _ | OUnset id => ~ (1 <= id - st j <= cap j) | _ => False end) ->
    restr (spec_sop n M o) j k = restr M j k.
  Proof.
    intros Hj Hid. unfold restr. destruct (Z.leb_spec 1 k); destruct (Z.leb_spec k (cap j)); simpl; auto.
    destruct o; simpl in *; try tauto; destruct (Z.eqb_spec (st j + k) id); auto; lia.
  Qed.

  Lemma seg_step threads r segs M o j s : thok ser thr threads -> rwf segs -> rholds r segs M -> rd segs j = Ok s -> ow j = r ->
    (match o with OSet id _ | OUnset id => 1 <= id - st j <= cap j | _ => True end) ->
    exists s', run_sop threads s (shift j o) = Ok s' /\ swf ser thr s' /\ s_cap s' = cap j /\
      (forall k, sabs s' k = option_map Some (restr (spec_sop n M o) j (k + 1))) /\ (o <> OClear -> live s').
  Proof.
    intros Ht [L W] Hh Es O Hid. destruct (W j s Es) as [Ws C]. pose proof (rd_bounds _ _ _ Es) as B.
    destruct (run_sop_spec ser thr threads (cap j) s (restr M j) (shift j o) Ht Ws C) as (s' & E & W' & C' & A & _ & Lv & _).
    - destruct o; simpl in *; auto.
    - intros k. apply (Hh j s Es O).
    - exists s'. split; auto. split; auto. split; auto. split.
      + intros k. rewrite A, restr_step by (auto; lia). auto.
      + intros N. apply Lv. destruct o; simpl; auto.
  Qed.

  Lemma vop_spec threads r segs M o : thok ser thr threads -> rwf segs -> rholds r segs M -> sop_in_range n o ->
    exists segs', run_vop n ns nr threads r segs o = Ok segs' /\ rwf segs' /\ rholds r segs' (spec_sop n M o) /\
      (forall j s, rd segs j = Ok s -> ow j <> r -> rd segs' j = Ok s) /\
      (match o with OSetAll _ | OSetInactive _ => forall j s, rd segs' j = Ok s -> ow j = r -> live s
       | OSet _ _ | OUnset _ => forall j s s', rd segs j = Ok s -> rd segs' j = Ok s' -> live s -> live s' | OClear => True end).
  Proof.
    intros Ht Wf Hh Ho.
    (* set and unset touch one segment *)
    assert (forall id f, 1 <= id <= n -> (match o with OSet i _ | OUnset i => i = id | _ => False end) ->
       (forall s, f (id - st (vpart n ns id)) s = run_sop threads s (shift (vpart n ns id) o)) ->
       exists segs', at_owner n ns nr r id f segs = Ok segs' /\ rwf segs' /\ rholds r segs' (spec_sop n M o) /\
        (forall j s, rd segs j = Ok s -> ow j <> r -> rd segs' j = Ok s) /\
        (forall j s s', rd segs j = Ok s -> rd segs' j = Ok s' -> live s -> live s')) as One.
    { intros id f Hid Hoid Hf. set (p := vpart n ns id) in *.
      pose proof (vpart_range n ns id Hn Hs Hid) as [Bp _]. fold p in Bp.
      assert (1 <= id - st p <= cap p) as Bid by (apply seg_ids; auto).
      destruct (at_owner_spec r id f segs (fun s s' => swf ser thr s' /\ s_cap s' = cap p /\
          (forall k, sabs s' k = option_map Some (restr (spec_sop n M o) p (k + 1))) /\ live s') Wf Hid) as (segs' & E & L' & I).
      { fold p. intros s Es O _. destruct (seg_step threads r segs M o p s Ht Wf Hh Es O) as (s' & E & W1 & C1 & A1 & L1).
        - destruct o; try contradiction; subst; auto.
        - exists s'. rewrite Hf. conjs; auto. apply L1. destruct o; try contradiction; discriminate. }
      destruct Wf as [L W].
      assert (forall j s', rd segs' j = Ok s' -> exists s, rd segs j = Ok s) as Back.
      { intros j s' E'. pose proof (rd_bounds _ _ _ E'). apply rd_ok. lia. }
      exists segs'. split; auto. split; [split; auto|split; [|split]].
      - intros j s' E'. destruct (Back j s' E') as [s Es]. destruct (I j s Es) as (s1 & E1 & [(-> & O & (W1 & C1 & _)) | (_ & ->)]); rewrite E' in E1; oki E1; auto.
      - intros j s' E' O k. destruct (Back j s' E') as [s Es]. pose proof (rd_bounds _ _ _ Es).
        destruct (I j s Es) as (s1 & E1 & [(-> & _ & (_ & _ & A1 & _)) | (N & ->)]); rewrite E' in E1; oki E1; auto.
        rewrite (Hh j _ Es ltac:(auto) k). f_equal. symmetry. apply restr_skip; [lia|].
        assert (~ 1 <= id - st j <= cap j) as NN.
        { rewrite <- (seg_ids j id) by lia. intros [_ Q]. apply N. auto. }
        destruct o; try contradiction; subst; auto.
      - intros j s Es O. destruct (I j s Es) as (s1 & E1 & [(-> & O1 & _) | (_ & ->)]); auto. contradiction.
      - intros j s s' Es E' Lv. destruct (I j s Es) as (s1 & E1 & [(-> & _ & (_ & _ & _ & L1)) | (N & ->)]); rewrite E' in E1; oki E1; auto. }
    assert (forall f, (match o with OSet _ _ | OUnset _ => False | _ => True end) ->
       (forall j s, rd segs j = Ok s -> ow j = r -> f j s = run_sop threads s o) ->
       exists segs', each_owned ns nr r f segs = Ok segs' /\ rwf segs' /\ rholds r segs' (spec_sop n M o) /\
        (forall j s, rd segs j = Ok s -> ow j <> r -> rd segs' j = Ok s) /\ (o <> OClear -> forall j s, rd segs' j = Ok s -> ow j = r -> live s)) as All.
    { intros f Hoid Hf.
      destruct (each_owned_spec r f segs (fun j s s' => swf ser thr s' /\ s_cap s' = cap j /\
          (forall k, sabs s' k = option_map Some (restr (spec_sop n M o) j (k + 1))) /\ (o <> OClear -> live s'))) as (segs' & E & L' & I).
      { apply Wf. }
      { intros j s Es O. destruct (seg_step threads r segs M o j s Ht Wf Hh Es O) as (s' & E & W1 & C1 & A1 & L1).
        - destruct o; try contradiction; auto.
        - exists s'. rewrite Hf by auto. assert (shift j o = o) as So by (destruct o; try contradiction; auto). rewrite So in E.
          conjs; auto. }
      destruct Wf as [L W].
      assert (forall j s', rd segs' j = Ok s' -> exists s, rd segs j = Ok s) as Back.
      { intros j s' E'. pose proof (rd_bounds _ _ _ E'). apply rd_ok. lia. }
      exists segs'. split; auto. split; [split; auto|split; [|split]].
      - intros j s' E'. destruct (Back j s' E') as [s Es]. destruct (I j s Es) as (s1 & E1 & [(O & (W1 & C1 & _)) | (_ & ->)]); rewrite E' in E1; oki E1; auto.
      - intros j s' E' O k. destruct (Back j s' E') as [s Es].
        destruct (I j s Es) as (s1 & E1 & [(_ & (_ & _ & A1 & _)) | (N & ->)]); [|contradiction]; rewrite E' in E1; oki E1; auto.
      - intros j s Es O. destruct (I j s Es) as (s1 & E1 & [(O1 & _) | (_ & ->)]); auto. contradiction.
      - intros No j s' E' O. destruct (Back j s' E') as [s Es].
        destruct (I j s Es) as (s1 & E1 & [(_ & (_ & _ & _ & L1)) | (N & ->)]); [|contradiction]; rewrite E' in E1; oki E1; auto. }
    destruct o as [id a|id|a| |a]; cbn [run_vop].
    - unfold vec_set. apply One; auto.
    - unfold vec_unset. apply One; auto.
    - unfold vec_setAll. destruct (All (fun _ s => seg_setAll threads (Some a) s)) as (segs' & P1 & P2 & P3 & P4 & P5); auto. exists segs'.
      conjs; auto. apply P5. discriminate.
    - unfold vec_clear. destruct (All (fun _ s => Ok (seg_set_uninitialized s))) as (segs' & P); auto. exists segs'. tauto.
    - (* two loops; compose per segment *)
      unfold vec_set_inactive, vec_setAll.
      destruct (All (fun j s => run_sop threads s (OSetInactive a))) as (segs2 & E2 & P); auto.
      exists segs2. destruct P as (P2 & P3 & P4 & P5). conjs; auto; [|apply P5; discriminate].
      (* fusion *)
      assert (forall g h : Z -> sg -> R sg, (forall j s, rd segs j = Ok s -> ow j = r -> exists s', (do s1 <- g j s ;; h j s1) = Ok s') ->
         (do x <- each_owned ns nr r g segs ;; each_owned ns nr r h x) = each_owned ns nr r (fun j s => do s1 <- g j s ;; h j s1) segs) as Fus.
      { intros g h Hgh. destruct Wf as [L W].
        destruct (each_owned_spec r g segs (fun j s s' => g j s = Ok s') L) as (x & Ex & Lx & Ix).
        { intros j s Es O. destruct (Hgh j s Es O) as (s' & Q). apply bind_Ok in Q as (s1 & Q1 & _). eauto. }
        rewrite Ex. cbn [bind].
        destruct (each_owned_spec r h x (fun j s s' => h j s = Ok s') Lx) as (y & Ey & Ly & Iy).
        { intros j s1 Es1 O. assert (exists s, rd segs j = Ok s) as [s Es] by (apply rd_ok; pose proof (rd_bounds _ _ _ Es1); lia).
          destruct (Ix j s Es) as (s1' & E1' & [(_ & G) | (N & _)]); [|contradiction]. rewrite Es1 in E1'; oki E1'.
          destruct (Hgh j s Es O) as (s' & Q). rewrite G in Q. eauto. }
        rewrite Ey.
        destruct (each_owned_spec r (fun j s => do s1 <- g j s ;; h j s1) segs (fun j s s' => (do s1 <- g j s ;; h j s1) = Ok s') L) as (z & Ez & Lz & Iz).
        { intros j s Es O. destruct (Hgh j s Es O) as (s' & Q). eauto. }
        rewrite Ez. f_equal. apply rd_ext; [lia|]. intros j Hj. destruct (rd_ok segs j) as [s Es]; [lia|].
        destruct (Ix j s Es) as (s1 & E1 & [(O & G) | (O & ->)]); destruct (Iy j _ E1) as (s2 & E2' & [(O' & G') | (O' & ->)]); try contradiction;
          destruct (Iz j s Es) as (s3 & E3 & [(O'' & G'') | (O'' & ->)]); try contradiction; try congruence.
        rewrite G in G''. cbn [bind] in G''. congruence. }
      rewrite Fus; [exact E2|]. intros j s Es O.
      destruct (seg_step threads r segs M (OSetInactive a) j s Ht Wf Hh Es O I) as (s' & E & _). exists s'. exact E.
  Qed.
End VP.
