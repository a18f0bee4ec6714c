(** COOSIMD32 tiles. *)
From Coq Require Import Sorting.Sorted.
From Verif Require Import BaseLemmas Segment SegmentProofs Bucket BucketProofs VecProofs2 ListLemmas Search SearchProofs DCSC EdgeList EdgeSpec MatSpec DCSCFinal GraphVertProofs Tiles TilesProofs DcsrProofs.

Lemma wr_mid {A} (l : list A) x r y i : i = zlen l -> wr (l ++ x :: r) i y = Ok (l ++ y :: r).
Proof.
  intros ->. pose proof (zlen_nonneg l). pose proof (zlen_nonneg r). rewrite wr_ok by (rewrite zlen_app, zlen_cons; lia). f_equal.
  replace (Z.to_nat (zlen l)) with (length l) by (unfold zlen; lia). clear. induction l; simpl; congruence.
Qed.
Lemma zrange_shift_map {A} (f : Z -> A) lo mid hi : lo <= mid <= hi -> map f (zrange lo hi) = map f (zrange lo mid) ++ map f (zrange mid hi).
Proof. intros H. rewrite <- map_app, <- zrange_app by lia. auto. Qed.
Lemma Permutation_concat {A} (l l' : list (list A)) : Permutation l l' -> Permutation (concat l) (concat l').
Proof.
  induction 1; simpl; auto.
  - apply Permutation_app_head; auto.
  - rewrite !app_assoc. apply Permutation_app_tail. apply Permutation_app_comm.
  - etransitivity; eauto.
Qed.

Definition block_of {E} (e : edge E) : Z := (e_src e - 1) / 32.

Section Fill.
  Context {E : Type}.
  Variable tmp : list (tedge E).
  Variable d : edge E.
  Let nnz := zlen tmp.
  Definition ent (i : Z) : edge E := match rd tmp i with Ok e => snd e | Err _ => d end.
  Definition srcs := map (fun e : tedge E => e_src (snd e)) tmp.
  Notation filling := (@filling E).

  Definition fil (done : list (edge E)) (f : filling) : Prop :=
    filled nnz (f_a f) (map e_val done) /\ filled nnz (f_ja f) (map e_dst done) /\
    f_ia f = map e_src done ++ skipn (length done) srcs.

  Lemma ent_rd i : 0 <= i < nnz -> exists te, rd tmp i = Ok te /\ snd te = ent i.
  Proof. intros H. destruct (rd_ok tmp i H) as [te Ht]. exists te. split; auto. unfold ent. rewrite Ht. auto. Qed.

  Lemma copy_edge_spec start eid done f : fil done f -> f_cnt f + start = zlen done -> zlen done < nnz -> 0 <= eid < nnz ->
    exists f', copy_edge tmp start eid f = Ok f' /\ fil (done ++ [ent eid]) f' /\ f_cnt f' = f_cnt f + 1.
  Proof.
    intros (F1 & F2 & F3) Hc Hl He. unfold copy_edge. destruct (ent_rd eid He) as (te & Ht & Hte). rewrite Ht; cbn [bind]. rewrite Hte.
    destruct (filled_wr _ _ _ (f_cnt f + start) (e_dst (ent eid)) F2) as (ja' & -> & G2); try (rewrite zlen_map; lia). cbn [bind].
    assert (exists x r, skipn (length done) srcs = x :: r /\ skipn (S (length done)) srcs = r) as (x & r & S1 & S2).
    { destruct (skipn (length done) srcs) as [|x r] eqn:Q.
      - exfalso. assert (length (skipn (length done) srcs) = 0%nat) as L by (rewrite Q; auto). rewrite skipn_length in L. unfold srcs in L. rewrite map_length in L. unfold nnz, zlen in *. lia.
      - exists x, r. split; auto. replace (S (length done)) with (1 + length done)%nat by lia. clear -Q. revert Q. generalize (length done) as k. induction srcs as [|y l IH]; intros [|k]; simpl; intros Q; try discriminate; [injection Q; auto|apply IH in Q; auto]. }
    rewrite F3, S1. rewrite wr_mid by (rewrite zlen_map; auto). cbn [bind].
    destruct (filled_wr _ _ _ (f_cnt f + start) (e_val (ent eid)) F1) as (a' & -> & G1); try (rewrite zlen_map; lia). cbn [bind].
    eexists. split; [reflexivity|]. split; [|reflexivity]. split; [|split]; cbn [f_a f_ja f_ia]; rewrite ?map_app; auto.
    rewrite <- app_assoc. simpl. f_equal. f_equal. rewrite app_length. replace (length done + length [ent eid])%nat with (S (length done)) by (simpl; lia). auto.
  Qed.

  (** copying a range of entries *)
  Lemma copy_range start x : forall lo hi done f, lo <= hi -> fil done f -> f_cnt f + start = zlen done -> zlen done + (hi - lo) <= nnz -> 0 <= x + lo -> x + hi <= nnz ->
    exists f', forZ lo hi (fun t f => copy_edge tmp start (x + t) f) f = Ok f' /\ fil (done ++ map ent (zrange (x + lo) (x + hi))) f' /\ f_cnt f' = f_cnt f + (hi - lo).
  Proof.
    intros lo hi done f Hlh F Hc Hn H0 H1.
    destruct (forZ_inv (fun t f' => fil (done ++ map ent (zrange (x + lo) (x + t))) f' /\ f_cnt f' = f_cnt f + (t - lo)) lo hi (fun t f => copy_edge tmp start (x + t) f) f) as (f' & E1 & F' & C'); auto.
    - rewrite (zrange_nil (x + lo)) by lia. simpl. rewrite app_nil_r. split; auto. lia.
    - intros t f1 Ht [F1 C1]. assert (zlen (done ++ map ent (zrange (x + lo) (x + t))) = zlen done + (t - lo)) as L by (rewrite zlen_app, zlen_map, zlen_zrange by lia; lia).
      destruct (copy_edge_spec start (x + t) _ f1 F1) as (f2 & E2 & F2 & C2); try lia. exists f2. split; auto. split; [|lia].
      replace (x + (t + 1)) with (x + t + 1) by lia. rewrite zrange_snoc, map_app, app_assoc by lia. auto.
    - exists f'. auto.
  Qed.

  Section Part.
    Variables (start nparts off : Z) (bord : Z -> Z) (borders : list Z).
    Hypothesis Hborders : forall k, 0 <= k <= nparts -> rd borders k = Ok (bord k).
    Hypothesis Hmono : forall k, 0 <= k < nparts -> bord k <= bord (k + 1).
    Hypothesis Hlo : forall k, 0 <= k <= nparts -> start <= bord k <= nnz.
    Hypothesis Hstart : 0 <= start.
    Hypothesis Hblk : forall k i, 0 <= k < nparts -> bord k <= i < bord (k + 1) -> block_of (ent i) = k + off.

    Definition bin_ok (b : bin) : Prop :=
      0 <= p32 b < nparts /\ num_total b = bord (p32 b + 1) - bord (p32 b) /\ 0 <= num_taken b /\ 0 <= num_left b /\ num_left b + num_taken b = num_total b.
    Definition taken_of (b : bin) : list (edge E) := map ent (zrange (bord (p32 b)) (bord (p32 b) + num_taken b)).
    Definition rest_of (b : bin) : list (edge E) := map ent (zrange (bord (p32 b) + num_taken b) (bord (p32 b) + num_total b)).
    Definition seg_of (q : Z) : list (edge E) := map ent (zrange (bord q) (bord (q + 1))).
    Definition lefts (bs : list bin) : Z := zsum (map num_left bs).
    Definition busy (bs : list bin) : Z := zlen (filter (fun b => 0 <? num_left b) bs).

    Lemma lefts_nonneg bs : Forall bin_ok bs -> 0 <= lefts bs.
    Proof. intros H. apply zsum_nonneg. intros x Hx. apply in_map_iff in Hx as (b & <- & Hb). rewrite Forall_forall in H. apply H in Hb. unfold bin_ok in Hb. lia. Qed.
    Lemma busy_cons b bs : busy (b :: bs) = (if 0 <? num_left b then 1 else 0) + busy bs.
    Proof. unfold busy. cbn [filter]. destruct (0 <? num_left b); rewrite ?zlen_cons; lia. Qed.
    Lemma busy_nonneg bs : 0 <= busy bs. Proof. apply zlen_nonneg. Qed.

    Lemma rotate_spec : forall bins rot full done f, Forall bin_ok bins -> 0 <= rot < 32 -> fil done f -> f_cnt f + start = zlen done -> zlen done + lefts bins <= nnz ->
      exists bins' full' new f', rotate tmp borders start bins rot full f = Ok (bins', full', f') /\ Forall bin_ok bins' /\ map p32 bins' = map p32 bins /\
        fil (done ++ new) f' /\ f_cnt f' = f_cnt f + zlen new /\ Permutation (concat (map taken_of bins')) (concat (map taken_of bins) ++ new) /\
        lefts bins' + zlen new = lefts bins /\ full' - busy bins' = full - busy bins /\ zlen new = Z.min (32 - rot) (busy bins) /\
        incl (map block_of new) (map (fun q => q + off) (map p32 bins)) /\ (NoDup (map p32 bins) -> NoDup (map block_of new)).
    Proof.
      induction bins as [|b rest IH]; intros rot full done f Hok Hrot F Hc Hn.
      - exists [], full, [], f. cbn [rotate]. split; auto. split; auto. split; auto. split; [rewrite app_nil_r; auto|]. split; [change (zlen (@nil (edge E))) with 0; lia|]. split; [apply perm_nil|].
        split; [reflexivity|]. split; [lia|]. split; [change (zlen (@nil (edge E))) with 0; change (busy []) with 0; lia|]. split; [intros ? []|]. intros _. constructor.
      - apply Forall_cons_iff in Hok as [Hb Hrest]. pose proof Hb as (B1 & B2 & B3 & B4 & B5). pose proof (lefts_nonneg rest Hrest) as LR. pose proof (busy_nonneg rest) as BR.
        assert (lefts (b :: rest) = num_left b + lefts rest) as LC by reflexivity.
        cbn [rotate]. rewrite busy_cons. destruct (Z.ltb_spec 0 (num_left b)) as [Hl|Hl].
        + rewrite (Hborders (p32 b)) by lia. cbn [bind]. cbn [num_left p32 num_total num_taken].
          pose proof (Hlo (p32 b) ltac:(lia)) as L1. pose proof (Hlo (p32 b + 1) ltac:(lia)) as L2.
          destruct (copy_edge_spec start (bord (p32 b) + num_taken b) done f F Hc) as (f1 & E1 & F1 & C1); try lia. rewrite E1; cbn [bind].
          set (b' := mkBin (p32 b) (num_total b) (num_left b - 1) (num_taken b + 1)). set (e := ent (bord (p32 b) + num_taken b)) in *.
          assert (bin_ok b') as Hb' by (unfold bin_ok, b'; cbn [p32 num_total num_left num_taken]; lia).
          assert (taken_of b' = taken_of b ++ [e]) as Tb. { unfold taken_of, b'. cbn [p32 num_taken]. rewrite Z.add_assoc, zrange_snoc, map_app by lia. reflexivity. }
          assert (block_of e = p32 b + off) as Be by (apply Hblk; lia).
          destruct (Z.eqb_spec (rot + 1) 32) as [Hr|Hr].
          * exists (b' :: rest), (if num_left b - 1 =? 0 then full - 1 else full), [e], f1. split; auto. split; [constructor; auto|]. split; auto. split; auto. split; [rewrite C1; reflexivity|].
            split; [cbn [map concat]; rewrite Tb, <- app_assoc; rewrite <- app_assoc; apply Permutation_app_head, Permutation_app_comm|].
            split; [change (lefts (b' :: rest)) with (num_left b - 1 + lefts rest); change (zlen [e]) with 1; lia|].
            split; [rewrite !busy_cons; cbn [num_left b']; destruct (Z.ltb_spec 0 (num_left b - 1)); destruct (Z.eqb_spec (num_left b - 1) 0); destruct (Z.ltb_spec 0 (num_left b)); lia|].
            split; [change (zlen [e]) with 1; lia|]. split; [intros x [<-|[]]; left; auto|]. intros _. constructor; [intros []|constructor].
          * destruct (IH (rot + 1) (if num_left b - 1 =? 0 then full - 1 else full) (done ++ [e]) f1) as (bins' & full' & new & f' & E2 & K1 & K2 & K3 & K4 & K5 & K6 & K7 & K8 & K9 & K10); auto; try lia.
            { rewrite zlen_app. change (zlen [e]) with 1. lia. } { rewrite zlen_app. change (zlen [e]) with 1. lia. }
            rewrite E2; cbn [bind]. exists (b' :: bins'), full', (e :: new), f'. split; auto. split; [constructor; auto|]. split; [cbn [map]; rewrite K2; auto|].
            split; [rewrite <- app_assoc in K3; auto|]. split; [rewrite zlen_cons; lia|].
            split; [cbn [map concat]; rewrite Tb, K5; rewrite <- !app_assoc; apply Permutation_app_head; simpl; apply Permutation_middle|].
            split; [change (lefts (b' :: bins')) with (num_left b - 1 + lefts bins'); rewrite zlen_cons; lia|].
            split; [rewrite !busy_cons; cbn [num_left b']; destruct (Z.ltb_spec 0 (num_left b - 1)); destruct (Z.eqb_spec (num_left b - 1) 0); destruct (Z.ltb_spec 0 (num_left b)); lia|].
            split; [rewrite zlen_cons; lia|]. split.
            -- intros x [<-|Hx]; [left; auto|right; apply K9; auto].
            -- intros ND. cbn [map] in ND. apply NoDup_cons_iff in ND as [N1 N2]. cbn [map]. constructor; auto. rewrite Be. intros Hin. apply K9 in Hin. apply in_map_iff in Hin as (q & Hq & Hin). assert (q = p32 b) by lia. subst q. auto.
        + cbn [bind]. destruct (Z.eqb_spec rot 32); [lia|].
          destruct (IH rot full done f) as (bins' & full' & new & f' & E2 & K1 & K2 & K3 & K4 & K5 & K6 & K7 & K8 & K9 & K10); auto; try lia.
          rewrite E2; cbn [bind]. exists (b :: bins'), full', new, f'. split; auto. split; [constructor; auto|]. split; [cbn [map]; rewrite K2; auto|]. split; auto. split; auto.
          split; [cbn [map concat]; rewrite K5, app_assoc; auto|]. split; [change (lefts (b :: bins')) with (num_left b + lefts bins'); lia|].
          split; [rewrite !busy_cons; destruct (Z.ltb_spec 0 (num_left b)); lia|]. split; [lia|]. split; [intros x Hx; right; apply K9; auto|].
          intros ND. cbn [map] in ND. apply NoDup_cons_iff in ND as [N1 N2]. auto.
    Qed.

    (** 32 entries of 32 different blocks of rows *)
    Definition spread (l : list (edge E)) : Prop := zlen l = 32 /\ NoDup (map block_of l).
    Lemma rotations_spec : forall k bins full done f, Forall bin_ok bins -> NoDup (map p32 bins) -> full = busy bins -> lefts bins < Z.of_nat k -> fil done f -> f_cnt f + start = zlen done -> zlen done + lefts bins <= nnz ->
      exists bins' rounds f', rotations k tmp borders start bins full f = Ok (bins', f') /\ Forall bin_ok bins' /\ map p32 bins' = map p32 bins /\
        fil (done ++ concat rounds) f' /\ f_cnt f' = f_cnt f + zlen (concat rounds) /\ Permutation (concat (map taken_of bins')) (concat (map taken_of bins) ++ concat rounds) /\
        lefts bins' + zlen (concat rounds) = lefts bins /\ Forall spread rounds /\ busy bins' < 32.
    Proof.
      induction k as [|k IH]; intros bins full done f Hok ND Hfull Hk F Hc Hn; [pose proof (lefts_nonneg bins Hok); lia|].
      cbn [rotations]. destruct (Z.leb_spec 32 full) as [Hf|Hf].
      - destruct (rotate_spec bins 0 full done f) as (bins1 & full1 & new & f1 & E1 & K1 & K2 & K3 & K4 & K5 & K6 & K7 & K8 & K9 & K10); auto; try lia. rewrite E1; cbn [bind].
        assert (zlen new = 32) as L32 by lia.
        destruct (IH bins1 full1 (done ++ new) f1) as (bins2 & rounds & f2 & E2 & J1 & J2 & J3 & J4 & J5 & J6 & J7 & J8); auto; try lia.
        + rewrite K2; auto.
        + rewrite zlen_app. lia.
        + rewrite zlen_app. lia.
        + rewrite E2. exists bins2, (new :: rounds), f2. split; auto. split; auto. split; [congruence|]. cbn [concat]. split; [rewrite app_assoc; auto|]. split; [rewrite zlen_app; lia|].
          split; [rewrite J5, K5, app_assoc; auto|]. split; [rewrite zlen_app; lia|]. split; auto. constructor; auto. split; auto.
      - exists bins, [], f. split; auto. split; auto. split; auto. cbn [concat]. rewrite !app_nil_r. change (zlen (@nil (edge E))) with 0. repeat (split; auto; try lia).
    Qed.

    Lemma leftovers : forall bins done f, Forall bin_ok bins -> fil done f -> f_cnt f + start = zlen done -> zlen done + lefts bins <= nnz ->
      exists f', foldR (fun f b => forZ (num_taken b) (num_total b) (fun taken f => do x <- rd borders (p32 b) ;; copy_edge tmp start (x + taken) f) f) bins f = Ok f' /\
        fil (done ++ concat (map rest_of bins)) f' /\ f_cnt f' = f_cnt f + lefts bins.
    Proof.
      induction bins as [|b rest IH]; intros done f Hok F Hc Hn.
      - exists f. split; auto. cbn [map concat]. rewrite app_nil_r. split; auto. change (lefts []) with 0. lia.
      - apply Forall_cons_iff in Hok as [Hb Hrest]. pose proof Hb as (B1 & B2 & B3 & B4 & B5). pose proof (lefts_nonneg rest Hrest) as LR.
        assert (lefts (b :: rest) = num_left b + lefts rest) as LC by reflexivity. cbn [foldR].
        rewrite (forZ_ext _ _ _ (fun t f => copy_edge tmp start (bord (p32 b) + t) f)) by (intros; rewrite (Hborders (p32 b)) by lia; reflexivity).
        pose proof (Hlo (p32 b) ltac:(lia)) as L1. pose proof (Hlo (p32 b + 1) ltac:(lia)) as L2.
        destruct (copy_range start (bord (p32 b)) (num_taken b) (num_total b) done f) as (f1 & -> & F1 & C1); auto; try lia. cbn [bind].
        assert (zlen (map ent (zrange (bord (p32 b) + num_taken b) (bord (p32 b) + num_total b))) = num_left b) as Ln by (rewrite zlen_map, zlen_zrange by lia; lia).
        destruct (IH (done ++ map ent (zrange (bord (p32 b) + num_taken b) (bord (p32 b) + num_total b))) f1) as (f2 & E2 & F2 & C2); auto.
        + rewrite zlen_app. lia.
        + rewrite zlen_app. lia.
        + exists f2. split; auto. cbn [map concat]. split; [rewrite <- app_assoc in F2; auto|]. lia.
    Qed.
    Lemma taken_rest bins : Forall bin_ok bins -> Permutation (concat (map taken_of bins) ++ concat (map rest_of bins)) (concat (map seg_of (map p32 bins))).
    Proof using.
      clear Hborders Hmono Hlo Hstart Hblk borders off start.
      induction bins as [|b rest IH]; intros Hok; simpl; auto. apply Forall_cons_iff in Hok as [Hb Hrest]. destruct Hb as (B1 & B2 & B3 & B4 & B5).
      assert (seg_of (p32 b) = taken_of b ++ rest_of b) as S. { unfold seg_of, taken_of, rest_of. replace (bord (p32 b) + num_total b) with (bord (p32 b + 1)) by lia. apply zrange_shift_map. lia. }
      rewrite S, <- (IH Hrest). rewrite <- !app_assoc. apply Permutation_app_head. rewrite !app_assoc. apply Permutation_app_tail. apply Permutation_app_comm.
    Qed.
  End Part.
End Fill.
