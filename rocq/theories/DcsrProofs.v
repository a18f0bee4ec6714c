(** DCSR tiles. *)
From Coq Require Import Sorting.Sorted.
From Verif Require Import BaseLemmas Segment SegmentProofs Bucket BucketProofs VecProofs2 ListLemmas Search SearchProofs DCSC EdgeList EdgeSpec MatSpec DCSCFinal GraphVertProofs Tiles TilesProofs.

Lemma filled_rdi {A} total arr (pre : list A) i x : filled total arr pre -> rd pre i = Ok x -> rdi arr i = Ok x.
Proof. intros [_ ->] H. unfold rdi. rewrite rd_app1 by (rewrite zlen_map; apply rd_bounds in H; auto). rewrite rd_map_list, H. reflexivity. Qed.
Lemma zlen_firstn {A} (l : list A) k : 0 <= k <= zlen l -> zlen (firstn (Z.to_nat k) l) = k.
Proof. unfold zlen. rewrite firstn_length. lia. Qed.
Lemma firstn_zlen {A} (l : list A) k : k = zlen l -> firstn (Z.to_nat k) l = l.
Proof. intros ->. unfold zlen. rewrite Nat2Z.id. apply firstn_all. Qed.
Lemma forZ_ok_inv {St} (I : Z -> St -> Prop) (body : Z -> St -> R St) lo hi s s' : forZ lo hi body s = Ok s' -> lo <= hi -> I lo s ->
  (forall i s s', lo <= i < hi -> body i s = Ok s' -> I i s -> I (i + 1) s') -> I hi s'.
Proof.
  intros H Hle H0 HS. remember (Z.to_nat (hi - lo)) as k eqn:Hk. revert lo s Hle H H0 HS Hk.
  induction k as [|k IH]; intros lo s Hle H H0 HS Hk.
  - rewrite forZ_empty in H by lia. injection H as <-. replace hi with lo by lia. auto.
  - rewrite forZ_step in H by lia. apply bind_Ok in H as (s1 & H1 & H2). apply (IH (lo + 1) s1); auto; try lia.
    + eapply HS; eauto. lia.
    + intros i x y Hi. apply HS. lia.
Qed.
Lemma forZ_or {St} (f g : Z -> St -> R St) e lo hi : (forall i s, f i s = g i s \/ f i s = Err e) -> forall s, forZ lo hi f s = forZ lo hi g s \/ forZ lo hi f s = Err e.
Proof.
  intros H. assert (forall k lo s, Z.to_nat (hi - lo) = k -> forZ lo hi f s = forZ lo hi g s \/ forZ lo hi f s = Err e) as G.
  { clear lo. induction k as [|k IH]; intros lo s Hk; [rewrite !forZ_empty by lia; auto|]. rewrite !forZ_step by lia.
    destruct (H lo s) as [->| ->]; [|right; auto]. destruct (g lo s) as [s1|]; cbn [bind]; [|auto]. apply IH. lia. }
  intros s. eapply G; eauto.
Qed.

Section Rows.
  Context {E : Type}.
  Variable s : list (edge E).
  Let L := zlen s.
  Hypothesis HL : 0 < L.
  Hypothesis Hs : forall i j a b, 0 <= i <= j -> rd s i = Ok a -> rd s j = Ok b -> e_src a <= e_src b.

  Definition key (i : Z) : Z := match rd s i with Ok e => e_src e | Err _ => 0 end.
  Definition step (i : Z) : bool := key i <? key (i + 1).
  Definition rank (j : Z) : Z := zlen (filter step (zrange 0 j)).
  Definition starts : list Z := 0 :: map (fun i => i + 1) (filter step (zrange 0 (L - 1))).

  Lemma key_rd i e : rd s i = Ok e -> key i = e_src e.
  Proof. unfold key. intros ->. auto. Qed.
  Lemma key_mono i j : 0 <= i <= j -> j < L -> key i <= key j.
  Proof. intros Hi Hj. destruct (rd_ok s i) as [a Ha]; [fold L; lia|]. destruct (rd_ok s j) as [b Hb]; [fold L; lia|]. rewrite (key_rd i a), (key_rd j b) by auto. eauto. Qed.
  Lemma rank_0 : rank 0 = 0. Proof. reflexivity. Qed.
  Lemma rank_succ j : 0 <= j -> rank (j + 1) = rank j + (if step j then 1 else 0).
  Proof. intros H. unfold rank. rewrite zrange_snoc, filter_app, zlen_app by lia. f_equal. simpl. destruct (step j); reflexivity. Qed.
  Lemma rank_nonneg j : 0 <= rank j. Proof. apply zlen_nonneg. Qed.
  Lemma rank_mono i j : 0 <= i <= j -> rank i <= rank j.
  Proof. intros [Hi Hj]. unfold rank. rewrite (zrange_app 0 i j), filter_app, zlen_app by lia. pose proof (zlen_nonneg (filter step (zrange i j))). lia. Qed.
  Lemma zlen_starts : zlen starts = rank (L - 1) + 1.
  Proof. unfold starts. rewrite zlen_cons, zlen_map. unfold rank. lia. Qed.
  Lemma rd_starts_0 : rd starts 0 = Ok 0. Proof. reflexivity. Qed.
  Lemma rd_starts_step i : 0 <= i < L - 1 -> step i = true -> rd starts (rank i + 1) = Ok (i + 1).
  Proof.
    intros Hi Hst. pose proof (rank_nonneg i). unfold starts. rewrite rd_consS by lia. rewrite rd_map_list. replace (rank i + 1 - 1) with (rank i) by lia.
    rewrite (zrange_app 0 i (L - 1)), filter_app by lia. rewrite rd_app2 by (unfold rank; lia). rewrite (zrange_cons i) by lia. cbn [filter]. rewrite Hst.
    replace (rank i - zlen (filter step (zrange 0 i))) with 0 by (unfold rank; lia). reflexivity.
  Qed.
  Lemma starts_inv r x : rd starts r = Ok x -> 0 <= x < L /\ rank x = r /\ (x = 0 \/ 0 < x /\ step (x - 1) = true).
  Proof.
    intros H. pose proof (rd_bounds _ _ _ H) as B. destruct (Z.eq_dec r 0) as [->|].
    - injection H as <-. split; [lia|]. split; auto.
    - unfold starts in H. rewrite rd_consS in H by lia. rewrite rd_map_list in H. destruct (rd (filter step (zrange 0 (L - 1))) (r - 1)) as [i|] eqn:Ei; [|discriminate].
      injection H as <-. pose proof (rd_In _ _ _ Ei) as I. apply filter_In in I as [I Hst]. apply in_zrange in I.
      split; [lia|]. split; [|right; split; [lia|]; replace (i + 1 - 1) with i by lia; auto].
      rewrite rank_succ, Hst by lia. pose proof (rd_starts_step i I Hst) as R. unfold starts in R. pose proof (rank_nonneg i). rewrite rd_consS in R by lia. rewrite rd_map_list in R. replace (rank i + 1 - 1) with (rank i) in R by lia.
      destruct (rd (filter step (zrange 0 (L - 1))) (rank i)) as [i'|] eqn:Ei'; [|discriminate]. assert (i' = i) by (injection R; lia). subst i'.
      assert (rank i = r - 1); [|lia]. apply rd_nth in Ei as [E0 E1]. apply rd_nth in Ei' as [F0 F1].
      assert (Z.to_nat (rank i) = Z.to_nat (r - 1)) as Q; [|lia].
      assert (NoDup (filter step (zrange 0 (L - 1)))) as ND by (apply NoDup_filter, NoDup_zrange).
      eapply NoDup_nth_error; eauto; [|congruence]. apply nth_error_Some. congruence.
  Qed.
  Lemma rank_key i j : 0 <= i <= j -> j < L -> rank i = rank j -> key i = key j.
  Proof.
    intros [Hi Hj]. pattern j. apply Zlt_lower_bound_ind with (z := i); [|lia]. clear j Hj. intros k IH Hk HkL Hr.
    destruct (Z.eq_dec k i) as [->|]; auto. rewrite (IH (k - 1)); try lia.
    - pose proof (rank_succ (k - 1) ltac:(lia)) as R. replace (k - 1 + 1) with k in R by lia. pose proof (rank_mono i (k - 1) ltac:(lia)).
      destruct (step (k - 1)) eqn:Hst; [lia|]. unfold step in Hst. replace (k - 1 + 1) with k in Hst by lia. pose proof (key_mono (k - 1) k ltac:(lia) ltac:(lia)). lia.
    - pose proof (rank_mono i (k - 1) ltac:(lia)). pose proof (rank_mono (k - 1) k ltac:(lia)). lia.
  Qed.

  Definition row_bounds : list Z := starts ++ [L].
  Lemma zlen_bounds : zlen row_bounds = zlen starts + 1.
  Proof. unfold row_bounds. rewrite zlen_app. reflexivity. Qed.
  Lemma bounds_next r x y : 0 <= r < zlen starts -> rd row_bounds r = Ok x -> rd row_bounds (r + 1) = Ok y ->
    0 <= x < y /\ y <= L /\ rd starts r = Ok x /\ forall j, x <= j < y -> rank j = r.
  Proof.
    intros Hr Hx Hy. unfold row_bounds in Hx. rewrite rd_app1 in Hx by lia. destruct (starts_inv r x Hx) as (X1 & X2 & X3).
    unfold row_bounds in Hy. destruct (Z.eq_dec (r + 1) (zlen starts)) as [e|].
    - rewrite rd_app2 in Hy by lia. replace (r + 1 - zlen starts) with 0 in Hy by lia. injection Hy as <-.
      split; [lia|]. split; [lia|]. split; auto. intros j Hj. pose proof (rank_mono x j ltac:(lia)). pose proof (rank_mono j (L - 1) ltac:(lia)). rewrite zlen_starts in e. lia.
    - rewrite rd_app1 in Hy by lia. destruct (starts_inv (r + 1) y Hy) as (Y1 & Y2 & Y3).
      destruct Y3 as [->|[Y3 Y4]]; [rewrite rank_0 in Y2; lia|].
      assert (rank (y - 1) = r) as R. { pose proof (rank_succ (y - 1) ltac:(lia)) as R. replace (y - 1 + 1) with y in R by lia. rewrite Y4 in R. lia. }
      assert (x < y). { destruct (Z_lt_dec x y); auto. pose proof (rank_mono y x ltac:(lia)). lia. }
      split; [lia|]. split; [lia|]. split; auto. intros j Hj. pose proof (rank_mono x j ltac:(lia)). pose proof (rank_mono j (y - 1) ltac:(lia)). lia.
  Qed.
  Variable rs : Z.
  Definition row_numbers : list Z := map (fun j => key j - rs - 1) starts.
  Lemma zlen_numbers : zlen row_numbers = zlen starts.
  Proof. apply zlen_map. Qed.
  Lemma row_of r x y j e : 0 <= r < zlen starts -> rd row_bounds r = Ok x -> rd row_bounds (r + 1) = Ok y -> x <= j < y -> rd s j = Ok e -> rd row_numbers r = Ok (e_src e - rs - 1).
  Proof.
    intros Hr Hx Hy Hj He. destruct (bounds_next r x y Hr Hx Hy) as (B1 & B2 & B3 & B4). unfold row_numbers. rewrite rd_map_list, B3. do 3 f_equal.
    rewrite <- (key_rd j e He). apply rank_key; [lia|lia|]. rewrite (B4 x), (B4 j); auto; lia.
  Qed.
  Lemma numbers_incr r r' a b : r < r' -> rd row_numbers r = Ok a -> rd row_numbers r' = Ok b -> a < b.
  Proof.
    unfold row_numbers. rewrite !rd_map_list. intros Hr Ha Hb. destruct (rd starts r) as [x|] eqn:Hx; [|discriminate]. destruct (rd starts r') as [y|] eqn:Hy; [|discriminate].
    injection Ha as <-. injection Hb as <-. destruct (starts_inv r x Hx) as (X1 & X2 & X3). destruct (starts_inv r' y Hy) as (Y1 & Y2 & Y3).
    assert (x < y). { destruct (Z_lt_dec x y); auto. pose proof (rank_mono y x ltac:(lia)). lia. }
    destruct Y3 as [->|[Y3 Y4]]; [lia|]. unfold step in Y4. replace (y - 1 + 1) with y in Y4 by lia. pose proof (key_mono x (y - 1) ltac:(lia) ltac:(lia)). lia.
  Qed.

  (** DCSRTile.h:140-168 *)
  Lemma ranks_loop : exists tmp0 tmp, wr (repeat None (Z.to_nat L)) 0 (Some 0) = Ok tmp0 /\
    forZ 0 (L - 1) (fun i tmp =>
          do e' <- rd s (i + 1) ;; do e <- rd s i ;; do x <- rdi tmp i ;;
          wr tmp (i + 1) (Some (if e_src e <? e_src e' then x + 1 else x))) tmp0 = Ok tmp /\ filled L tmp (map rank (zrange 0 L)).
  Proof.
    destruct (filled_wr L (repeat None (Z.to_nat L)) [] 0 0 (filled_start L ltac:(lia)) eq_refl) as (tmp0 & E0 & F0); [unfold zlen; simpl; lia|].
    exists tmp0. rewrite E0. match goal with |- exists tmp, _ /\ forZ _ _ ?b _ = _ /\ _ => destruct (forZ_inv (fun i tmp => filled L tmp (map rank (zrange 0 (i + 1)))) 0 (L - 1) b tmp0) as (tmp & E1 & F1) end.
    - lia.
    - apply F0.
    - intros i tmp Hi F. destruct (rd_ok s (i + 1)) as [e' He']; [fold L; lia|]. destruct (rd_ok s i) as [e He]; [fold L; lia|]. rewrite He', He. cbn [bind].
      rewrite (filled_rdi _ _ _ i (rank i) F) by (rewrite rd_map_list, rd_zrange by lia; do 2 f_equal; lia). cbn [bind].
      rewrite (zrange_snoc 0 (i + 1)), map_app by lia. cbn [map].
      replace (if e_src e <? e_src e' then rank i + 1 else rank i) with (rank (i + 1)).
      + apply filled_wr; auto; rewrite zlen_map, zlen_zrange by lia; lia.
      + rewrite rank_succ by lia. unfold step. rewrite (key_rd i e He), (key_rd (i + 1) e' He'). destruct (e_src e <? e_src e'); lia.
    - exists tmp. split; auto. split; auto. replace (L - 1 + 1) with L in F1 by lia. auto.
  Qed.
  Lemma rows_loop tmp : filled L tmp (map rank (zrange 0 L)) -> exists e0 rows0 ia0 rows ia1 ia, rd s 0 = Ok e0 /\
    wr (repeat None (Z.to_nat (zlen starts))) 0 (Some (e_src e0 - rs - 1)) = Ok rows0 /\
    wr (repeat None (Z.to_nat (zlen starts + 1))) 0 (Some 0) = Ok ia0 /\
    forZ 0 (L - 1) (fun i st =>
          do e' <- rd s (i + 1) ;; do e <- rd s i ;;
          if e_src e <? e_src e' then
            do x <- rdi tmp (i + 1) ;;
            do rows <- wr (fst st) x (Some (e_src e' - rs - 1)) ;;
            do ia <- wr (snd st) x (Some (i + 1)) ;;
            Ok (rows, ia)
          else Ok st) (rows0, ia0) = Ok (rows, ia1) /\ wr ia1 (zlen starts) (Some L) = Ok ia /\
    mapR need rows = Ok row_numbers /\ mapR need ia = Ok row_bounds.
  Proof.
    intros Ft. destruct (rd_ok s 0) as [e0 He0]; [fold L; lia|]. pose proof zlen_starts as ZS. pose proof (rank_nonneg (L - 1)) as RN.
    destruct (filled_wr (zlen starts) (repeat None (Z.to_nat (zlen starts))) [] 0 (e_src e0 - rs - 1) (filled_start (zlen starts) ltac:(lia)) eq_refl) as (rows0 & E0 & F0); [change (zlen (@nil Z)) with 0; lia|].
    destruct (filled_wr (zlen starts + 1) (repeat None (Z.to_nat (zlen starts + 1))) [] 0 0 (filled_start (zlen starts + 1) ltac:(lia)) eq_refl) as (ia0 & E1 & F1); [change (zlen (@nil Z)) with 0; lia|].
    match goal with |- context [forZ 0 (L - 1) ?b _] => set (body := b) end.
    destruct (forZ_inv (fun i st => filled (zlen starts) (fst st) (firstn (Z.to_nat (rank i + 1)) row_numbers) /\ filled (zlen starts + 1) (snd st) (firstn (Z.to_nat (rank i + 1)) starts)) 0 (L - 1) body (rows0, ia0)) as ([rows ia1] & E2 & F2 & F3).
    - lia.
    - rewrite rank_0. cbn [fst snd]. replace (Z.to_nat (0 + 1)) with 1%nat by lia. split; [|exact F1].
      simpl. rewrite (key_rd 0 e0 He0). exact F0.
    - intros i [rows ia] Hi [F2 F3]. cbn [fst snd] in *. unfold body. destruct (rd_ok s (i + 1)) as [e' He']; [fold L; lia|]. destruct (rd_ok s i) as [e He]; [fold L; lia|]. rewrite He', He. cbn [bind fst snd].
      pose proof (rank_succ i ltac:(lia)) as RS. assert (step i = (e_src e <? e_src e')) as St by (unfold step; rewrite (key_rd i e He), (key_rd (i + 1) e' He'); auto).
      pose proof (rank_nonneg i) as RI. pose proof (rank_mono (i + 1) (L - 1) ltac:(lia)) as RM.
      destruct (e_src e <? e_src e'); rewrite St in RS.
      + rewrite (filled_rdi _ _ _ (i + 1) (rank (i + 1)) Ft) by (rewrite rd_map_list, rd_zrange by lia; do 2 f_equal). cbn [bind].
        pose proof (rd_starts_step i ltac:(lia) St) as RD. rewrite RS in *.
        assert (rd row_numbers (rank i + 1) = Ok (e_src e' - rs - 1)) as RN2. { unfold row_numbers. rewrite rd_map_list, RD. rewrite (key_rd (i + 1) e' He'). auto. }
        rewrite (firstn_snoc _ _ _ RD), (firstn_snoc _ _ _ RN2).
        destruct (filled_wr _ _ _ (rank i + 1) (e_src e' - rs - 1) F2) as (rows' & W1 & G1); [rewrite zlen_firstn; rewrite ?zlen_numbers; lia|rewrite zlen_firstn; rewrite ?zlen_numbers; lia|].
        destruct (filled_wr _ _ _ (rank i + 1) (i + 1) F3) as (ia' & W2 & G2); [rewrite zlen_firstn; lia|rewrite zlen_firstn; lia|].
        rewrite W1; cbn [bind]. rewrite W2; cbn [bind]. eexists. split; [reflexivity|]. cbn [fst snd]. auto.
      + rewrite RS, Z.add_0_r. eexists. split; [reflexivity|]. auto.
    - cbn [fst snd] in *. rewrite firstn_zlen in F2 by (rewrite zlen_numbers; lia). rewrite firstn_zlen in F3 by lia.
      destruct (filled_wr _ _ _ (zlen starts) L F3) as (ia & W & G); [auto|lia|].
      exists e0, rows0, ia0, rows, ia1, ia. split; auto. split; auto. split; auto. split; auto. split; auto. split.
      + eapply filled_end; eauto. apply zlen_numbers.
      + eapply filled_end; eauto. apply zlen_bounds.
  Qed.

  (** loops over the rows and their entries *)
  Lemma over_rows {St} (I : Z -> St -> Prop) (body : Z -> Z -> St -> R St) st : I 0 st ->
    (forall r j e st, 0 <= r < zlen starts -> rd s j = Ok e -> rd row_numbers r = Ok (e_src e - rs - 1) -> I j st -> exists st', body r j st = Ok st' /\ I (j + 1) st') ->
    exists st', forZ 0 (zlen starts) (fun i st => do lo <- rd row_bounds i ;; do hi <- rd row_bounds (i + 1) ;; forZ lo hi (body i) st) st = Ok st' /\ I L st'.
  Proof.
    intros H0 HS. pose proof zlen_starts as ZS. pose proof (rank_nonneg (L - 1)) as RN.
    destruct (forZ_inv (fun i st => exists x, rd row_bounds i = Ok x /\ I x st) 0 (zlen starts) (fun i st => do lo <- rd row_bounds i ;; do hi <- rd row_bounds (i + 1) ;; forZ lo hi (body i) st) st) as (st' & E1 & x & Hx & Ix).
    - lia.
    - exists 0. split; auto.
    - intros i st1 Hi (x & Hx & Ix). rewrite Hx; cbn [bind]. destruct (rd_ok row_bounds (i + 1)) as [y Hy]; [rewrite zlen_bounds; lia|]. rewrite Hy; cbn [bind].
      destruct (bounds_next i x y Hi Hx Hy) as (B1 & B2 & B3 & B4).
      destruct (forZ_inv I x y (body i) st1) as (st2 & E2 & I2); auto; [lia| |].
      + intros j st3 Hj I3. destruct (rd_ok s j) as [e He]; [fold L; lia|]. eapply HS; eauto. eapply row_of; eauto.
      + exists st2. split; auto. exists y. auto.
    - exists st'. split; auto. unfold row_bounds in Hx. rewrite rd_app2 in Hx by lia. rewrite Z.sub_diag in Hx. injection Hx as <-. auto.
  Qed.
End Rows.

Section Cuts.
  Variable rows : list Z.
  Let N := zlen rows.
  Hypothesis Hpos : forall r a, rd rows r = Ok a -> 0 <= a.
  (** a boundary between blocks of 32 rows *)
  Definition cut (x : Z) : Prop := 0 <= x <= N /\ forall a b, rd rows (x - 1) = Ok a -> rd rows x = Ok b -> a / 32 <> b / 32.
  Definition cuts (l : list Z) : Prop := rd l 0 = Ok 0 /\ (forall i x y, rd l i = Ok x -> rd l (i + 1) = Ok y -> x <= y) /\ forall x, In x l -> cut x.

  Lemma next_block_spec row32 : forall k q, 0 <= q <= N -> N - q <= Z.of_nat k -> exists q', next_block k rows N row32 q = Ok q' /\ q <= q' <= N /\
    (forall x a, q <= x < q' -> rd rows x = Ok a -> a / 32 = row32) /\ (forall a, rd rows q' = Ok a -> a / 32 <> row32).
  Proof.
    induction k as [|k IH]; intros q Hq Hk; cbn [next_block].
    - destruct (Z.ltb_spec q N); [lia|]. exists q. split; auto. split; [lia|]. split; intros; [lia|]. apply rd_bounds in H0. fold N in H0. lia.
    - destruct (Z.ltb_spec q N).
      + destruct (rd_ok rows q) as [r Hr]; [fold N; lia|]. rewrite Hr; cbn [bind]. pose proof (Hpos _ _ Hr). rewrite quot_div by lia. destruct (Z.eqb_spec (r / 32) row32) as [He|He].
        * destruct (IH (q + 1)) as (q' & -> & Q1 & Q2 & Q3); try lia. exists q'. split; auto. split; [lia|]. split; auto. intros x a Hx Ha. destruct (Z.eq_dec x q) as [->|]; [congruence|]. apply (Q2 x); auto. lia.
        * exists q. split; auto. split; [lia|]. split; intros; [lia|congruence].
      + exists q. split; auto. split; [lia|]. split; intros; [lia|]. apply rd_bounds in H0. fold N in H0. lia.
  Qed.
  Lemma cut_N : cut N.
  Proof. split; [unfold N; pose proof (zlen_nonneg rows); lia|]. intros a b _ H. apply rd_bounds in H. fold N in H. lia. Qed.
  Lemma cut_0 : cut 0.
  Proof. split; [unfold N; pose proof (zlen_nonneg rows); lia|]. intros a b H. apply rd_bounds in H. lia. Qed.

  Definition cut_step (mem : list Z) (rpp p : Z) (pp : list (option Z)) : R (list (option Z)) :=
    do prev <- rdi pp (p - 1) ;;
    let new_row := Z.min (prev + rpp) N in
    do r <- rd mem new_row ;;
    do q <- next_block (Z.to_nat (N - new_row)) rows N (Z.quot r 32) new_row ;;
    wr pp p (Some q).
  Lemma cuts_loop g np rpp : 1 <= np -> 1 <= rpp -> exists pp0 pp1 pp2 l, wr (repeat None (Z.to_nat (np + 1))) 0 (Some 0) = Ok pp0 /\
    forZ 1 np (cut_step (rows ++ [g]) rpp) pp0 = Ok pp1 /\ wr pp1 np (Some N) = Ok pp2 /\ mapR need pp2 = Ok l /\ zlen l = np + 1 /\ rd l np = Ok N /\ cuts l.
  Proof.
    intros Hnp Hr. pose proof (zlen_nonneg rows) as NN. fold N in NN.
    destruct (filled_wr (np + 1) (repeat None (Z.to_nat (np + 1))) [] 0 0 (filled_start (np + 1) ltac:(lia)) eq_refl) as (pp0 & E0 & F0); [unfold zlen; simpl; lia|].
    assert (forall l x y, rd l (zlen l - 1) = Ok x -> x <= y -> cuts l -> cut y -> cuts (l ++ [y])) as Snoc.
    { intros l x y Hx Hxy (C1 & C2 & C3) Hy. pose proof (rd_bounds _ _ _ Hx) as B. split; [rewrite rd_app1 by lia; auto|]. split.
      - intros i a b Ha Hb. pose proof (rd_bounds _ _ _ Ha). pose proof (rd_bounds _ _ _ Hb) as Bb. rewrite zlen_app in Bb. change (zlen [y]) with 1 in Bb. rewrite rd_app1 in Ha by lia.
        destruct (Z.eq_dec (i + 1) (zlen l)) as [e|].
        + rewrite e, rd_app2, Z.sub_diag in Hb by lia. injection Hb as <-. replace i with (zlen l - 1) in Ha by lia. rewrite Hx in Ha. injection Ha as <-. auto.
        + rewrite rd_app1 in Hb by lia. eauto.
      - intros z Hz. apply in_app_or in Hz as [Hz|[<-|[]]]; auto. }
    destruct (forZ_inv (fun p pp => exists l, filled (np + 1) pp l /\ zlen l = p /\ cuts l) 1 np (cut_step (rows ++ [g]) rpp) pp0) as (pp1 & E1 & l & F1 & L1 & C1).
    - lia.
    - exists [0]. split; auto. split; auto. split; auto. split.
      + intros i x y H1 H2. apply rd_bounds in H1. apply rd_bounds in H2. change (zlen [0]) with 1 in *. lia.
      + intros x [<-|[]]. apply cut_0.
    - intros p pp Hp (l & F & Ll & C). unfold cut_step. destruct (rd_ok l (p - 1)) as [prev Hprev]; [lia|]. rewrite (filled_rdi _ _ _ _ _ F Hprev). cbn [bind].
      pose proof C as (Ca & Cb & Cc). destruct (Cc prev (rd_In _ _ _ Hprev)) as [[P0 P1] _]. set (nw := Z.min (prev + rpp) N). assert (0 <= nw <= N) as Hnw by (unfold nw; lia).
      destruct (rd_ok (rows ++ [g]) nw) as [r Hrr]; [rewrite zlen_app; fold N; change (zlen [g]) with 1; lia|]. rewrite Hrr; cbn [bind].
      destruct (next_block_spec (Z.quot r 32) (Z.to_nat (N - nw)) nw) as (q & -> & Q1 & Q2 & Q3); try lia. cbn [bind].
      destruct (filled_wr _ _ _ p q F) as (pp' & -> & F'); try lia. exists pp'. split; auto. exists (l ++ [q]). split; auto. split; [rewrite zlen_app; change (zlen [q]) with 1; lia|].
      apply Snoc with (x := prev); auto; [rewrite Ll; auto|unfold nw in *; lia|].
      split; [lia|]. intros a b Ha Hb. pose proof (rd_bounds _ _ _ Hb) as Bb. fold N in Bb.
      assert (nw < q) as Hlt. { destruct (Z.eq_dec nw q) as [e|]; [|lia]. exfalso. rewrite <- e in *. rewrite rd_app1 in Hrr by (fold N; lia). pose proof (Hpos _ _ Hrr) as Rp. apply (Q3 r Hrr). rewrite quot_div; lia. }
      rewrite (Q2 (q - 1) a ltac:(lia) Ha). intros e. apply (Q3 b Hb). auto.
    - destruct (filled_wr _ _ _ np N F1) as (pp2 & E2 & F2); try lia.
      exists pp0, pp1, pp2, (l ++ [N]). split; auto. split; auto. split; auto. split; [eapply filled_end; eauto; rewrite zlen_app; change (zlen [N]) with 1; lia|].
      split; [rewrite zlen_app; change (zlen [N]) with 1; lia|]. split; [rewrite rd_app2 by lia; rewrite L1, Z.sub_diag; auto|].
      destruct (rd_ok l (zlen l - 1)) as [x Hx]; [lia|]. apply Snoc with (x := x); auto; [|apply cut_N]. destruct C1 as (_ & _ & Cc). destruct (Cc x (rd_In _ _ _ Hx)) as [[_ ?] _]. auto.
  Qed.
  (** the word after the array is read but does not matter *)
  Lemma cut_step_past g g' rpp p pp : cut_step (rows ++ [g]) rpp p pp = cut_step (rows ++ [g']) rpp p pp.
  Proof.
    unfold cut_step. destruct (rdi pp (p - 1)) as [prev|]; cbn [bind]; auto. set (nw := Z.min (prev + rpp) N).
    destruct (Z_lt_dec nw 0). { rewrite !rd_oob by lia. auto. }
    destruct (Z.eq_dec nw N) as [->|].
    - assert (forall x, rd (rows ++ [x]) N = Ok x) as R by (intros x; rewrite rd_app2 by (unfold N; lia); fold N; rewrite Z.sub_diag; auto).
      rewrite !R. cbn [bind]. assert (forall k x, next_block k rows N x N = Ok N) as B by (intros [|k] x; cbn [next_block]; rewrite Z.ltb_irrefl; auto). rewrite !B. auto.
    - rewrite !rd_app1 by (unfold nw in *; fold N; lia). auto.
  Qed.
  Lemma cut_step_strict g rpp p pp : cut_step rows rpp p pp = cut_step (rows ++ [g]) rpp p pp \/ cut_step rows rpp p pp = Err OOB.
  Proof.
    unfold cut_step. destruct (rdi pp (p - 1)) as [prev|]; cbn [bind]; auto. set (nw := Z.min (prev + rpp) N).
    destruct (Z_lt_dec nw 0). { rewrite !rd_oob by lia. auto. }
    destruct (Z.eq_dec nw N) as [->|]; [right; rewrite rd_oob by (fold N; lia); auto|]. left. rewrite rd_app1 by (unfold nw in *; fold N; lia). auto.
  Qed.
  (** with few rows per partition the read always happens *)
  Lemma strict_fails np rpp pp0 pp : 2 <= np -> 1 <= rpp <= np - 2 -> N <= np * rpp -> wr (repeat None (Z.to_nat (np + 1))) 0 (Some 0) = Ok pp0 ->
    forZ 1 np (cut_step rows rpp) pp0 = Ok pp -> False.
  Proof.
    intros Hnp Hr HN H0 H. 
    assert (forall q, 1 <= q <= np -> forall st, forZ 1 q (cut_step rows rpp) pp0 = Ok st -> exists x, rdi st (q - 1) = Ok x /\ (q - 1) * (rpp + 1) <= x /\ x <= N /\ (2 <= q -> (q - 2) * (rpp + 1) + rpp < N)) as G.
    { intros q Hq st Hst. 
      assert (1 <= q /\ zlen st = np + 1 /\ exists x, rdi st (q - 1) = Ok x /\ (q - 1) * (rpp + 1) <= x /\ x <= N /\ (2 <= q -> (q - 2) * (rpp + 1) + rpp < N)) as K; [|tauto].
      refine (forZ_ok_inv (fun q st => 1 <= q /\ zlen st = np + 1 /\ exists x, rdi st (q - 1) = Ok x /\ (q - 1) * (rpp + 1) <= x /\ x <= N /\ (2 <= q -> (q - 2) * (rpp + 1) + rpp < N)) (cut_step rows rpp) 1 q pp0 st Hst ltac:(lia) _ _).
      - split; [lia|]. split; [apply wr_zlen in H0; rewrite H0, zlen_repeat; lia|]. exists 0. unfold rdi. change (1 - 1) with 0. rewrite (wr_same_rd _ _ _ _ H0). split; auto. unfold N. pose proof (zlen_nonneg rows). lia.
      - intros p s1 s2 Hp Hb (P1 & P2 & x & Hx & X1 & X2 & X3). split; [lia|]. unfold cut_step in Hb. rewrite Hx in Hb; cbn [bind] in Hb.
        apply bind_Ok in Hb as (r & Hr1 & Hb). apply bind_Ok in Hb as (y & Hy & Hb). pose proof (rd_bounds _ _ _ Hr1) as B. fold N in B.
        split; [apply wr_zlen in Hb; lia|]. exists y. unfold rdi. replace (p + 1 - 1) with p by lia. rewrite (wr_same_rd _ _ _ _ Hb). split; auto.
        destruct (next_block_spec (Z.quot r 32) (Z.to_nat (N - Z.min (x + rpp) N)) (Z.min (x + rpp) N)) as (q' & E' & Q1 & Q2 & Q3); try lia. rewrite E' in Hy. injection Hy as <-.
        assert (Z.min (x + rpp) N < q'). { destruct (Z.eq_dec (Z.min (x + rpp) N) q') as [e|]; [|lia]. exfalso. rewrite <- e in Q3. pose proof (Hpos _ _ Hr1). apply (Q3 r Hr1). rewrite quot_div; lia. }
        nia. }
    destruct (G np ltac:(lia) pp H) as (x & _ & _ & _ & X). specialize (X ltac:(lia)). nia.
  Qed.
End Cuts.

Section DcsrTile.
  Context {E : Type}.
  Variable srt : list (edge E) -> list (edge E).
  Hypothesis Hsrt : sorts_ends srt.
  Variables (threads : Z) (es : list (edge E)) (m n rs cs : Z).
  Hypothesis Hth : 1 <= threads.
  Hypothesis Hes : forall e, In e es -> in_rect m n rs cs e.
  Hypothesis Hne : es <> [].
  Let s := srt es.
  Let np := threads * 4.
  Let rows := row_numbers s rs.
  Let N := zlen rows.
  Let rpp := Z.quot (N + np - 1) np.

  Lemma s_order i j a b : 0 <= i <= j -> rd s i = Ok a -> rd s j = Ok b -> e_src a <= e_src b.
  Proof using Hsrt.
    clear Hth Hne Hes. clear rpp N rows np. intros Hij Ha Hb. destruct (Z.eq_dec i j) as [->|]; [rewrite Ha in Hb; injection Hb as ->; lia|].
    pose proof (ia_sorted srt Hsrt es 0) as I. assert (e_src a - 0 <= e_src b - 0); [|lia].
    apply (I i j); [lia| |]; unfold ia_of; fold s; rewrite rd_map_list, ?Ha, ?Hb; auto.
  Qed.
  Lemma es_len : 0 < zlen es.
  Proof using Hne. clear rpp N rows np s Hes. destruct es; [congruence|]. rewrite zlen_cons. pose proof (zlen_nonneg l). lia. Qed.
  Lemma s_pos : 0 < zlen s.
  Proof using Hne Hsrt. clear rpp N rows np Hes. unfold s. rewrite s_len by auto. apply es_len. Qed.
  Lemma rows_pos r a : rd rows r = Ok a -> 0 <= a < m.
  Proof.
    intros H. unfold rows, row_numbers in H. rewrite rd_map_list in H. destruct (rd (starts s) r) as [x|] eqn:Hx; [|discriminate]. injection H as <-.
    destruct (starts_inv s s_pos s_order r x Hx) as (X1 & _). destruct (rd_ok s x X1) as [e He]. rewrite (key_rd s x e He). destruct (s_rect srt Hsrt es m n rs cs Hes e (rd_In _ _ _ He)). lia.
  Qed.
  Lemma N_starts : N = zlen (starts s). Proof. apply zlen_numbers. Qed.
  Lemma N_pos : 1 <= N.
  Proof. rewrite N_starts. unfold starts. rewrite zlen_cons. pose proof (zlen_nonneg (map (fun i => i + 1) (filter (step s) (zrange 0 (zlen s - 1))))). lia. Qed.
  Lemma rpp_spec : 1 <= rpp /\ N <= np * rpp /\ forall k, N <= np * k -> 0 <= k -> rpp <= k.
  Proof.
    pose proof N_pos. unfold rpp. rewrite quot_div by (unfold np; lia). pose proof (Z.mod_pos_bound (N + np - 1) np ltac:(unfold np; lia)). pose proof (Z.div_mod (N + np - 1) np ltac:(unfold np; lia)).
    assert (1 <= np) by (unfold np; lia). set (q := (N + np - 1) / np) in *. split; [nia|]. split; [nia|]. intros k Hk Hk0. nia.
  Qed.

  Definition dcsr_cut (past : option Z) : R (list Z) :=
    do pp <- wr (repeat None (Z.to_nat (np + 1))) 0 (Some 0) ;;
    do pp <- forZ 1 np (cut_step rows (match past with Some g => rows ++ [g] | None => rows end) rpp) pp ;;
    do pp <- wr pp np (Some N) ;;
    mapR need pp.
  Lemma dcsr_unfold past : dcsr_new srt threads past es m n rs cs =
    do pp <- dcsr_cut past ;;
    Ok (mkDcsr (zlen es) m n N np pp (map e_val s) (map (fun e => e_dst e - cs - 1) s) (row_bounds s) rows).
  Proof.
    pose proof es_len as El. pose proof s_pos as Sp. pose proof (s_len srt Hsrt es) as Ls. fold s in Ls.
    unfold dcsr_new. destruct (Z.ltb_spec 0 (zlen es)); [|lia]. fold s. rewrite <- Ls.
    destruct (ranks_loop s s_pos s_order 0) as (tmp0 & tmp & R1 & R2 & R3). rewrite R1; cbn [bind]. rewrite R2; cbn [bind].
    rewrite (filled_rdi _ _ _ (zlen s - 1) (rank s (zlen s - 1)) R3) by (rewrite rd_map_list, rd_zrange by lia; do 2 f_equal). cbn [bind].
    rewrite <- (zlen_starts s s_order).
    destruct (rows_loop s s_pos s_order rs tmp R3) as (e0 & rows0 & ia0 & rows1 & ia1 & ia & Q0 & Q1 & Q2 & Q3 & Q4 & Q5 & Q6).
    rewrite Q0; cbn [bind]. rewrite Q1; cbn [bind]. rewrite Q2; cbn [bind]. rewrite Q3; cbn [bind fst snd]. rewrite Q4; cbn [bind]. rewrite Q5; cbn [bind]. rewrite Q6; cbn [bind].
    fold np. destruct (Z.eqb_spec np 0); [unfold np in *; lia|]. cbn [bind]. rewrite <- N_starts. fold rows. fold rpp.
    unfold dcsr_cut. destruct (wr (repeat None (Z.to_nat (np + 1))) 0 (Some 0)) as [pp0|]; [|reflexivity]. cbn [bind].
    match goal with |- (do pp <- forZ 1 np ?b pp0 ;; _) = _ => change b with (cut_step rows (match past with Some g => rows ++ [g] | None => rows end) rpp) end.
    destruct (forZ 1 np (cut_step rows match past with Some g => rows ++ [g] | None => rows end rpp) pp0) as [pp1|]; [|reflexivity]. cbn [bind].
    destruct (wr pp1 np (Some N)) as [pp2|]; [|reflexivity]. cbn [bind]. destruct (mapR need pp2) as [pp|]; [|reflexivity]. cbn [bind].
    match goal with |- (do st <- forZ _ _ (fun i st => do lo <- rd _ i ;; do hi <- rd _ (i + 1) ;; forZ lo hi ?b st) _ ;; _) = _ =>
      destruct (over_rows s s_pos s_order rs (fun x st => filled (zlen s) (fst st) (firstn (Z.to_nat x) (map (fun e => e_dst e - cs - 1) s)) /\ filled (zlen s) (snd st) (firstn (Z.to_nat x) (map e_val s)))
        (fun _ => b) (repeat None (Z.to_nat (zlen s)), repeat None (Z.to_nat (zlen s)))) as ([ja a] & F0 & F1 & F2) end.
    - split; apply filled_start; lia.
    - intros r j e [ja a] Hr He _ [F1 F2]. cbn [fst snd] in *. rewrite He; cbn [bind]. pose proof (rd_bounds _ _ _ He) as Bj.
      rewrite (firstn_snoc (map e_val s) j (e_val e)) by (rewrite rd_map_list, He; auto). rewrite (firstn_snoc (map (fun e => e_dst e - cs - 1) s) j (e_dst e - cs - 1)) by (rewrite rd_map_list, He; auto).
      destruct (filled_wr _ _ _ j (e_dst e - cs - 1) F1) as (ja' & -> & G1); [rewrite zlen_firstn; rewrite ?zlen_map; lia|rewrite zlen_firstn; rewrite ?zlen_map; lia|].
      destruct (filled_wr _ _ _ j (e_val e) F2) as (a' & -> & G2); [rewrite zlen_firstn; rewrite ?zlen_map; lia|rewrite zlen_firstn; rewrite ?zlen_map; lia|].
      eexists. split; [reflexivity|]. auto.
    - rewrite <- N_starts in F0. rewrite F0. cbn [bind fst snd] in *. rewrite firstn_zlen in F1 by (rewrite zlen_map; auto). rewrite firstn_zlen in F2 by (rewrite zlen_map; auto).
      rewrite (filled_end _ _ _ F1) by (apply zlen_map). cbn [bind]. rewrite (filled_end _ _ _ F2) by (apply zlen_map). reflexivity.
  Qed.
  Lemma dcsr_cut_ok g : exists pp, dcsr_cut (Some g) = Ok pp /\ zlen pp = np + 1 /\ rd pp np = Ok N /\ cuts rows pp.
  Proof.
    destruct rpp_spec as (R1 & _). destruct (cuts_loop rows) with (g := g) (np := np) (rpp := rpp) as (pp0 & pp1 & pp2 & l & E0 & E1 & E2 & E3 & C); auto; try (unfold np; lia).
    - intros r a H. apply rows_pos in H. lia.
    - exists l. unfold dcsr_cut. rewrite E0; cbn [bind]. rewrite E1; cbn [bind]. fold N in E2. rewrite E2; cbn [bind]. auto.
  Qed.
  Lemma dcsr_past g g' : dcsr_new srt threads (Some g) es m n rs cs = dcsr_new srt threads (Some g') es m n rs cs.
  Proof.
    rewrite !dcsr_unfold. unfold dcsr_cut. destruct (wr (repeat None (Z.to_nat (np + 1))) 0 (Some 0)) as [pp0|]; [|reflexivity]. cbn [bind].
    rewrite (forZ_ext 1 np (cut_step rows (rows ++ [g]) rpp) (cut_step rows (rows ++ [g']) rpp)); auto. intros i st _. apply cut_step_past. intros r a H. apply rows_pos in H. lia.
  Qed.
  Lemma dcsr_strict g : dcsr_new srt threads None es m n rs cs = dcsr_new srt threads (Some g) es m n rs cs \/ dcsr_new srt threads None es m n rs cs = Err OOB.
  Proof.
    rewrite !dcsr_unfold. unfold dcsr_cut. destruct (wr (repeat None (Z.to_nat (np + 1))) 0 (Some 0)) as [pp0|]; [|left; reflexivity]. cbn [bind].
    destruct (forZ_or (cut_step rows rows rpp) (cut_step rows (rows ++ [g]) rpp) OOB 1 np) with (s := pp0) as [-> | ->]; auto.
    intros i st. apply cut_step_strict. intros r a H. apply rows_pos in H. lia.
  Qed.
  Lemma dcsr_reads_past : N <= np * (np - 2) -> dcsr_new srt threads None es m n rs cs = Err OOB.
  Proof.
    intros HN. destruct (dcsr_strict 0) as [D|D]; auto. exfalso. rewrite !dcsr_unfold in D. destruct (dcsr_cut_ok 0) as (pp & Ep & _). rewrite Ep in D. cbn [bind] in D.
    destruct rpp_spec as (R1 & R2 & R3). assert (4 <= np) by (unfold np; lia). specialize (R3 (np - 2) HN ltac:(lia)).
    unfold dcsr_cut in D. destruct (wr (repeat None (Z.to_nat (np + 1))) 0 (Some 0)) as [pp0|] eqn:E0; [|discriminate]. cbn [bind] in D.
    destruct (forZ 1 np (cut_step rows rows rpp) pp0) as [pp1|] eqn:E1; [|discriminate].
    eapply (strict_fails rows) with (np := np) (rpp := rpp); eauto; try lia. intros r a H0. apply rows_pos in H0. lia.
  Qed.
  Lemma dcsr_built g : exists pp, zlen pp = np + 1 /\ rd pp np = Ok N /\ cuts rows pp /\
    dcsr_new srt threads (Some g) es m n rs cs = Ok (mkDcsr (zlen es) m n N np pp (map e_val s) (map (fun e => e_dst e - cs - 1) s) (row_bounds s) rows).
  Proof. destruct (dcsr_cut_ok g) as (pp & E1 & C1 & C2 & C3). exists pp. split; auto. split; auto. split; auto. rewrite dcsr_unfold, E1. reflexivity. Qed.
  Lemma dcsr_entries past t : dcsr_new srt threads past es m n rs cs = Ok t -> dcsr_get_edges t rs cs = Ok s.
  Proof.
    rewrite dcsr_unfold. intros H. apply bind_Ok in H as (pp & _ & H). injection H as <-. pose proof es_len as El. pose proof s_pos as Sp. pose proof (s_len srt Hsrt es) as Ls. fold s in Ls.
    unfold dcsr_get_edges. cbn [d_nnz d_num_rows d_ia d_rows d_ja d_a]. destruct (Z.ltb_spec 0 (zlen es)); [|lia]. rewrite N_starts, <- Ls.
    match goal with |- (do st <- forZ _ _ (fun i st => do lo <- rd _ i ;; do hi <- rd _ (i + 1) ;; forZ lo hi (@?b i) st) ?st0 ;; _) = _ =>
      destruct (over_rows s s_pos s_order rs (fun x st => snd st = x /\ filled (zlen s) (fst st) (firstn (Z.to_nat x) s)) b st0) as ([out cnt] & F0 & F1 & F2) end.
    - split; auto. apply filled_start. lia.
    - intros r j e [out cnt] Hr He Hrow [F1 F2]. cbn [fst snd] in *. fold rows in Hrow. rewrite Hrow; cbn [bind]. pose proof (rd_bounds _ _ _ He) as Bj. rewrite !rd_map_list, He. cbn [bind].
      replace (mkE (e_src e - rs - 1 + rs + 1) (e_dst e - cs - 1 + cs + 1) (e_val e)) with e by (destruct e; simpl; f_equal; lia).
      rewrite (firstn_snoc s j e He). destruct (filled_wr _ _ _ j e F2) as (out' & -> & G); [rewrite zlen_firstn; lia|rewrite zlen_firstn; lia|].
      eexists. split; [reflexivity|]. cbn [fst snd]. split; auto. lia.
    - rewrite F0. cbn [bind fst snd] in *. subst cnt. rewrite Z.eqb_refl. cbn [assertb bind]. rewrite firstn_zlen in F2 by auto. eapply filled_end; eauto.
  Qed.
End DcsrTile.
