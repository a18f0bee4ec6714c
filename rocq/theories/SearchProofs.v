From Coq Require Import Sorting.Sorted.
From Verif Require Import BaseLemmas Search.

Definition isorted (v : list Z) : Prop :=
  forall i j a b, i <= j -> rd v i = Ok a -> rd v j = Ok b -> a <= b.

Lemma sorted_isorted v : StronglySorted Z.le v -> isorted v.
Proof.
  induction 1 as [|h t S IH F]; intros i j a b Hij Ha Hb.
  - apply rd_bounds in Ha. unfold zlen in Ha; simpl in Ha; lia.
  - pose proof (rd_bounds _ _ _ Ha) as Bi. pose proof (rd_bounds _ _ _ Hb) as Bj.
    rewrite zlen_cons in *.
    destruct (Z.eq_dec i 0) as [->|Ni].
    + rewrite rd_cons0 in Ha; inv Ha. destruct (Z.eq_dec j 0) as [->|Nj].
      * rewrite rd_cons0 in Hb; inv Hb; lia.
      * rewrite rd_consS in Hb by lia. apply rd_In in Hb. rewrite Forall_forall in F; auto.
    + rewrite rd_consS in Ha by lia. rewrite rd_consS in Hb by lia.
      eapply (IH (i-1) (j-1)); eauto; lia.
Qed.

Lemma Sorted_isorted v : Sorted Z.le v -> isorted v.
Proof. intros H. apply sorted_isorted. apply Sorted_StronglySorted; auto. intros x y z; lia. Qed.

(** ** Border searches *)
Section Border.
  Variable v : list Z.
  Hypothesis Hs : isorted v.
  Variable val : Z.

  Definition first_at (r : Z) := rd v r = Ok val /\ forall j, j < r -> rd v j <> Ok val.
  Definition last_at (r : Z) := rd v r = Ok val /\ forall j, r < j -> rd v j <> Ok val.
  Definition absent := forall j, rd v j <> Ok val.

  Lemma left_border_spec : forall fuel s e, 0 <= s <= e + 1 -> e <= zlen v -> e - s + 2 <= Z.of_nat fuel ->
     (forall j, rd v j = Ok val -> s <= j) ->
     (forall j, first_at j -> j <= e) ->
     exists r, left_border fuel v val s e (zlen v) = Ok r /\ ((r = -1 /\ absent) \/ first_at r) .
  Proof.
    induction fuel as [|f IH]; intros s e H0 H1 Hf HA HB.
    - exfalso. simpl in Hf. lia.
    - cbn [left_border].
      assert (e < s \/ zlen v <= s -> absent) as EA.
      { intros L j Hj. assert (exists k, first_at k) as [k Hk].
        { assert (0 <= j) as P by (apply rd_bounds in Hj; lia). revert Hj. pattern j. apply Zlt_0_ind; auto.
          clear j P. intros j IHj P Hj.
          destruct (Z.eq_dec j 0) as [->|N].
          - exists 0. split; auto. intros k Hk Q. apply rd_bounds in Q. lia.
          - destruct (rd_ok v (j-1)) as [a Ha]; [apply rd_bounds in Hj; lia|].
            destruct (Z.eq_dec a val) as [->|Na].
            + apply (IHj (j-1)); auto; lia.
            + exists j. split; auto. intros k Hk Q. assert (a <= val) by (eapply (Hs (j-1) j); eauto; lia).
              assert (val <= a) by (eapply (Hs k (j-1)); eauto; lia). lia. }
        specialize (HB k Hk). destruct Hk as [Hk _]. specialize (HA k Hk). apply rd_bounds in Hk. lia. }
      destruct (Z.eqb_spec (zlen v) 0) as [Z0|NZ].
      { exists (-1). split; auto. left. split; auto. intros j Hj. apply rd_bounds in Hj. lia. }
      destruct (Z.ltb_spec e s) as [L|L]; [exists (-1); split; auto|].
      destruct (Z.leb_spec (zlen v) s); [exists (-1); split; auto|]. destruct (Z.ltb_spec e 0); [lia|].
      rewrite quot_div by lia. set (mid := s + (e - s) / 2).
      assert (s <= mid <= e) as MB by (unfold mid; lia). assert (mid < zlen v) as MZ by (unfold mid; lia).
      destruct (Z.ltb_spec mid (zlen v)); [|lia]. destruct (Z.leb_spec 0 mid); [|lia]. cbn [assertb bind].
      destruct (rd_ok v mid) as [vm Hm]; [lia|]. rewrite Hm. cbn [bind].
      destruct (Z.eqb_spec vm val) as [->|Nv].
      + destruct (Z.leb_spec mid 0) as [M0|M0].
        { exists mid; split; auto. right. split; auto. intros j Hj Q. apply rd_bounds in Q. lia. }
        destruct (rd_ok v (mid - 1)) as [vp Hp]; [lia|]. rewrite Hp. cbn [bind].
        destruct (Z.eqb_spec vp val) as [->|Np]; cbn [negb].
        * apply IH; auto; try lia. intros j [Hj Hl].
          destruct (Z_le_dec j (mid - 1)); auto. exfalso. apply (Hl (mid - 1)); auto; lia.
        * exists mid; split; auto. right. split; auto. intros j Hj Q.
          assert (vp <= val) by (eapply (Hs (mid-1) mid); eauto; lia).
          assert (val <= vp) by (eapply (Hs j (mid-1)); eauto; lia). lia.
      + destruct (Z.ltb_spec val vm).
        * apply IH; auto; try lia. intros j [Hj Hl].
          destruct (Z_le_dec j (mid-1)); auto. exfalso. assert (vm <= val) by (eapply (Hs mid j); eauto; lia). lia.
        * apply IH; auto; try lia. intros j Hj.
          destruct (Z_le_dec (mid+1) j); auto. exfalso. assert (val <= vm) by (eapply (Hs j mid); eauto; lia). lia.
  Qed.

  Lemma right_border_spec : forall fuel s e, 0 <= s <= e + 1 -> e <= zlen v -> e - s + 2 <= Z.of_nat fuel ->
     (forall j, last_at j -> s <= j) ->
     (forall j, rd v j = Ok val -> j <= e) ->
     exists r, right_border fuel v val s e (zlen v) = Ok r /\ ((r = -1 /\ absent) \/ last_at r) .
  Proof.
    induction fuel as [|f IH]; intros s e H0 H1 Hf HA HB.
    - exfalso. simpl in Hf. lia.
    - cbn [right_border].
      assert (e < s \/ zlen v <= s -> absent) as EA.
      { intros L j Hj. assert (exists k, last_at k) as [k Hk].
        { assert (0 <= zlen v - 1 - j) as P by (apply rd_bounds in Hj; lia).
          remember (zlen v - 1 - j) as d eqn:Ed. revert j Ed Hj. pattern d. apply Zlt_0_ind; auto.
          clear d P. intros d IHd P j Ed Hj.
          destruct (Z.eq_dec d 0) as [->|N].
          - exists j. split; auto. intros k Hk Q. apply rd_bounds in Q. lia.
          - destruct (rd_ok v (j+1)) as [a Ha]; [apply rd_bounds in Hj; lia|].
            destruct (Z.eq_dec a val) as [->|Na].
            + apply (IHd (d-1)) with (j := j+1); auto; lia.
            + exists j. split; auto. intros k Hk Q. assert (val <= a) by (eapply (Hs j (j+1)); eauto; lia).
              assert (a <= val) by (eapply (Hs (j+1) k); eauto; lia). lia. }
        specialize (HA k Hk). destruct Hk as [Hk _]. specialize (HB k Hk). apply rd_bounds in Hk. lia. }
      destruct (Z.eqb_spec (zlen v) 0) as [Z0|NZ].
      { exists (-1). split; auto. left. split; auto. intros j Hj. apply rd_bounds in Hj. lia. }
      destruct (Z.ltb_spec e s) as [L|L]; [exists (-1); split; auto|].
      destruct (Z.leb_spec (zlen v) s); [exists (-1); split; auto|]. destruct (Z.ltb_spec e 0); [lia|].
      rewrite quot_div by lia. set (mid := s + (e - s) / 2).
      assert (s <= mid <= e) as MB by (unfold mid; lia). assert (mid < zlen v) as MZ by (unfold mid; lia).
      destruct (Z.ltb_spec mid (zlen v)); [|lia]. destruct (Z.leb_spec 0 mid); [|lia]. cbn [assertb bind].
      destruct (rd_ok v mid) as [vm Hm]; [lia|]. rewrite Hm. cbn [bind].
      destruct (Z.eqb_spec vm val) as [->|Nv].
      + destruct (Z.leb_spec (zlen v - 1) mid) as [M0|M0].
        { exists mid; split; auto. right. split; auto. intros j Hj Q. apply rd_bounds in Q. lia. }
        destruct (rd_ok v (mid + 1)) as [vp Hp]; [lia|]. rewrite Hp. cbn [bind].
        destruct (Z.eqb_spec vp val) as [->|Np]; cbn [negb].
        * apply IH; auto; try lia. intros j [Hj Hl].
          destruct (Z_le_dec (mid+1) j); auto. exfalso. apply (Hl (mid + 1)); auto; lia.
        * exists mid; split; auto. right. split; auto. intros j Hj Q.
          assert (val <= vp) by (eapply (Hs mid (mid+1)); eauto; lia).
          assert (vp <= val) by (eapply (Hs (mid+1) j); eauto; lia). lia.
      + destruct (Z.ltb_spec val vm).
        * apply IH; auto; try lia. intros j Hj.
          destruct (Z_le_dec j (mid-1)); auto. exfalso. assert (vm <= val) by (eapply (Hs mid j); eauto; lia). lia.
        * apply IH; auto; try lia. intros j [Hj Hl].
          destruct (Z_le_dec (mid+1) j); auto. exfalso. assert (val <= vm) by (eapply (Hs j mid); eauto; lia). lia.
  Qed.

  Lemma left_border_to_spec fin : zlen v - 1 <= fin <= zlen v ->
    exists r, left_border_to v val fin = Ok r /\ ((r = -1 /\ absent) \/ first_at r).
  Proof.
    intros Hf. pose proof (zlen_nonneg v). unfold left_border_to. apply left_border_spec; try lia.
    - unfold zlen in *; lia.
    - intros j Hj; apply rd_bounds in Hj; lia.
    - intros j [Hj _]; apply rd_bounds in Hj; lia.
  Qed.
  Lemma left_border_all_spec : exists r, left_border_all v val = Ok r /\ ((r = -1 /\ absent) \/ first_at r).
  Proof. apply left_border_to_spec. lia. Qed.
  Lemma right_border_to_spec fin : zlen v - 1 <= fin <= zlen v ->
    exists r, right_border_to v val fin = Ok r /\ ((r = -1 /\ absent) \/ last_at r).
  Proof.
    intros Hf. pose proof (zlen_nonneg v). unfold right_border_to. apply right_border_spec; try lia.
    - unfold zlen in *; lia.
    - intros j [Hj _]; apply rd_bounds in Hj; lia.
    - intros j Hj; apply rd_bounds in Hj; lia.
  Qed.
  Lemma right_border_all_spec : exists r, right_border_all v val = Ok r /\ ((r = -1 /\ absent) \/ last_at r).
  Proof. apply right_border_to_spec. lia. Qed.
End Border.

(** ** l_binary_search.  [c] is the crossing position: everything before is < item, everything
    from it (within [0,N)) is >= item. *)
Definition crossing (v : list Z) (N item c : Z) : Prop :=
  0 <= c <= N /\ (forall i a, 0 <= i < c -> rd v i = Ok a -> a < item) /\
  (forall i a, c <= i < N -> rd v i = Ok a -> item <= a).

Lemma crossing_unique v N item c c' : N <= zlen v -> crossing v N item c -> crossing v N item c' -> c = c'.
Proof.
  intros HN (H1 & H2 & H3) (H1' & H2' & H3'). destruct (Z.lt_trichotomy c c') as [L|[L|L]]; auto; exfalso.
  - destruct (rd_ok v c) as [a Ha]; [lia|]. specialize (H3 c a ltac:(lia) Ha). specialize (H2' c a ltac:(lia) Ha). lia.
  - destruct (rd_ok v c') as [a Ha]; [lia|]. specialize (H3' c' a ltac:(lia) Ha). specialize (H2 c' a ltac:(lia) Ha). lia.
Qed.

(** general invariant: whatever lies past the end, an answer is the crossing position or [N];
    it is the crossing position if the word past the end is >= item or the array ends there *)
Lemma l_bsearch_loop_spec v N item c g : 0 <= N -> crossing v N item c -> zlen v = N + 1 -> rd v N = Ok g ->
  forall fuel e1 e2 eh, 0 <= e1 -> e2 <= N -> e1 <= c ->
    (c <= e2) -> e2 - e1 + 1 <= Z.of_nat fuel ->
    exists r, l_bsearch_loop fuel v item e1 e2 eh = Ok r /\ (r = c \/ (r = N /\ g < item /\ c = N - 1)) .
Proof.
  intros HN (C0 & C1 & C2) HL Hg. induction fuel as [|f IH]; intros e1 e2 eh H1 H2 H3 H4 Hf; [lia|].
  cbn [l_bsearch_loop]. destruct (Z.leb_spec e1 e2); [|lia].
  rewrite quot_div by lia. set (h := e2 - (e2 - e1)/2). assert (e1 <= h <= e2) as HB by (unfold h; lia).
  destruct (Z.eqb_spec h 0) as [E0|N0].
  { exists h. split; auto. left. unfold h in *. lia. }
  destruct (rd_ok v (h-1)) as [a Ha]; [lia|]. rewrite Ha. cbn [bind].
  destruct (rd_ok v h) as [b Hb]; [lia|]. rewrite Hb. cbn [bind].
  destruct (Z.ltb_spec a item) as [La|La]; cbn [bind].
  - destruct (Z.leb_spec item b) as [Lb|Lb].
    + exists h; split; auto. left.
      destruct (Z.lt_trichotomy h c) as [L|[L|L]]; auto; exfalso.
      * specialize (C1 h b ltac:(lia) Hb). lia.
      * specialize (C2 (h-1) a ltac:(lia) Ha). lia.
    + (* both below *)
      assert (h <= c) as HC.
      { destruct (Z_le_dec h c); auto. specialize (C2 (h-1) a ltac:(lia) Ha). lia. }
      destruct (Z.eq_dec h N) as [EN|NN].
      * rewrite EN in *. (* past-the-end word below item *) exists N. assert (c = N) by lia. subst c.
        destruct f as [|f']; cbn [l_bsearch_loop].
        -- destruct (Z.leb_spec (N+1) e2); [lia|]. auto.
        -- destruct (Z.leb_spec (N+1) e2); [lia|]. auto.
      * apply IH; try lia. destruct (Z.eq_dec h c) as [->|]; [|lia].
        specialize (C2 c b ltac:(lia) Hb). lia.
  - (* a >= item *)
    assert (c <= h - 1) as HC.
    { destruct (Z_le_dec c (h-1)); auto. specialize (C1 (h-1) a ltac:(lia) Ha). lia. }
    destruct (Z.leb_spec item b) as [Lb|Lb].
    + apply IH; try lia.
    + (* only possible at the past-the-end word *)
      destruct (Z.eq_dec h N) as [EN|NN].
      * assert (b = g) by (rewrite EN in Hb; congruence).
        assert (c = N - 1) by (unfold h in *; lia).
        exists N. rewrite EN. destruct f as [|f']; cbn [l_bsearch_loop];
          (destruct (Z.leb_spec (N+1) e2); [lia|]); split; auto; right; lia.
      * specialize (C2 h b ltac:(lia) Hb). lia.
Qed.

(** exact-size array: if the search answers at all, the answer is the crossing position *)
Lemma l_bsearch_loop_exact v N item c : 0 <= N -> crossing v N item c -> zlen v = N ->
  forall fuel e1 e2 eh, 0 <= e1 -> e2 <= N -> e1 <= c -> (c <= e2) -> e2 - e1 + 1 <= Z.of_nat fuel ->
    l_bsearch_loop fuel v item e1 e2 eh = Ok c \/ l_bsearch_loop fuel v item e1 e2 eh = Err OOB.
Proof.
  intros HN (C0 & C1 & C2) HL. induction fuel as [|f IH]; intros e1 e2 eh H1 H2 H3 H4 Hf; [lia|].
  cbn [l_bsearch_loop]. destruct (Z.leb_spec e1 e2); [|lia].
  rewrite quot_div by lia. set (h := e2 - (e2 - e1)/2). assert (e1 <= h <= e2) as HB by (unfold h; lia).
  destruct (Z.eqb_spec h 0) as [E0|N0].
  { left. f_equal. unfold h in *. lia. }
  destruct (rd_ok v (h-1)) as [a Ha]; [lia|]. rewrite Ha. cbn [bind].
  destruct (Z.eq_dec h N) as [EN|NN].
  { right. rewrite (rd_oob v h) by lia. destruct (a <? item); reflexivity. }
  destruct (rd_ok v h) as [b Hb]; [lia|]. rewrite Hb. cbn [bind].
  destruct (Z.ltb_spec a item) as [La|La]; cbn [bind].
  - destruct (Z.leb_spec item b) as [Lb|Lb].
    + left. f_equal. destruct (Z.lt_trichotomy h c) as [L|[L|L]]; auto; exfalso.
      * specialize (C1 h b ltac:(lia) Hb). lia.
      * specialize (C2 (h-1) a ltac:(lia) Ha). lia.
    + apply IH; try lia. destruct (Z_le_dec (h+1) c); auto.
      specialize (C2 h b ltac:(lia) Hb). lia.
  - assert (c <= h - 1) as HC.
    { destruct (Z_le_dec c (h-1)); auto. specialize (C1 (h-1) a ltac:(lia) Ha). lia. }
    destruct (Z.leb_spec item b) as [Lb|Lb].
    + apply IH; try lia.
    + specialize (C2 h b ltac:(lia) Hb). lia.
Qed.

Lemma l_binary_search_spec v item c g : crossing v (zlen v) item c ->
  exists r, l_binary_search 0 (zlen v) (v ++ [g]) item = Ok r /\
            (r = c \/ (r = zlen v /\ g < item /\ c = zlen v - 1)).
Proof.
  intros C. pose proof (zlen_nonneg v). unfold l_binary_search.
  apply l_bsearch_loop_spec with (N := zlen v) (g := g); try lia.
  - destruct C as (C0 & C1 & C2). split; [auto|]. split.
    + intros i a Hi Ha. rewrite rd_app1 in Ha by lia. eauto.
    + intros i a Hi Ha. rewrite rd_app1 in Ha by lia. eauto.
  - rewrite zlen_app. reflexivity.
  - rewrite rd_app2 by lia. rewrite Z.sub_diag. reflexivity.
  - destruct C; lia.
  - destruct C; lia.
Qed.

Lemma l_binary_search_exact v item c : crossing v (zlen v) item c ->
  l_binary_search 0 (zlen v) v item = Ok c \/ l_binary_search 0 (zlen v) v item = Err OOB.
Proof.
  intros C. pose proof (zlen_nonneg v). unfold l_binary_search.
  apply l_bsearch_loop_exact with (N := zlen v); auto; try lia; destruct C; lia.
Qed.

(** ** l_linear_search *)
Lemma l_lsearch_loop_spec v item c : crossing v (zlen v) item c ->
  forall k i, 0 <= i -> i + Z.of_nat k + 1 = zlen v -> i < c ->
  l_lsearch_loop k i (zlen v) v item = Ok c.
Proof.
  intros (C0 & C1 & C2). induction k as [|k IH]; intros i Hi Hk Hc.
  - simpl. f_equal. lia.
  - cbn [l_lsearch_loop]. destruct (rd_ok v i) as [a Ha]; [lia|]. rewrite Ha; cbn [bind].
    assert (a < item) by (eapply C1; eauto; lia).
    destruct (Z.ltb_spec a item); [|lia].
    destruct (rd_ok v (i+1)) as [b Hb]; [lia|]. rewrite Hb; cbn [bind].
    destruct (Z.leb_spec item b).
    + f_equal. destruct (Z.eq_dec (i+1) c); auto. pose proof (C1 (i+1) b ltac:(lia) Hb). lia.
    + apply IH; try lia. destruct (Z_lt_dec (i+1) c); auto. pose proof (C2 (i+1) b ltac:(lia) Hb). lia.
Qed.

Lemma l_linear_search_spec v item c : 1 <= zlen v -> crossing v (zlen v) item c ->
  l_linear_search 0 (zlen v) v item = Ok c.
Proof.
  intros Hn C. unfold l_linear_search. destruct (rd_ok v 0) as [a Ha]; [lia|]. rewrite Ha; cbn [bind].
  pose proof C as (C0 & C1 & C2).
  destruct (Z.leb_spec item a).
  - f_equal. destruct (Z.eq_dec c 0); auto. specialize (C1 0 a ltac:(lia) Ha). lia.
  - replace (zlen v - 1 - 0) with (zlen v - 1) by lia. apply l_lsearch_loop_spec; auto; try lia.
    destruct (Z.eq_dec c 0) as [->|]; [|lia]. specialize (C2 0 a ltac:(lia) Ha). lia.
Qed.

Lemma crossing_exists v item : isorted v -> exists c, crossing v (zlen v) item c.
Proof.
  intros Hs.
  assert (forall k, 0 <= k <= zlen v -> exists c, crossing v k item c) as H.
  { intros k [Hk Hk2]. revert Hk2. pattern k. apply natlike_ind; auto; clear k Hk.
    - intros _. exists 0. split; [lia|]. split; intros; lia.
    - intros k Hk IH Hk2. destruct IH as [c (C0 & C1 & C2)]; [lia|].
      destruct (rd_ok v k) as [a Ha]; [lia|].
      destruct (Z_lt_dec a item).
      + exists (Z.succ k). split; [lia|]. split; [|intros; lia]. intros i b Hi Hb.
        destruct (Z_lt_dec i c); [eapply C1; eauto; lia|].
        assert (b <= a) by (eapply (Hs i k); eauto; lia). lia.
      + exists c. split; [lia|]. split; auto. intros i b Hi Hb.
        destruct (Z.eq_dec i k) as [->|]; [rewrite Ha in Hb; inv Hb; lia|]. eapply C2; eauto; lia. }
  apply H. pose proof (zlen_nonneg v); lia.
Qed.

Lemma l_binary_search_total v g item : Sorted Z.le v ->
  exists c r, 0 <= c <= zlen v /\
    (forall i a, 0 <= i < c -> rd v i = Ok a -> a < item) /\
    (forall i a, c <= i < zlen v -> rd v i = Ok a -> item <= a) /\
    l_binary_search 0 (zlen v) (v ++ [g]) item = Ok r /\
    (item <= g \/ c <> zlen v - 1 -> r = c) /\ (r = c \/ r = zlen v).
Proof.
  intros Hs. apply Sorted_isorted in Hs. destruct (crossing_exists v item Hs) as [c C].
  destruct (l_binary_search_spec v item c g C) as (r & E & H).
  destruct C as (C0 & C1 & C2). exists c, r. repeat (split; [assumption|]). split; lia.
Qed.

Lemma l_binary_search_exact_total v item : Sorted Z.le v ->
  exists c, 0 <= c <= zlen v /\
    (forall i a, 0 <= i < c -> rd v i = Ok a -> a < item) /\
    (forall i a, c <= i < zlen v -> rd v i = Ok a -> item <= a) /\
    (l_binary_search 0 (zlen v) v item = Ok c \/ l_binary_search 0 (zlen v) v item = Err OOB).
Proof.
  intros Hs. apply Sorted_isorted in Hs. destruct (crossing_exists v item Hs) as [c C].
  pose proof (l_binary_search_exact v item c C). destruct C as (C0 & C1 & C2). exists c. tauto.
Qed.

Lemma l_binary_search_bad :
  exists v item, Sorted Z.le v /\ l_binary_search 0 (zlen v) v item = Err OOB /\
    l_binary_search 0 (zlen v) (v ++ [item]) item = Ok 3 /\
    l_binary_search 0 (zlen v) (v ++ [item - 1]) item = Ok 4 /\ rd v 3 = Ok item.
Proof. exists [1;2;3;5], 5. repeat split; try reflexivity. repeat constructor; lia. Qed.

Lemma l_linear_search_total v item : Sorted Z.le v -> 1 <= zlen v ->
  exists c, l_linear_search 0 (zlen v) v item = Ok c /\ 0 <= c <= zlen v /\
    (forall i a, 0 <= i < c -> rd v i = Ok a -> a < item) /\
    (forall i a, c <= i < zlen v -> rd v i = Ok a -> item <= a).
Proof.
  intros Hs Hn. apply Sorted_isorted in Hs. destruct (crossing_exists v item Hs) as [c C].
  exists c. split; [apply l_linear_search_spec; auto|exact C].
Qed.
Lemma l_linear_search_empty item : l_linear_search 0 0 [] item = Err OOB.
Proof. reflexivity. Qed.
