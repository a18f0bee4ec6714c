From Verif Require Import BaseLemmas Layout.

(** ** Relabelling *)
Section Relabel.
  Variables (threads nseg len : Z).
  Hypothesis Ht : 1 <= threads.
  Hypothesis Hs : 1 <= nseg.
  Hypothesis Hl : 0 <= len.

  Let np := npartitions threads nseg.
  Let h := len / np.

  Lemma np_pos : 16 <= np.
  Proof. unfold np, npartitions. nia. Qed.

  Lemma v2n_eq v : vertexToNative threads nseg len v =
    Ok (if h * np <=? v - 1 then v else
        if v - 1 <? 0 then Z.quot (v-1) np + Z.rem (v-1) np * h + 1 else (v - 1) / np + (v - 1) mod np * h + 1).
  Proof.
    pose proof np_pos as P. unfold vertexToNative. fold np.
    destruct (Z.eqb_spec np 0); [lia|]. rewrite (quot_div len np) by lia. fold h.
    destruct (Z.leb_spec (h * np) (v - 1)); [f_equal; lia|].
    destruct (Z.ltb_spec (v - 1) 0); [auto|].
    rewrite quot_div, rem_mod by lia. auto.
  Qed.

  Lemma n2v_eq v : 1 <= v -> nativeToVertex threads nseg len v =
    Ok (if h * np <=? v - 1 then v else (v - 1) / h + (v - 1) mod h * np + 1).
  Proof.
    intros Hv. pose proof np_pos as P. unfold nativeToVertex. fold np.
    destruct (Z.eqb_spec np 0); [lia|]. rewrite (quot_div len np) by lia. fold h.
    destruct (Z.leb_spec (h * np) (v - 1)); [f_equal; lia|].
    assert (0 <= h) by (unfold h; apply Z.div_pos; lia).
    destruct (Z.eqb_spec h 0); [nia|].
    rewrite quot_div, rem_mod by lia. auto.
  Qed.

  Lemma h_np_le : 0 <= h /\ h * np <= len.
  Proof.
    pose proof np_pos as P. split; [apply Z.div_pos; lia|]. unfold h. rewrite Z.mul_comm. apply Z.mul_div_le; lia.
  Qed.

  Lemma v2n_spec v : 1 <= v <= len -> exists w,
    vertexToNative threads nseg len v = Ok w /\ 1 <= w <= len /\ nativeToVertex threads nseg len w = Ok v.
  Proof.
    intros Hv. pose proof np_pos as P. pose proof h_np_le as [H0 H1]. rewrite v2n_eq.
    destruct (Z.leb_spec (h * np) (v - 1)) as [L|L].
    - exists v. split; auto. split; [lia|]. rewrite n2v_eq by lia.
      destruct (Z.leb_spec (h * np) (v - 1)); [auto|lia].
    - destruct (Z.ltb_spec (v - 1) 0); [lia|].
      eexists; split; [reflexivity|]. set (u := v - 1) in *.
      pose proof (Z.div_mod u np ltac:(lia)) as DM. pose proof (Z.mod_pos_bound u np ltac:(lia)) as MB.
      assert (0 <= u / np < h) as QB.
      { split; [apply Z.div_pos; lia|]. apply Z.div_lt_upper_bound; lia. }
      assert (u / np + u mod np * h < h * np) as UB by nia.
      split; [nia|]. rewrite n2v_eq by nia.
      replace (u / np + u mod np * h + 1 - 1) with (u / np + u mod np * h) by lia.
      destruct (Z.leb_spec (h * np) (u / np + u mod np * h)); [lia|].
      rewrite Z.div_add by lia. rewrite Z.mod_add by lia.
      rewrite (Z.div_small (u / np) h) by lia. rewrite (Z.mod_small (u/np) h) by lia.
      f_equal. unfold u in *. lia.
  Qed.

  Lemma n2v_spec w : 1 <= w <= len -> exists v,
    nativeToVertex threads nseg len w = Ok v /\ 1 <= v <= len /\ vertexToNative threads nseg len v = Ok w.
  Proof.
    intros Hv. pose proof np_pos as P. pose proof h_np_le as [H0 H1]. rewrite n2v_eq by lia.
    destruct (Z.leb_spec (h * np) (w - 1)) as [L|L].
    - exists w. split; auto. split; [lia|]. rewrite v2n_eq.
      destruct (Z.leb_spec (h * np) (w - 1)); [auto|lia].
    - assert (0 < h) by nia.
      eexists; split; [reflexivity|]. set (u := w - 1) in *.
      pose proof (Z.div_mod u h ltac:(lia)) as DM. pose proof (Z.mod_pos_bound u h ltac:(lia)) as MB.
      assert (0 <= u / h < np) as QB.
      { split; [apply Z.div_pos; lia|]. apply Z.div_lt_upper_bound; lia. }
      assert (u / h + u mod h * np < h * np) as UB by nia.
      split; [nia|]. rewrite v2n_eq.
      replace (u / h + u mod h * np + 1 - 1) with (u / h + u mod h * np) by lia.
      destruct (Z.leb_spec (h * np) (u / h + u mod h * np)); [lia|].
      destruct (Z.ltb_spec (u / h + u mod h * np) 0); [nia|].
      rewrite Z.div_add by lia. rewrite Z.mod_add by lia.
      rewrite (Z.div_small (u / h) np) by lia. rewrite (Z.mod_small (u/h) np) by lia.
      f_equal. unfold u in *. lia.
  Qed.
End Relabel.

(** total versions used by the proofs *)
Definition v2n t s n v := match vertexToNative t s n v with Ok w => w | Err _ => 0 end.
Definition n2v t s n v := match nativeToVertex t s n v with Ok w => w | Err _ => 0 end.

Lemma v2n_ok t s n v : 1 <= t -> 1 <= s -> 1 <= v <= n ->
  vertexToNative t s n v = Ok (v2n t s n v) /\ 1 <= v2n t s n v <= n.
Proof.
  intros Ht Hs Hv. destruct (v2n_spec t s n Ht Hs ltac:(lia) v Hv) as [w [E [B _]]]. unfold v2n; rewrite E; auto.
Qed.
Lemma n2v_ok t s n v : 1 <= t -> 1 <= s -> 1 <= v <= n ->
  nativeToVertex t s n v = Ok (n2v t s n v) /\ 1 <= n2v t s n v <= n.
Proof.
  intros Ht Hs Hv. destruct (n2v_spec t s n Ht Hs ltac:(lia) v Hv) as [w [E [B _]]]. unfold n2v; rewrite E; auto.
Qed.
Lemma n2v_v2n t s n v : 1 <= t -> 1 <= s -> 1 <= v <= n -> n2v t s n (v2n t s n v) = v.
Proof.
  intros Ht Hs Hv. destruct (v2n_spec t s n Ht Hs ltac:(lia) v Hv) as [w [E [B E']]]. unfold v2n, n2v; rewrite E, E'; auto.
Qed.
Lemma v2n_n2v t s n v : 1 <= t -> 1 <= s -> 1 <= v <= n -> v2n t s n (n2v t s n v) = v.
Proof.
  intros Ht Hs Hv. destruct (n2v_spec t s n Ht Hs ltac:(lia) v Hv) as [w [E [B E']]]. unfold v2n, n2v; rewrite E, E'; auto.
Qed.
Lemma v2n_inj t s n v v' : 1 <= t -> 1 <= s -> 1 <= v <= n -> 1 <= v' <= n -> v2n t s n v = v2n t s n v' -> v = v'.
Proof. intros Ht Hs H H' E. rewrite <- (n2v_v2n t s n v), <- (n2v_v2n t s n v'), E; auto. Qed.

(** ** Boundaries *)
Lemma block_size_pos n nseg : 0 <= n -> 1 <= nseg -> 0 <= block_size n nseg /\ (0 < n -> 256 <= block_size n nseg)
   /\ n <= block_size n nseg * nseg /\ (256 | block_size n nseg).
Proof.
  intros Hn Hs. unfold block_size. rewrite (quot_div (n + nseg - 1)) by lia.
  set (q := (n + nseg - 1) / nseg).
  assert (0 <= q) by (apply Z.div_pos; lia).
  rewrite (quot_div (q + 256 - 1) 256) by lia.
  set (k := (q + 256 - 1) / 256).
  assert (q <= k * 256) by (unfold k; lia).
  assert (n <= q * nseg).
  { unfold q. pose proof (Z.div_mod (n + nseg - 1) nseg ltac:(lia)). pose proof (Z.mod_pos_bound (n + nseg - 1) nseg ltac:(lia)). nia. }
  assert (0 <= k) by (unfold k; apply Z.div_pos; lia).
  split; [lia|]. split; [|split].
  - intros. assert (0 < k) by nia. lia.
  - nia.
  - exists k; auto.
Qed.

Lemma starts_len n nseg : 0 <= nseg -> zlen (starts n nseg) = nseg + 1.
Proof. intros H; unfold starts. rewrite zlen_app. unfold zlen at 1. rewrite map_length. fold (zlen (zrange 0 nseg)). rewrite zlen_zrange by lia. unfold zlen; simpl; lia. Qed.

Lemma rd_starts n nseg j : 0 <= n -> 1 <= nseg -> 0 <= j <= nseg -> rd (starts n nseg) j = Ok (Z.min (block_size n nseg * j) n).
Proof.
  intros Hn Hs Hj. unfold starts.
  assert (zlen (map (fun j => Z.min (block_size n nseg * j) n) (zrange 0 nseg)) = nseg) as L.
  { unfold zlen. rewrite map_length. fold (zlen (zrange 0 nseg)). rewrite zlen_zrange; lia. }
  destruct (Z.eq_dec j nseg) as [->|N].
  - rewrite rd_app2 by lia. rewrite L, Z.sub_diag. rewrite rd_cons0. f_equal.
    pose proof (block_size_pos n nseg Hn Hs). lia.
  - rewrite rd_app1 by lia. erewrite rd_map; [reflexivity|]. rewrite rd_zrange by lia. f_equal.
Qed.

Definition start_at n nseg j := Z.min (block_size n nseg * j) n.

Lemma start_at_mono n nseg i j : 0 <= n -> 1 <= nseg -> i <= j -> start_at n nseg i <= start_at n nseg j.
Proof. intros Hn Hs H. unfold start_at. pose proof (block_size_pos n nseg Hn Hs). nia. Qed.

Lemma find_block_spec n nseg src : 0 <= n -> 1 <= nseg ->
  forall k i, 0 <= i -> i + Z.of_nat k = nseg ->
  exists r, find_block (starts n nseg) src k i = Ok r /\
    ((r = -1 /\ forall j, i <= j < nseg -> ~ (start_at n nseg j < src <= start_at n nseg (j+1)))
     \/ (i <= r < nseg /\ start_at n nseg r < src <= start_at n nseg (r+1))).
Proof.
  intros Hn Hs. induction k as [|k IH]; intros i Hi Hk; simpl.
  - exists (-1). split; auto. left; split; auto. intros; lia.
  - rewrite !rd_starts by lia. simpl. fold (start_at n nseg i). fold (start_at n nseg (i+1)).
    destruct (Z.ltb_spec (start_at n nseg i) src); simpl.
    + destruct (Z.leb_spec src (start_at n nseg (i+1))).
      * exists i. split; auto. right. lia.
      * destruct (IH (i+1)) as [r [E H']]; [lia|lia|]. exists r; split; auto.
        destruct H' as [[-> H']|H']; [left|right; lia]. split; auto. intros j Hj.
        destruct (Z.eq_dec i j) as [->|]; [lia|]. apply H'; lia.
    + destruct (IH (i+1)) as [r [E H']]; [lia|lia|]. exists r; split; auto.
      destruct H' as [[-> H']|H']; [left|right; lia]. split; auto. intros j Hj.
      destruct (Z.eq_dec i j) as [->|]; [lia|]. apply H'; lia.
Qed.

Lemma block_exists n nseg src : 0 <= n -> 1 <= nseg -> 1 <= src <= n ->
  exists j, 0 <= j < nseg /\ start_at n nseg j < src <= start_at n nseg (j+1).
Proof.
  intros Hn Hs Hsrc. pose proof (block_size_pos n nseg Hn Hs) as (B0 & B1 & B2 & B3).
  specialize (B1 ltac:(lia)). set (b := block_size n nseg) in *.
  exists ((src - 1) / b). pose proof (Z.div_mod (src-1) b ltac:(lia)). pose proof (Z.mod_pos_bound (src-1) b ltac:(lia)).
  unfold start_at. fold b. split; [split|].
  - apply Z.div_pos; lia.
  - apply Z.div_lt_upper_bound; lia.
  - nia.
Qed.

Lemma block_unique n nseg src i j : 0 <= n -> 1 <= nseg ->
  start_at n nseg i < src <= start_at n nseg (i+1) ->
  start_at n nseg j < src <= start_at n nseg (j+1) -> i = j.
Proof.
  intros Hn Hs Hi Hj. destruct (Z.lt_trichotomy i j) as [L|[L|L]]; auto; exfalso.
  - pose proof (start_at_mono n nseg (i+1) j Hn Hs ltac:(lia)). lia.
  - pose proof (start_at_mono n nseg (j+1) i Hn Hs ltac:(lia)). lia.
Qed.

Lemma vec_getPartition_spec n nseg src : 0 <= n -> 1 <= nseg -> 1 <= src <= n ->
  exists j, vec_getPartition n nseg src = Ok j /\ 0 <= j < nseg /\
            start_at n nseg j < src <= start_at n nseg (j + 1).
Proof.
  intros Hn Hs H. unfold vec_getPartition.
  destruct (find_block_spec n nseg src Hn Hs (Z.to_nat nseg) 0) as [r [E H']]; [lia|lia|].
  destruct H' as [[-> H']|H'].
  - destruct (block_exists n nseg src Hn Hs H) as [j [Hj Hb]]. exfalso. eapply H'; eauto.
  - exists r; auto.
Qed.

Lemma vec_getPartition_out n nseg src : 0 <= n -> 1 <= nseg -> ~ (1 <= src <= n) -> vec_getPartition n nseg src = Ok (-1).
Proof.
  intros Hn Hs H. unfold vec_getPartition.
  destruct (find_block_spec n nseg src Hn Hs (Z.to_nat nseg) 0) as [r [E H']]; [lia|lia|].
  destruct H' as [[-> H']|H']; auto. exfalso. unfold start_at in H'.
  pose proof (block_size_pos n nseg Hn Hs). nia.
Qed.

(** total version *)
Definition vpart n nseg src := match vec_getPartition n nseg src with Ok j => j | Err _ => -1 end.

Lemma vpart_ok n nseg src : 0 <= n -> 1 <= nseg -> vec_getPartition n nseg src = Ok (vpart n nseg src).
Proof.
  intros Hn Hs. destruct (Z_le_dec 1 src); [destruct (Z_le_dec src n)|].
  - destruct (vec_getPartition_spec n nseg src) as [j [E _]]; auto. unfold vpart; rewrite E; auto.
  - unfold vpart. rewrite vec_getPartition_out; auto; lia.
  - unfold vpart. rewrite vec_getPartition_out; auto; lia.
Qed.

Lemma vpart_range n nseg src : 0 <= n -> 1 <= nseg -> 1 <= src <= n ->
  0 <= vpart n nseg src < nseg /\ start_at n nseg (vpart n nseg src) < src <= start_at n nseg (vpart n nseg src + 1).
Proof. intros Hn Hs H. destruct (vec_getPartition_spec n nseg src) as [j [E B]]; auto. unfold vpart; rewrite E; auto. Qed.

Lemma vpart_iff n nseg src j : 0 <= n -> 1 <= nseg -> 0 <= j < nseg ->
  (start_at n nseg j < src <= start_at n nseg (j+1) <-> 1 <= src <= n /\ vpart n nseg src = j).
Proof.
  intros Hn Hs Hj. split.
  - intros B. assert (1 <= src <= n) as S. { unfold start_at in B. pose proof (block_size_pos n nseg Hn Hs). nia. }
    split; auto. eapply block_unique; eauto. apply vpart_range; auto.
  - intros [S <-]. apply vpart_range; auto.
Qed.

(** ** Tiles *)
Lemma mat_starts_eq n nt : mat_starts n nt = starts n nt.
Proof. reflexivity. Qed.

Lemma mat_getPartition_spec m n ntx nty src dst :
  0 <= m -> 0 <= n -> 1 <= ntx -> 1 <= nty -> 1 <= src <= m -> 1 <= dst <= n ->
  exists i j, mat_getPartition m n ntx nty src dst = Ok (i, j, i + j * nty) /\
    0 <= i < nty /\ 0 <= j < ntx /\
    start_at m nty i < src <= start_at m nty (i+1) /\ start_at n ntx j < dst <= start_at n ntx (j+1) /\
    i = vpart m nty src /\ j = vpart n ntx dst.
Proof.
  intros Hm Hn Hx Hy Hs Hd. unfold mat_getPartition.
  pose proof (vpart_ok m nty src Hm Hy) as E1. pose proof (vpart_ok n ntx dst Hn Hx) as E2.
  unfold vec_getPartition in E1, E2. rewrite (mat_starts_eq m nty), (mat_starts_eq n ntx), E1. cbn [bind]. rewrite E2. cbn [bind].
  pose proof (vpart_range m nty src Hm Hy Hs) as [R1 B1]. pose proof (vpart_range n ntx dst Hn Hx Hd) as [R2 B2].
  exists (vpart m nty src), (vpart n ntx dst).
  destruct (Z.eqb_spec (vpart m nty src) (-1)); [lia|]. destruct (Z.eqb_spec (vpart n ntx dst) (-1)); [lia|]. simpl.
  repeat split; auto; lia.
Qed.

(** ** Factorization *)
Lemma round_sqrt_pos v : 1 <= v -> 1 <= round_sqrt v <= v.
Proof.
  intros H. unfold round_sqrt. pose proof (Z.sqrt_spec v ltac:(lia)) as S. cbv zeta in S.
  pose proof (Z.sqrt_nonneg v). assert (1 <= Z.sqrt v) by nia.
  destruct (Z.ltb_spec (Z.sqrt v * Z.sqrt v + Z.sqrt v) v); nia.
Qed.

Lemma factorize_loop_spec val : 1 <= val -> forall fuel r1, 1 <= r1 -> r1 <= Z.of_nat fuel ->
  exists a b, factorize_loop fuel val r1 (Z.quot val r1) = Ok (a, b) /\ 1 <= a <= r1 /\ a * b = val /\
     (forall d, a < d <= r1 -> ~ (d | val)).
Proof.
  intros Hv. induction fuel as [|f IH]; intros r1 H1 Hf; [lia|].
  cbn [factorize_loop]. destruct (Z.eqb_spec (r1 * Z.quot val r1) val) as [E|N].
  - exists r1, (Z.quot val r1). repeat split; auto; try lia.
  - destruct (Z.eqb_spec (r1 - 1) 0) as [E|N'].
    + exfalso. apply N. assert (r1 = 1) by lia. subst. rewrite Z.quot_1_r. lia.
    + destruct (IH (r1 - 1)) as (a & b & E & B & M & D); try lia. exists a, b. repeat split; auto; try lia.
      intros d Hd Hdv. destruct (Z.eq_dec d r1) as [->|Nd]; [|apply (D d); auto; lia].
      apply N. rewrite quot_div by lia. destruct Hdv as [q ->]. rewrite Z.div_mul by lia. lia.
Qed.

Lemma factorize_int_spec val : 1 <= val ->
  exists a b, factorize_int val = Ok (a, b) /\ 1 <= a /\ 1 <= b /\ a * b = val /\ a <= round_sqrt val /\
    (forall d, a < d <= round_sqrt val -> ~ (d | val)).
Proof.
  intros H. pose proof (round_sqrt_pos val H) as P. unfold factorize_int.
  destruct (Z.eqb_spec (round_sqrt val) 0); [lia|].
  destruct (factorize_loop_spec val H (Z.to_nat (round_sqrt val)) (round_sqrt val)) as (a & b & E & B & M & D); try lia.
  exists a, b. repeat split; auto; try lia; try nia.
Qed.

Lemma factorize_int_bad : factorize_int 0 = Err DivZero.
Proof. reflexivity. Qed.

Lemma partition_fn_2d_range tx ty ntx nty nrank : 1 <= nrank -> 0 <= tx -> 0 <= ty ->
  exists r, partition_fn_2d tx ty ntx nty nrank = Ok r /\ 0 <= r < nrank.
Proof.
  intros H Hx Hy. unfold partition_fn_2d. destruct (factorize_int_spec nrank H) as (a & b & E & A & B & M & _).
  rewrite E; simpl. destruct (Z.eqb_spec b 0); [lia|]. destruct (Z.eqb_spec a 0); [lia|]. simpl.
  eexists; split; [reflexivity|]. rewrite !rem_mod by lia.
  pose proof (Z.mod_pos_bound ty a ltac:(lia)). pose proof (Z.mod_pos_bound tx b ltac:(lia)). nia.
Qed.

(** with as many tiles per dimension as ranks, every rank gets a tile *)
Lemma partition_fn_2d_onto nrank r : 1 <= nrank -> 0 <= r < nrank ->
  exists tx ty, 0 <= tx < nrank /\ 0 <= ty < nrank /\ partition_fn_2d tx ty nrank nrank nrank = Ok r.
Proof.
  intros H Hr. unfold partition_fn_2d. destruct (factorize_int_spec nrank H) as (a & b & E & A & B & M & _).
  rewrite E; simpl. destruct (Z.eqb_spec b 0); [lia|]. destruct (Z.eqb_spec a 0); [lia|]. simpl.
  exists (r / a), (r mod a). pose proof (Z.div_mod r a ltac:(lia)). pose proof (Z.mod_pos_bound r a ltac:(lia)).
  assert (0 <= r / a < b). { split; [apply Z.div_pos; lia|]. apply Z.div_lt_upper_bound; lia. }
  split; [nia|]. split; [nia|]. rewrite !rem_mod by lia. rewrite (Z.mod_small (r/a)) by lia. rewrite Z.mod_mod by lia.
  f_equal. lia.
Qed.

Lemma vector_partition_fn_id j nrank : 0 <= j < nrank -> vector_partition_fn j nrank nrank = Ok j.
Proof.
  intros H. unfold vector_partition_fn. destruct (Z.eqb_spec nrank 0); [lia|]. rewrite rem_mod by lia. rewrite Z.mod_small; auto.
Qed.

(** ** Statements used by the property file *)
Lemma relabel_bijection threads ranks n : 1 <= threads -> 1 <= ranks -> 0 <= n ->
  exists to from : Z -> Z,
    (forall v, 1 <= v <= n ->
       vertexToNative threads ranks n v = Ok (to v) /\ 1 <= to v <= n /\
       nativeToVertex threads ranks n v = Ok (from v) /\ 1 <= from v <= n) /\
    (forall v, 1 <= v <= n -> from (to v) = v /\ to (from v) = v).
Proof.
  intros Ht Hs Hn. exists (v2n threads ranks n), (n2v threads ranks n). split.
  - intros v Hv. pose proof (v2n_ok threads ranks n v Ht Hs Hv). pose proof (n2v_ok threads ranks n v Ht Hs Hv). tauto.
  - intros v Hv. split; [apply n2v_v2n|apply v2n_n2v]; auto.
Qed.

Lemma block_size_le n nseg : 0 <= n -> 1 <= nseg -> block_size n nseg * nseg <= n + 256 * nseg.
Proof.
  intros Hn Hs. unfold block_size. rewrite (quot_div (n + nseg - 1)) by lia.
  set (q := (n + nseg - 1) / nseg). assert (0 <= q) by (apply Z.div_pos; lia).
  rewrite (quot_div (q + 256 - 1) 256) by lia.
  assert (q * nseg <= n + nseg - 1).
  { unfold q. pose proof (Z.div_mod (n + nseg - 1) nseg ltac:(lia)). pose proof (Z.mod_pos_bound (n + nseg - 1) nseg ltac:(lia)). nia. }
  set (k := (q + 256 - 1) / 256). assert (k * 256 <= q + 255) by (unfold k; lia). nia.
Qed.

Lemma segments_partition n nseg : 0 <= n -> 1 <= nseg ->
  zlen (starts n nseg) = nseg + 1 /\
  rd (starts n nseg) 0 = Ok 0 /\ rd (starts n nseg) nseg = Ok n /\
  (forall i a b, 0 <= i < nseg -> rd (starts n nseg) i = Ok a -> rd (starts n nseg) (i + 1) = Ok b ->
      0 <= a <= b /\ b <= n /\ (a mod 256 = 0 \/ a = n)) /\
  (forall v, 1 <= v <= n -> exists k a b,
      vec_getPartition n nseg v = Ok k /\ 0 <= k < nseg /\
      rd (starts n nseg) k = Ok a /\ rd (starts n nseg) (k + 1) = Ok b /\ a < v <= b /\
      (forall k' a' b', 0 <= k' < nseg -> rd (starts n nseg) k' = Ok a' -> rd (starts n nseg) (k' + 1) = Ok b' ->
         a' < v <= b' -> k' = k)) /\
  (forall v, ~ 1 <= v <= n -> vec_getPartition n nseg v = Ok (-1)) /\
  (forall j, 0 <= j <= nseg -> 0 <= block_size n nseg * j <= n + 256 * nseg).
Proof.
  intros Hn Hs. pose proof (block_size_pos n nseg Hn Hs) as (B0 & B1 & B2 & B3).
  pose proof (block_size_le n nseg Hn Hs) as BL.
  split; [apply starts_len; lia|].
  split; [rewrite rd_starts by lia; f_equal; lia|].
  split; [rewrite rd_starts by lia; f_equal; lia|].
  split; [|split; [|split]].
  - intros i a b Hi Ha Hb. rewrite rd_starts in Ha by lia. rewrite rd_starts in Hb by lia.
    injection Ha as <-. injection Hb as <-.
    assert (block_size n nseg * i <= block_size n nseg * (i+1)) by nia.
    assert (0 <= block_size n nseg * i) by nia.
    split; [lia|]. split; [lia|].
    destruct (Z.min_spec (block_size n nseg * i) n) as [[_ ->]|[_ ->]]; auto.
    left. destruct B3 as [k ->]. rewrite <- Z.mul_assoc, (Z.mul_comm 256), Z.mul_assoc. apply Z.mod_mul. lia.
  - intros v Hv. destruct (vec_getPartition_spec n nseg v Hn Hs Hv) as (j & E & Rj & B).
    exists j, (start_at n nseg j), (start_at n nseg (j+1)). unfold start_at in *.
    repeat (split; [try (rewrite rd_starts by lia; reflexivity); auto; lia|]).
    intros k' a' b' Hk' Ha' Hb' V. rewrite rd_starts in Ha' by lia. rewrite rd_starts in Hb' by lia.
    injection Ha' as <-. injection Hb' as <-. eapply (block_unique n nseg v); eauto.
  - intros v Hv. apply vec_getPartition_out; auto.
  - intros j Hj. nia.
Qed.

Lemma tiles_partition n t : 0 <= n -> 1 <= t ->
  mat_starts n t = starts n t /\
  (forall u v, 1 <= u <= n -> 1 <= v <= n -> exists i j a b c d,
     mat_getPartition n n t t u v = Ok (i, j, i + j * t) /\ 0 <= i < t /\ 0 <= j < t /\
     rd (mat_starts n t) i = Ok a /\ rd (mat_starts n t) (i + 1) = Ok b /\ a < u <= b /\
     rd (mat_starts n t) j = Ok c /\ rd (mat_starts n t) (j + 1) = Ok d /\ c < v <= d /\
     vec_getPartition n t u = Ok i /\ vec_getPartition n t v = Ok j /\
     (forall i' a' b', 0 <= i' < t -> rd (mat_starts n t) i' = Ok a' -> rd (mat_starts n t) (i' + 1) = Ok b' ->
         a' < u <= b' -> i' = i) /\
     (forall j' a' b', 0 <= j' < t -> rd (mat_starts n t) j' = Ok a' -> rd (mat_starts n t) (j' + 1) = Ok b' ->
         a' < v <= b' -> j' = j)).
Proof.
  intros Hn Ht. split; [reflexivity|]. intros u v Hu Hv.
  destruct (mat_getPartition_spec n n t t u v) as (i & j & E & Ri & Rj & Bi & Bj & -> & ->); auto.
  rewrite mat_starts_eq. unfold start_at in *.
  exists (vpart n t u), (vpart n t v). do 4 eexists.
  split; [exact E|]. split; [lia|]. split; [lia|].
  rewrite !rd_starts by lia. repeat (split; [reflexivity|]).
  split; [exact Bi|]. repeat (split; [reflexivity|]). split; [exact Bj|].
  split; [apply vpart_ok; lia|]. split; [apply vpart_ok; lia|].
  split; intros k' a' b' Hk' Ha' Hb' V; rewrite rd_starts in Ha' by lia; rewrite rd_starts in Hb' by lia;
    injection Ha' as <-; injection Hb' as <-; eapply (block_unique n t); eauto.
Qed.

Lemma nodeIds_total t nrank : 1 <= t -> 1 <= nrank ->
  exists ids, mat_nodeIds t t nrank = Ok ids /\ zlen ids = t * t /\
   (forall k r, rd ids k = Ok r -> 0 <= r < nrank).
Proof.
  intros Ht Hr. unfold mat_nodeIds.
  assert (forall l, Forall (fun k => 0 <= k) l -> exists ids,
     mapR (fun k => partition_fn_2d (Z.quot k t) (Z.rem k t) t t nrank) l = Ok ids /\ zlen ids = zlen l /\
     Forall (fun r => 0 <= r < nrank) ids) as H.
  { induction l as [|k l IH]; intros F; cbn [mapR].
    - exists []. auto.
    - inversion F; subst. destruct (partition_fn_2d_range (Z.quot k t) (Z.rem k t) t t nrank) as (r & E & B); auto.
      + rewrite quot_div by lia. apply Z.div_pos; lia.
      + rewrite rem_mod by lia. apply Z.mod_pos_bound; lia.
      + destruct IH as (ids & E' & L & F'); auto. rewrite E; cbn [bind]. rewrite E'; cbn [bind].
        exists (r :: ids). split; auto. rewrite !zlen_cons. split; [lia|]. constructor; auto. }
  destruct (H (zrange 0 (t * t))) as (ids & E & L & F).
  - apply Forall_forall. intros k Hk. apply in_zrange in Hk. lia.
  - exists ids. split; auto. rewrite zlen_zrange in L by nia. split; [lia|].
    intros k r Hk. apply rd_In in Hk. rewrite Forall_forall in F. auto.
Qed.

Lemma rank_assignment nrank : 1 <= nrank ->
  (exists a b, factorize_int nrank = Ok (a, b) /\ 1 <= a /\ 1 <= b /\ a * b = nrank /\
     (forall d, a < d -> (d | nrank) -> d * d > nrank \/ d = b)) /\
  (forall tx ty ntx nty, 0 <= tx -> 0 <= ty ->
     (exists r, partition_fn_2d tx ty ntx nty nrank = Ok r /\ 0 <= r < nrank) /\
     (exists r, partition_fn_1d tx ty ntx nty nrank = Ok r /\ 0 <= r < nrank)) /\
  (forall tile ntiles, 0 <= tile -> exists r, vector_partition_fn tile ntiles nrank = Ok r /\ 0 <= r < nrank) /\
  (forall r, 0 <= r < nrank -> exists tx ty, 0 <= tx < nrank /\ 0 <= ty < nrank /\
        partition_fn_2d tx ty nrank nrank nrank = Ok r) /\
  (forall layout, layout = 1 \/ layout = 2 \/ layout = 3 ->
      exists f nt, get_fn_and_tiles layout nrank = Ok (f, nt) /\ 1 <= nt <= nrank).
Proof.
  intros H. split; [|split; [|split; [|split]]].
  - destruct (factorize_int_spec nrank H) as (a & b & E & A & B & M & L & F).
    exists a, b. repeat (split; [auto; fail|]). intros d Hd D.
    destruct (Z_le_dec d (round_sqrt nrank)) as [Hle|Hgt]; [exfalso; apply (F d); auto|].
    left. assert (nrank < (round_sqrt nrank + 1) * (round_sqrt nrank + 1)).
    { unfold round_sqrt. pose proof (Z.sqrt_spec nrank ltac:(lia)) as S. cbv zeta in S.
      pose proof (Z.sqrt_nonneg nrank).
      destruct (Z.ltb_spec (Z.sqrt nrank * Z.sqrt nrank + Z.sqrt nrank) nrank); nia. }
    pose proof (round_sqrt_pos nrank H). nia.
  - intros tx ty ntx nty Hx Hy. split; [apply partition_fn_2d_range; auto|].
    unfold partition_fn_1d. destruct (Z.eqb_spec nrank 0); [lia|]. eexists; split; eauto.
    rewrite rem_mod by lia. apply Z.mod_pos_bound; lia.
  - intros tile ntiles Ht. unfold vector_partition_fn. destruct (Z.eqb_spec nrank 0); [lia|]. eexists; split; eauto.
    rewrite rem_mod by lia. apply Z.mod_pos_bound; lia.
  - intros r Hr. apply partition_fn_2d_onto; auto.
  - intros layout Hl. unfold get_fn_and_tiles.
    destruct (factorize_int_spec nrank H) as (a & b & E & A & B & M & _).
    destruct Hl as [-> | [-> | ->] ]; cbn [Z.eqb Pos.eqb orb assertb bind]; rewrite ?E; cbn [bind].
    + do 2 eexists; split; eauto; lia.
    + do 2 eexists; split; eauto. destruct (Z.ltb_spec a b); nia.
    + do 2 eexists; split; eauto; lia.
Qed.
