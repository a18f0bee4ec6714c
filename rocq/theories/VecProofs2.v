From Verif Require Import BaseLemmas Layout LayoutProofs Bits BitsProofs Segment SegmentProofs SegHistory SegHistoryProofs TransferProofs Bucket BucketProofs Vec VecProofs.

(** ** sums and concatenations grouped by owner *)
Lemma flat_map_app {A B} (f : A -> list B) l l' : flat_map f (l ++ l') = flat_map f l ++ flat_map f l'.
Proof. induction l as [|a l IH]; simpl; auto. rewrite IH, app_assoc. auto. Qed.
Lemma flat_map_ext_in {A B} (f g : A -> list B) l : (forall a, In a l -> f a = g a) -> flat_map f l = flat_map g l.
Proof. induction l as [|a l IH]; intros H; simpl; auto. rewrite H by (simpl; auto). rewrite IH; auto. intros; apply H; simpl; auto. Qed.
Lemma flat_map_perm_app {A B} (f g : A -> list B) l : Permutation (flat_map (fun a => f a ++ g a) l) (flat_map f l ++ flat_map g l).
Proof.
  induction l as [|a l IH]; simpl; auto. rewrite <- !app_assoc. apply Permutation_app_head.
  transitivity (g a ++ flat_map f l ++ flat_map g l); [apply Permutation_app_head; auto|].
  rewrite !app_assoc. apply Permutation_app_tail. apply Permutation_app_comm.
Qed.
Lemma flat_map_nil {A B} (l : list A) : flat_map (fun _ => @nil B) l = [].
Proof. induction l; auto. Qed.
Lemma flat_map_swap {A B C} (g : A -> B -> list C) la lb :
  Permutation (flat_map (fun a => flat_map (g a) lb) la) (flat_map (fun b => flat_map (fun a => g a b) la) lb).
Proof.
  induction lb as [|b lb IH]; simpl.
  - rewrite flat_map_nil. auto.
  - rewrite flat_map_perm_app. apply Permutation_app_head. auto.
Qed.
Lemma flat_map_pick {B} (x : list B) o lo hi : lo <= o < hi -> flat_map (fun r => if o =? r then x else []) (zrange lo hi) = x.
Proof.
  intros H. rewrite (zrange_app lo o hi), (zrange_cons o) by lia. rewrite flat_map_app. simpl. rewrite Z.eqb_refl.
  assert (forall a b, (forall r, In r (zrange a b) -> r <> o) -> flat_map (fun r => if o =? r then x else []) (zrange a b) = []) as N.
  { intros a b Hab. transitivity (flat_map (fun _ : Z => @nil B) (zrange a b)); [|apply flat_map_nil]. apply flat_map_ext_in. intros r Hr. destruct (Z.eqb_spec o r); auto. exfalso. apply (Hab r); auto; congruence. }
  rewrite !N; [rewrite app_nil_r; auto| |]; intros r Hr; apply in_zrange in Hr; lia.
Qed.
Lemma by_owner_perm {B} (f : Z -> list B) (own : Z -> Z) nr js : (forall j, In j js -> 0 <= own j < nr) ->
  Permutation (flat_map (fun r => flat_map (fun j => if own j =? r then f j else []) js) (zrange 0 nr)) (flat_map f js).
Proof.
  intros H. rewrite flat_map_swap. erewrite flat_map_ext_in; [reflexivity|]. intros j Hj. simpl. apply flat_map_pick. auto.
Qed.
Lemma zlen_flat_map {A B} (f : A -> list B) l : zlen (flat_map f l) = zsum (map (fun a => zlen (f a)) l).
Proof. induction l as [|a l IH]; simpl; auto. rewrite zlen_app. lia. Qed.

Lemma forZ_sum (f : Z -> R Z) (g : Z -> Z) lo hi : (forall i, lo <= i < hi -> f i = Ok (g i)) ->
  forZ lo hi (fun i acc => do k <- f i ;; Ok (acc + k)) 0 = Ok (zsum (map g (zrange lo hi))).
Proof.
  intros H. destruct (Z_le_dec lo hi) as [L|L].
  - destruct (forZ_inv (fun i acc => acc = zsum (map g (zrange lo i))) lo hi (fun i acc => do k <- f i ;; Ok (acc + k)) 0) as (x & -> & ->); auto.
    + rewrite zrange_nil by lia. reflexivity.
    + intros i s Hi ->. rewrite H by lia. cbn [bind]. eexists. split; [reflexivity|]. rewrite zrange_snoc, map_app, zsum_app by lia. simpl. lia.
  - rewrite forZ_empty by lia. rewrite zrange_nil by lia. reflexivity.
Qed.

Lemma map_rd_gen {A B} (f : A -> B) d (l : list A) : map (fun q => match rd l q with Ok a => f a | Err _ => d end) (zrange 0 (zlen l)) = map f l.
Proof.
  pose proof (zlen_nonneg l). apply rd_ext; rewrite !zlen_map, zlen_zrange by lia; [lia|]. intros i Hi. rewrite !rd_map_list, rd_zrange by lia.
  replace (0 + i) with i by lia. destruct (rd_ok l i) as [a Ha]; [lia|]. rewrite Ha. auto.
Qed.

Lemma lastv_snoc {T} (l : list (Z * T)) e id : lastv (l ++ [e]) id = if fst e =? id then Some (snd e) else lastv l id.
Proof. unfold lastv. rewrite fold_left_app. reflexivity. Qed.
Lemma lastv_filter {T} (p : Z -> bool) (l : list (Z * T)) id : p id = true -> lastv (filter (fun e => p (fst e)) l) id = lastv l id.
Proof.
  intros H. induction l as [|e l IH] using rev_ind; auto. rewrite filter_app, lastv_snoc. simpl.
  destruct (Z.eqb_spec (fst e) id) as [<-|N].
  - rewrite H. rewrite lastv_snoc, Z.eqb_refl. auto.
  - destruct (p (fst e)); [rewrite lastv_snoc|rewrite app_nil_r; auto]. destruct (Z.eqb_spec (fst e) id); [contradiction|auto].
Qed.
Lemma lastv_In {T} (l : list (Z * T)) id a : lastv l id = Some a -> In (id, a) l.
Proof.
  induction l as [|e l IH] using rev_ind; [discriminate|]. rewrite lastv_snoc. destruct (Z.eqb_spec (fst e) id) as [<-|N].
  - intros H. inv H. apply in_or_app. right. left. destruct e; auto.
  - intros H. apply in_or_app. auto.
Qed.
Lemma lastv_none {T} (l : list (Z * T)) id : lastv l id = None <-> ~ In id (map fst l).
Proof.
  induction l as [|e l IH] using rev_ind; [split; auto|]. rewrite lastv_snoc, map_app, in_app_iff. simpl.
  destruct (Z.eqb_spec (fst e) id) as [->|N].
  - split; [discriminate|tauto].
  - rewrite IH. tauto.
Qed.
Lemma lastv_unique {T} (l : list (Z * T)) id a : NoDup (map fst l) -> In (id, a) l -> lastv l id = Some a.
Proof.
  intros N H. destruct (lastv l id) as [b|] eqn:E.
  - apply lastv_In in E. f_equal. clear -N H E. induction l as [|e l IH]; [destruct H|]. inv N.
    destruct H as [->|H]; destruct E as [E|E]; auto.
    + congruence.
    + exfalso. apply H2. apply (in_map fst) in E. auto.
    + subst e. exfalso. apply H2. apply (in_map fst) in H. auto.
  - apply lastv_none in E. exfalso. apply E. apply (in_map fst) in H. auto.
Qed.

Section VP2.
  Context {T byte : Type}.
  Notation sg := (seg T byte).
  Variable ser : bool.
  Variable thr : Z.

  Definition over (e : option T) (old : option (option T)) : option (option T) := match e with Some a => Some (Some a) | None => old end.

  Lemma seg_ingest_spec threads edges rs (s : sg) : thok ser thr threads -> swf ser thr s ->
    (forall e, In e edges -> 1 <= fst e - rs <= s_cap s) ->
    exists s', seg_ingest threads edges rs s = Ok s' /\ swf ser thr s' /\ s_cap s' = s_cap s /\
      (forall k, sabs s' k = over (lastv edges (rs + k + 1)) (sabs s k)) /\ @live T byte s' /\ s_recv s' = s_recv s /\ s_qmd s' = s_qmd s.
  Proof.
    intros Ht W Hi. destruct (seg_init_spec ser thr threads s Ht W) as (b & w & E & Rd & A & N & C & V).
    unfold seg_ingest. rewrite E; cbn [bind]. rewrite prop_set_prop; cbn [bind].
    pose proof Rd as (Bw & U & Bb & Ww). unfold words. rewrite Bb; cbn [bind].
    pose proof Bw as [(B0 & B1 & B2 & B3 & B4 & B5 & B6 & B8) B7].
    pose proof (num_ints_bounds (s_cap s) B0) as NB. pose proof Ww as [W1 W2].
    match goal with |- context [foldR ?f edges ?x] => destruct (foldR_prefix (fun pre (wv : list Z * list (option T)) =>
       wwf (s_cap s) (fst wv) /\ zlen (snd wv) = s_cap s /\
       (forall k, wabs (fst wv) (snd wv) k = over (lastv pre (rs + k + 1)) (wabs w (b_value b) k))) f edges x) as ([w' v'] & E' & P1 & P2 & P3) end.
    - simpl. auto.
    - intros pre e post [w0 v0] Ed (P1 & P2 & P3). simpl in *.
      assert (1 <= fst e - rs <= s_cap s) as He by (apply Hi; rewrite Ed; apply in_or_app; simpl; auto).
      destruct P1 as [Q1 Q2]. destruct (bv_set_ok w0 (fst e - rs - 1)) as (w1 & Ew & L1 & T1 & _); [rewrite Q1; lia|].
      rewrite Ew. cbn [bind]. rewrite wr_ok by lia. cbn [bind]. eexists. split; [reflexivity|]. simpl. split; [split; [lia|]|split].
      + intros k Hk. rewrite T1. rewrite Q2 by auto. destruct (Z.eqb_spec k (fst e - rs - 1)); [lia|auto].
      + rewrite zlen_upd; auto.
      + intros k. rewrite lastv_snoc. unfold wabs at 1. rewrite T1.
        destruct (Z.eqb_spec k (fst e - rs - 1)) as [->|Nk]; cbn [orb].
        * rewrite rd_upd_same by lia. replace (fst e =? rs + (fst e - rs - 1) + 1) with true; [reflexivity|]. symmetry. apply Z.eqb_eq. lia.
        * rewrite rd_upd_other by lia. destruct (Z.eqb_spec (fst e) (rs + k + 1)); [lia|]. rewrite <- P3. reflexivity.
    - rewrite E'. cbn [bind fst snd] in *. eexists. split; [reflexivity|]. rewrite set_prop_set_prop.
      assert (ready ser thr (s_cap s) (set_uninit false (set_nnz (zlen edges) (set_value v' (set_bits w' b)))) w') as R'.
      { change (set_value v' (set_bits w' b)) with (set_bits w' (set_value v' b)). eapply ready_change; eauto. }
      split; [apply swf_set_prop; auto; apply R'|]. split; [reflexivity|]. split.
      + intros k. rewrite <- A. unfold sabs, babs; simpl. rewrite P3, U, Bb. reflexivity.
      + split; [eexists; split; reflexivity|]. split; reflexivity.
  Qed.

  Lemma seg_save_spec c (s : sg) M st : swf ser thr s -> s_cap s = c -> (c = 0 \/ live s) ->
    (forall k, sabs s k = option_map Some (M (k + 1))) ->
    seg_save st s = Ok (map (fun id => (st + id - 1, M id)) (members c M)).
  Proof.
    intros W C Lv A. destruct Lv as [-> | (b & E & U)].
    - unfold seg_save. rewrite C. rewrite forZ_empty by lia. reflexivity.
    - destruct (members_setbits ser thr c s b M W C E U A) as (w & Bb & Ww & Lv & Mm & Mv & Mt).
      pose proof W as (H0 & _). rewrite C in H0. pose proof (num_ints_bounds c H0). destruct Ww as [W1 W2].
      unfold seg_save. rewrite C. rewrite Mm in *. rewrite map_map.
      match goal with |- forZ ?lo ?hi ?f ?s = _ => destruct (forZ_inv (fun i acc => acc = map (fun x => (st + (x + 1) - 1, M (x + 1))) (setbits w 0 i)) lo hi f s) as (acc & -> & ->) end; auto.
      intros i acc Hi ->. unfold prop. rewrite E. cbn [bind]. unfold words. rewrite Bb. cbn [bind]. rewrite bv_get_ok by lia. cbn [bind].
      rewrite setbits_step by lia. rewrite Mt by lia. destruct (M (i+1)) as [a|] eqn:Mi; simpl.
      + rewrite (Mv i a Mi). cbn [bind]. eexists. split; [reflexivity|]. rewrite map_app. simpl. rewrite Mi. replace (st + (i+1) - 1) with (i + st) by lia. reflexivity.
      + eexists. split; [reflexivity|]. rewrite app_nil_r. reflexivity.
  Qed.

  Variables n ns nr : Z.
  Hypothesis Hn : 0 <= n.
  Hypothesis Hs : 1 <= ns.
  Hypothesis Hr : 1 <= nr.
  Notation ow := (ow nr).
  Notation st := (st n ns).
  Notation cap := (cap n ns).
  Notation rwf := (rwf ser thr n ns).
  Notation rholds := (rholds n ns nr).
  Notation restr := (restr n ns).

  Lemma run_vops_spec threads r ops : forall (segs : list sg) M, thok ser thr threads -> rwf segs -> rholds r segs M -> Forall (sop_in_range n) ops ->
    exists segs', run_vops n ns nr threads r ops segs = Ok segs' /\ rwf segs' /\ rholds r segs' (fold_left (spec_sop n) ops M) /\
      (forall j s, rd segs j = Ok s -> ow j <> r -> rd segs' j = Ok s).
  Proof.
    induction ops as [|o ops IH]; intros segs M Ht W Hh Ho.
    - exists segs. conjs; auto.
    - inversion Ho as [|? ? Ho1 Ho2]; subst. destruct (vop_spec ser thr n ns nr Hn Hs Hr threads r segs M o Ht W Hh Ho1) as (segs1 & E1 & W1 & H1 & K1 & _).
      destruct (IH segs1 _ Ht W1 H1 Ho2) as (segs2 & E2 & W2 & H2 & K2). exists segs2. unfold run_vops in *. simpl. rewrite E1. cbn [bind].
      conjs; auto.
  Qed.

  Lemma rholds_new junk fresh r (segs : list sg) : vec_new n ns junk fresh = Ok segs -> rholds r segs (fun _ => None).
  Proof.
    intros E. destruct (@rwf_new T byte ser thr n ns nr Hn Hs junk fresh) as (segs0 & E0 & W0 & I0). rewrite E0 in E. oki E.
    intros j s Ej _ k. destruct W0 as [L0 _]. rewrite I0 in Ej by (pose proof (rd_bounds _ _ _ Ej); lia). oki Ej.
    unfold restr, VecProofs.restr. destruct ((1 <=? k+1) && (k + 1 <=? cap j)); reflexivity.
  Qed.

  Lemma vec_get_spec r id d (segs : list sg) M a : rwf segs -> rholds r segs M -> 1 <= id <= n -> M id = Some a ->
    vec_get n ns nr r id d segs = Ok (if ow (vpart n ns id) =? r then Some a else d).
  Proof.
    intros [L W] Hh Hi Ma. unfold vec_get. rewrite vpart_ok by auto. cbn [bind].
    pose proof (vpart_range n ns id Hn Hs Hi) as [B1 B2]. set (p := vpart n ns id) in *.
    destruct (Z.leb_spec 0 p); [|lia]. cbn [assertb bind]. rewrite (vown_ok ns nr Hr) by lia. cbn [bind].
    destruct (Z.eqb_spec (ow p) r) as [O|O]; auto.
    destruct (rd_ok segs p) as [s Es]; [lia|]. rewrite Es. cbn [bind]. rewrite (rd_st n ns Hn Hs) by lia. cbn [bind].
    destruct (W p s Es) as [Ws C]. fold (st p) (st (p+1)) in B2.
    assert (sabs s (id - st p - 1) = Some (Some a)) as S1.
    { rewrite (Hh p s Es O). unfold VecProofs.restr. replace (id - st p - 1 + 1) with (id - st p) by lia. unfold VecProofs.cap.
      destruct (Z.leb_spec 1 (id - st p)); [|lia]. destruct (Z.leb_spec (id - st p) (st (p+1) - st p)); [|lia]. simpl.
      replace (st p + (id - st p)) with id by lia. rewrite Ma. auto. }
    assert (live s) as (b & E & U).
    { unfold sabs, babs in S1. destruct (s_prop s) as [b|] eqn:E; [|discriminate]. exists b. split; auto. destruct (b_uninit b); [discriminate|auto]. }
    destruct (seg_get_spec ser thr (id - st p) s b Ws E U) as (c & G & _ & D); [unfold VecProofs.cap in C; lia|].
    rewrite G. destruct D as [D|D]; rewrite S1 in D; congruence.
  Qed.

  Lemma node_owner_spec r id : 1 <= id <= n -> vec_node_owner n ns nr r id = Ok (ow (vpart n ns id) =? r).
  Proof.
    intros Hi. unfold vec_node_owner. rewrite vpart_ok by auto. cbn [bind].
    pose proof (vpart_range n ns id Hn Hs Hi) as [B1 B2]. destruct (Z.leb_spec 0 (vpart n ns id)); [|lia]. cbn [assertb bind].
    rewrite (vown_ok ns nr Hr) by lia. auto.
  Qed.

  (** ** exporting *)
  Lemma members_split (M : Z -> option T) k : 0 <= k <= ns ->
    filter (fun id => is_some (M id)) (zrange 1 (st k + 1)) = flat_map (fun j => map (fun i => st j + i) (members (cap j) (restr M j))) (zrange 0 k).
  Proof.
    intros Hk. replace k with (Z.of_nat (Z.to_nat k)) by lia. assert (Z.of_nat (Z.to_nat k) <= ns) as B by lia. revert B. generalize (Z.to_nat k) as m. clear k Hk.
    induction m as [|m IH]; intros B.
    - assert (st 0 = 0) as Z0 by (unfold VecProofs.st, start_at; rewrite Z.mul_0_r; lia). simpl Z.of_nat. rewrite Z0. reflexivity.
    - replace (Z.of_nat (S m)) with (Z.of_nat m + 1) by lia. rewrite (zrange_snoc 0 (Z.of_nat m)), flat_map_app by lia.
      pose proof (st_bounds n ns Hn Hs (Z.of_nat m) ltac:(lia)). pose proof (cap_nonneg n ns Hn Hs (Z.of_nat m)) as Cn. unfold VecProofs.cap in Cn.
      rewrite (zrange_app 1 (st (Z.of_nat m) + 1)) by lia. rewrite filter_app. rewrite <- IH by lia. f_equal. simpl. rewrite app_nil_r.
      unfold members.
      replace (zrange (st (Z.of_nat m) + 1) (st (Z.of_nat m + 1) + 1)) with (map (fun i => st (Z.of_nat m) + i) (zrange 1 (cap (Z.of_nat m) + 1))).
      2:{ unfold zrange, zseq. rewrite map_map. unfold VecProofs.cap. 
          replace (Z.to_nat (st (Z.of_nat m + 1) - st (Z.of_nat m) + 1 - 1)) with (Z.to_nat (st (Z.of_nat m + 1) + 1 - (st (Z.of_nat m) + 1))) by lia.
          apply map_ext. intros; lia. }
      assert (forall i, In i (zrange 1 (cap (Z.of_nat m) + 1)) -> restr M (Z.of_nat m) i = M (st (Z.of_nat m) + i)) as G.
      { intros i Hi. apply in_zrange in Hi. unfold VecProofs.restr. destruct (Z.leb_spec 1 i); [|lia]. destruct (Z.leb_spec i (cap (Z.of_nat m))); [|lia]. reflexivity. }
      revert G. generalize (zrange 1 (cap (Z.of_nat m) + 1)) as l. induction l as [|i l IHl]; intros G; simpl; auto.
      rewrite G by (simpl; auto). destruct (M (st (Z.of_nat m) + i)); simpl; rewrite IHl; auto; intros; apply G; simpl; auto.
  Qed.
  Lemma st_end : st ns = n.
  Proof. unfold VecProofs.st, start_at. pose proof (block_size_pos n ns Hn Hs). lia. Qed.
  Lemma members_segs (M : Z -> option T) : members n M = flat_map (fun j => map (fun i => st j + i) (members (cap j) (restr M j))) (zrange 0 ns).
  Proof. rewrite <- members_split by lia. rewrite st_end. reflexivity. Qed.

  Definition seg_members (M : Z -> option T) (j : Z) : list Z := map (fun i => st j + i) (members (cap j) (restr M j)).

  Lemma seg_nnz r (segs : list sg) M j : rwf segs -> rholds r segs M -> 0 <= j < ns -> ow j = r ->
    exists s, rd segs j = Ok s /\ seg_compute_nnz s = Ok (zlen (seg_members M j)).
  Proof.
    intros [L W] Hh Hj O. destruct (rd_ok segs j) as [s Es]; [lia|]. destruct (W j s Es) as [Ws C]. exists s. split; auto.
    unfold seg_members. rewrite zlen_map. eapply compute_nnz_members; eauto.
  Qed.

  Lemma local_nnz_spec r (segs : list sg) M : rwf segs -> rholds r segs M ->
    vec_local_nnz ns nr r segs = Ok (zlen (flat_map (fun j => if ow j =? r then seg_members M j else []) (zrange 0 ns))).
  Proof.
    intros W Hh. rewrite zlen_flat_map. unfold vec_local_nnz.
    rewrite <- (forZ_sum (fun j => do o <- vown ns nr j ;; if o =? r then do s <- rd segs j ;; seg_compute_nnz s else Ok 0)).
    - apply forZ_ext. intros j acc Hj. rewrite (vown_ok ns nr Hr) by lia. cbn [bind]. destruct (Z.eqb_spec (ow j) r) as [O|O].
      + destruct (seg_nnz r segs M j W Hh Hj O) as (s & Es & Ec). rewrite Es. cbn [bind]. rewrite Ec. reflexivity.
      + cbn [bind]. f_equal. lia.
    - intros j Hj. rewrite (vown_ok ns nr Hr) by lia. cbn [bind]. destruct (Z.eqb_spec (ow j) r) as [O|O]; auto.
      destruct (seg_nnz r segs M j W Hh Hj O) as (s & Es & Ec). rewrite Es. cbn [bind]. auto.
  Qed.

  (** all ranks *)
  Definition vwf (v : list (list sg)) : Prop := zlen v = nr /\ forall r segs, rd v r = Ok segs -> rwf segs.
  Definition vholds (v : list (list sg)) (M : Z -> option T) : Prop := forall r segs, rd v r = Ok segs -> rholds r segs M.

  Lemma getNNZ_spec v M : vwf v -> vholds v M -> vec_getNNZ ns nr v = Ok (zlen (members n M)).
  Proof.
    intros [L W] Hh. rewrite members_segs.
    change (fun j => map (fun i => st j + i) (members (cap j) (restr M j))) with (seg_members M).
    assert (zlen (flat_map (seg_members M) (zrange 0 ns)) = zlen (flat_map (fun r => flat_map (fun j => if ow j =? r then seg_members M j else []) (zrange 0 ns)) (zrange 0 nr))) as ->.
    { unfold zlen. f_equal. symmetry. apply Permutation_length. apply by_owner_perm. intros. apply ow_range. auto. }
    rewrite zlen_flat_map. unfold vec_getNNZ.
    rewrite <- (forZ_sum (fun r => do segs <- rd v r ;; vec_local_nnz ns nr r segs)).
    - apply forZ_ext. intros r acc Hb. destruct (rd v r) as [segs|e]; cbn [bind]; auto.
    - intros r Hb. destruct (rd_ok v r) as [segs Es]; [lia|]. rewrite Es. cbn [bind]. apply local_nnz_spec; eauto.
  Qed.

  Definition entries (M : Z -> option T) (ids : list Z) : list (Z * option T) := map (fun id => (id, M id)) ids.

  Lemma get_edges_spec r (segs : list sg) M : rwf segs -> rholds r segs M ->
    (forall j s, rd segs j = Ok s -> ow j = r -> flat_map (fun j => if ow j =? r then seg_members M j else []) (zrange 0 ns) <> [] -> live s) ->
    vec_get_edges n ns nr r segs = Ok (entries M (flat_map (fun j => if ow j =? r then seg_members M j else []) (zrange 0 ns))).
  Proof.
    intros W Hh Lv. unfold vec_get_edges. rewrite (local_nnz_spec r segs M W Hh). cbn [bind].
    set (all := flat_map (fun j => if ow j =? r then seg_members M j else []) (zrange 0 ns)) in *.
    destruct (Z.ltb_spec 0 (zlen all)) as [P|P].
    2:{ destruct all; auto. rewrite zlen_cons in P. pose proof (zlen_nonneg all). lia. }
    set (upto := fun k => flat_map (fun j => if ow j =? r then seg_members M j else []) (zrange 0 k)).
    match goal with |- context [forZ 0 ns ?f ?x] => destruct (forZ_inv (fun k (s : list (Z * option T) * Z) => s = (entries M (upto k), zlen (upto k))) 0 ns f x) as (res & E & ->) end; [lia|reflexivity| |].
    - intros j s Hj ->. rewrite (vown_ok ns nr Hr) by lia. cbn [bind].
      assert (upto (j + 1) = upto j ++ (if ow j =? r then seg_members M j else [])) as U.
      { unfold upto. rewrite zrange_snoc, flat_map_app by lia. simpl. rewrite app_nil_r. auto. }
      destruct (Z.eqb_spec (ow j) r) as [O|O].
      + destruct (seg_nnz r segs M j W Hh Hj O) as (s & Es & Ec). rewrite Es. cbn [bind]. rewrite (rd_st n ns Hn Hs) by lia. cbn [bind snd].
        destruct W as [L W]. destruct (W j s Es) as [Ws C]. destruct (Lv j s Es O) as (b & Eb & Ub).
        { intros Z0. rewrite Z0 in P. unfold zlen in P. simpl in P. lia. }
        assert (zlen (upto j) + zlen (seg_members M j) <= zlen all) as Room.
        { unfold all. rewrite (zrange_app 0 (j+1) ns) by lia. rewrite flat_map_app. fold (upto (j+1)). rewrite U, !zlen_app.
          pose proof (zlen_nonneg (flat_map (fun j => if ow j =? r then seg_members M j else []) (zrange (j + 1) ns))). lia. }
        rewrite (seg_get_edges_spec ser thr (cap j) s b (restr M j) (zlen all - zlen (upto j)) (st j) Ws C Eb Ub (Hh j s Es O)).
        2:{ unfold seg_members in Room. rewrite zlen_map in Room. lia. }
        cbn [bind]. rewrite Ec. cbn [bind]. rewrite zlen_map. unfold seg_members at 1. rewrite zlen_map, Z.eqb_refl.
        eexists. split; [reflexivity|]. rewrite U. unfold entries. rewrite map_app, zlen_app. cbn [fst]. f_equal. f_equal.
        unfold seg_members. rewrite map_map. apply map_ext_in. intros i Hi. f_equal.
        unfold members in Hi. apply filter_In in Hi as [Hi _]. apply in_zrange in Hi. unfold VecProofs.restr.
        destruct (Z.leb_spec 1 i); [|lia]. destruct (Z.leb_spec i (cap j)); [|lia]. reflexivity.
      + eexists. split; [reflexivity|]. rewrite U, app_nil_r. reflexivity.
    - rewrite E. cbn [bind snd fst]. change (upto ns) with all. rewrite Z.eqb_refl. reflexivity.
  Qed.

  (** ** saving *)
  Lemma vec_save_spec r (segs : list sg) M : rwf segs -> rholds r segs M -> (forall j s, rd segs j = Ok s -> ow j = r -> s_cap s = 0 \/ live s) ->
    vec_save n ns nr r segs = Ok (flat_map (fun j => if ow j =? r then [(j, map (fun id => (id - 1, M id)) (seg_members M j))] else []) (zrange 0 ns)).
  Proof.
    intros [L W] Hh Lv. unfold vec_save.
    match goal with |- forZ 0 ns ?f ?x = _ => destruct (forZ_inv (fun k s => s = flat_map (fun j => if ow j =? r then [(j, map (fun id => (id - 1, M id)) (seg_members M j))] else []) (zrange 0 k)) 0 ns f x) as (res & -> & ->) end; [lia|reflexivity| |auto].
    intros j acc Hj ->. rewrite (vown_ok ns nr Hr) by lia. cbn [bind]. rewrite zrange_snoc, flat_map_app by lia. simpl. rewrite app_nil_r.
    destruct (Z.eqb_spec (ow j) r) as [O|O].
    - destruct (rd_ok segs j) as [s Es]; [lia|]. rewrite Es. cbn [bind]. rewrite (rd_st n ns Hn Hs) by lia. cbn [bind].
      destruct (W j s Es) as [Ws C]. rewrite (seg_save_spec (cap j) s (restr M j) (st j)); [|exact Ws|exact C|rewrite <- C; eauto|apply (Hh j s Es O)].
      cbn [bind]. eexists. split; [reflexivity|]. do 2 f_equal. f_equal. unfold seg_members. rewrite map_map. apply map_ext_in. intros i Hi. f_equal.
      unfold members in Hi. apply filter_In in Hi as [Hi _]. apply in_zrange in Hi. unfold VecProofs.restr.
      destruct (Z.leb_spec 1 i); [|lia]. destruct (Z.leb_spec i (cap j)); [|lia]. reflexivity.
    - rewrite app_nil_r. eauto.
  Qed.

  (** ** ingesting *)
  Definition ingested (M : Z -> option T) (edges : list (Z * T)) (id : Z) : option T :=
    match lastv edges id with Some a => Some a | None => M id end.

  Lemma keyed_map {A} (p : A -> Z) (l : list A) k : keyed k (map (fun e => (p e, e)) l) = filter (fun e => p e =? k) l.
  Proof. unfold keyed. induction l as [|e l IH]; simpl; auto. destruct (p e =? k); simpl; rewrite ?IH; auto. Qed.

  Lemma filter_concat {A} (p : A -> bool) (ls : list (list A)) : concat (map (filter p) ls) = filter p (concat ls).
  Proof. induction ls as [|l ls IH]; simpl; auto. rewrite filter_app, IH. auto. Qed.

  Lemma filter_filter {A} (p q : A -> bool) l : filter p (filter q l) = filter (fun a => q a && p a) l.
  Proof. induction l as [|a l IH]; simpl; auto. destruct (q a); simpl; destruct (p a); simpl; rewrite ?IH; auto. Qed.

  Lemma ingest_spec threads (blobs : list (list (Z * T))) v M : thok ser thr threads -> vwf v -> vholds v M ->
    zlen blobs = nr -> (forall e, In e (concat blobs) -> 1 <= fst e <= n) ->
    exists v', vec_ingest n ns nr threads blobs v = Ok v' /\ vwf v' /\ vholds v' (ingested M (concat blobs)) /\
      (forall r segs segs' j s s', rd v r = Ok segs -> rd v' r = Ok segs' -> rd segs j = Ok s -> rd segs' j = Ok s' ->
         (ow j <> r -> s' = s) /\ (live s -> live s') /\ (ow j = r -> (exists e, In e (concat blobs) /\ vpart n ns (fst e) = j) -> live s')).
  Proof.
    intros Ht [Lv W] Hh Lb He. unfold vec_ingest.
    set (part := fun e : Z * T => vpart n ns (fst e)).
    assert (mapR (vec_ingest_send n ns nr) blobs =
       Ok (map (fun l => map (fun k => map Some (filter (fun e => ow (part e) =? k) l)) (zrange 0 nr)) blobs)) as ->.
    { apply mapR_map. intros l Hl. unfold vec_ingest_send.
      assert (forall e, In e l -> 1 <= fst e <= n) as Hel by (intros e Hin; apply He; apply in_concat; eauto).
      rewrite (mapR_map _ (fun e => (ow (part e), e))).
      - cbn [bind]. rewrite pack_msgs_spec.
        + f_equal. apply map_ext. intros k. f_equal. apply (keyed_map (fun e => ow (part e))).
        + lia.
        + intros it Hit. apply in_map_iff in Hit as (e & <- & _). simpl. apply (ow_range nr Hr).
      - intros e Hin. rewrite vpart_ok by auto. cbn [bind]. pose proof (vpart_range n ns (fst e) Hn Hs (Hel e Hin)) as [B _].
        destruct (Z.eqb_spec (vpart n ns (fst e)) (-1)); [lia|]. cbn [negb assertb bind]. rewrite (vown_ok ns nr Hr) by lia. reflexivity. }
    cbn [bind].
    set (out := map (fun l => map (fun k => map Some (filter (fun e => ow (part e) =? k) l)) (zrange 0 nr)) blobs).
    set (mine := fun r => filter (fun e => ow (part e) =? r) (concat blobs)).
    assert (forall r, 0 <= r < nr -> (do msgs <- mapR (fun q => rd2 out q r) (zrange 0 nr) ;; receive_all msgs) = Ok (mine r)) as Msgs.
    { intros r Hb. rewrite (mapR_map _ (fun q => match rd blobs q with Ok l => map Some (filter (fun e => ow (part e) =? r) l) | Err _ => [] end)).
      - cbn [bind]. assert (map (fun q => match rd blobs q with Ok l => map (@Some (Z * T)) (filter (fun e => ow (part e) =? r) l) | Err _ => [] end) (zrange 0 nr)
           = map (map Some) (map (filter (fun e => ow (part e) =? r)) blobs)) as ->.
        { rewrite map_map. replace (zrange 0 nr) with (zrange 0 (zlen blobs)) by (rewrite Lb; auto). apply (map_rd_gen (fun l => map (@Some (Z * T)) (filter (fun e => ow (part e) =? r) l)) []). }
        rewrite receive_all_spec. f_equal. apply filter_concat.
      - intros q Hq. apply in_zrange in Hq. destruct (rd_ok blobs q) as [l El]; [lia|]. rewrite El. unfold rd2, out.
        rewrite rd_map_list, El. cbn [bind]. rewrite rd_map_list, rd_zrange by lia. simpl. reflexivity. }
    destruct (mapR_zrange (fun r => do segs <- rd v r ;; do msgs <- mapR (fun q => rd2 out q r) (zrange 0 nr) ;; vec_ingest_recv n ns nr threads r msgs segs)
      (fun r segs' => rwf segs' /\ rholds r segs' (ingested M (concat blobs)) /\
         forall segs j s s', rd v r = Ok segs -> rd segs j = Ok s -> rd segs' j = Ok s' ->
         (ow j <> r -> s' = s) /\ (live s -> live s') /\ (ow j = r -> (exists e, In e (concat blobs) /\ part e = j) -> live s')) nr ltac:(lia)) as (v' & E & L' & I).
    - intros r Hb. destruct (rd_ok v r) as [segs Es]; [lia|]. rewrite Es. cbn [bind].
      specialize (Msgs r Hb). apply bind_Ok in Msgs as (msgs & E1 & E2). rewrite E1. cbn [bind].
      unfold vec_ingest_recv. rewrite E2. cbn [bind].
      assert (forall e, In e (mine r) -> 1 <= fst e <= n /\ ow (part e) = r) as Hm.
      { intros e Hin. unfold mine in Hin. apply filter_In in Hin as [Hin Ho]. split; [apply He; auto|]. apply Z.eqb_eq in Ho. auto. }
      rewrite (mapR_map _ (fun e => (part e, e))).
      2:{ intros e Hin. destruct (Hm e Hin) as [B O]. rewrite vpart_ok by auto. cbn [bind]. pose proof (vpart_range n ns (fst e) Hn Hs B) as [B' _].
          destruct (Z.eqb_spec (vpart n ns (fst e)) (-1)); [lia|]. cbn [negb assertb bind]. rewrite (vown_ok ns nr Hr) by lia. cbn [bind].
          fold (part e). rewrite O, Z.eqb_refl. reflexivity. }
      cbn [bind].
      destruct (counting_sort_spec ns (map (fun e => (part e, e)) (mine r))) as (edges & sts & counts & Ec & Le & Lc & Ic); [lia| |].
      { intros it Hit. apply in_map_iff in Hit as (e & <- & Hin). simpl. destruct (Hm e Hin) as [B _]. apply vpart_range; auto. }
      rewrite Ec. cbn [bind].
      specialize (W r segs Es). specialize (Hh r segs Es). pose proof W as [L Wj].
      assert (forall j, 0 <= j < ns -> ow j = r -> keyed j (map (fun e => (part e, e)) (mine r)) = filter (fun e => part e =? j) (concat blobs)) as Kj.
      { intros j Hj O. rewrite (keyed_map part). unfold mine. rewrite filter_filter. apply filter_ext. intros e.
        destruct (Z.eqb_spec (part e) j) as [->|]; [rewrite O, Z.eqb_refl; auto|apply andb_false_r]. }
      match goal with |- context [each_owned ns nr r ?f segs] =>
        destruct (each_owned_spec ns nr Hs Hr r f segs (fun j s s' => swf ser thr s' /\ s_cap s' = cap j /\
           (forall k, sabs s' k = option_map Some (restr (ingested M (concat blobs)) j (k + 1))) /\ (live s -> live s') /\
           ((exists e, In e (concat blobs) /\ part e = j) -> live s')) L) as (segs' & E' & L' & I') end.
      { intros j s Ej O. pose proof (rd_bounds _ _ _ Ej) as Bj. destruct (Wj j s Ej) as [Ws C].
        destruct (Ic j ltac:(lia)) as (I1 & I2 & I3 & I4). rewrite I1, I2. cbn [bind].
        rewrite !zlen_map in I3. pose proof (zlen_nonneg (keyed j (map (fun e => (part e, e)) (mine r)))).
        pose proof (kstart_nonneg (map (fun e => (part e, e)) (mine r)) j ltac:(lia)).
        destruct (Z.leb_spec (kstart (map (fun e => (part e, e)) (mine r)) j) (zlen (mine r))); [|lia]. cbn [assertb bind].
        destruct (Z.leb_spec (zlen (keyed j (map (fun e => (part e, e)) (mine r)))) (zlen (mine r))); [|lia]. cbn [assertb bind].
        rewrite I4. cbn [bind]. rewrite mapR_need. cbn [bind]. rewrite (rd_st n ns Hn Hs) by lia. cbn [bind].
        rewrite Kj by (auto; lia). set (mye := filter (fun e => part e =? j) (concat blobs)).
        assert (forall e, In e mye -> 1 <= fst e - st j <= cap j) as Bm.
        { intros e Hin. apply filter_In in Hin as [Hin Hp]. apply Z.eqb_eq in Hp. apply (seg_ids n ns Hn Hs j); [lia|]. split; auto. }
        assert (forall k, over (lastv mye (st j + k + 1)) (sabs s k) = option_map Some (restr (ingested M (concat blobs)) j (k + 1))) as Sp.
        { intros k. rewrite (Hh j s Ej O k). unfold VecProofs.restr, ingested.
          destruct (Z.leb_spec 1 (k + 1)); destruct (Z.leb_spec (k + 1) (cap j)); simpl.
          - replace (st j + (k + 1)) with (st j + k + 1) by lia.
            replace (lastv (concat blobs) (st j + k + 1)) with (lastv mye (st j + k + 1)).
            + destruct (lastv mye (st j + k + 1)); reflexivity.
            + unfold mye, part. apply (lastv_filter (fun x => vpart n ns x =? j)). apply Z.eqb_eq.
              apply (seg_ids n ns Hn Hs j (st j + k + 1)); lia.
          - destruct (lastv mye (st j + k + 1)) as [a|] eqn:Q; auto. apply lastv_In in Q. apply Bm in Q. simpl in Q. lia.
          - destruct (lastv mye (st j + k + 1)) as [a|] eqn:Q; auto. apply lastv_In in Q. apply Bm in Q. simpl in Q. lia.
          - destruct (lastv mye (st j + k + 1)) as [a|] eqn:Q; auto. apply lastv_In in Q. apply Bm in Q. simpl in Q. lia. }
        destruct (Z.ltb_spec 0 (zlen mye)) as [P|P].
        - destruct (seg_ingest_spec threads mye (st j) s Ht Ws) as (s' & Ei & W' & C' & A' & Lv' & _); [rewrite C; auto|].
          exists s'. split; [exact Ei|]. conjs; auto; congruence.
        - exists s. split; auto. assert (mye = []) as Z0.
          { destruct mye; auto. rewrite zlen_cons in P. pose proof (zlen_nonneg mye). lia. }
          conjs; auto.
          + intros k. rewrite <- Sp, Z0. reflexivity.
          + intros (e & Hin & Hp). exfalso. assert (In e mye) as Hin' by (apply filter_In; split; auto; apply Z.eqb_eq; auto). rewrite Z0 in Hin'. auto. }
      exists segs'. split; [exact E'|].
      assert (forall j s', rd segs' j = Ok s' -> exists s, rd segs j = Ok s) as Back.
      { intros j s' Q. pose proof (rd_bounds _ _ _ Q). apply rd_ok. lia. }
      split; [split; auto|split].
      + intros j s' Q. destruct (Back j s' Q) as [s Ej]. destruct (I' j s Ej) as (s1 & E1' & [(O & P1 & P2 & _) | (_ & ->)]); rewrite Q in E1'; oki E1'; auto.
      + intros j s' Q O k. destruct (Back j s' Q) as [s Ej]. destruct (I' j s Ej) as (s1 & E1' & [(_ & P1 & P2 & P3 & _) | (N & _)]); [|contradiction]. rewrite Q in E1'; oki E1'; auto.
      + intros segs0 j s s' Es0 Ej Q. oki Es0. destruct (I' j s Ej) as (s1 & E1' & [(O & P1 & P2 & P3 & P4 & P5) | (N & ->)]); rewrite Q in E1'; oki E1'; conjs; auto; intros; contradiction.
    - exists v'. split; auto. split; [split; auto|split].
      + intros r segs' Q. destruct (I r) as (x & Q' & _ & P & _); [pose proof (rd_bounds _ _ _ Q); lia|]. rewrite Q in Q'. oki Q'. auto.
      + intros r segs' Q. destruct (I r) as (x & Q' & _ & _ & P & _); [pose proof (rd_bounds _ _ _ Q); lia|]. rewrite Q in Q'. oki Q'. auto.
      + intros r segs segs' j s s' Q1 Q2 Q3 Q4. destruct (I r) as (x & Q' & _ & _ & _ & P); [pose proof (rd_bounds _ _ _ Q2); lia|]. rewrite Q2 in Q'. oki Q'.
        eapply P; eauto.
  Qed.
End VP2.
