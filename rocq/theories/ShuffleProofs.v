From Coq Require Import Sorting.Sorted.
From Verif Require Import BaseLemmas Segment SegmentProofs Bucket BucketProofs VecProofs2 ListLemmas DCSC EdgeList EdgeSpec EdgeListProofs.

Section SP.
  Context {E : Type}.
  Notation edge := (edge E).
  Variables nt nr : Z.
  Hypothesis Hnt : 1 <= nt.
  Hypothesis Hnr : 1 <= nr.

  Definition lo (nnz t : Z) : Z := if t =? nt then nnz else t * Z.quot nnz nt.
  Lemma lo_0 nnz : lo nnz 0 = 0.
  Proof. unfold lo. destruct (Z.eqb_spec 0 nt); lia. Qed.
  Lemma per_bounds nnz : 0 <= nnz -> 0 <= Z.quot nnz nt /\ nt * Z.quot nnz nt <= nnz.
  Proof. intros H. rewrite quot_div by lia. split; [apply Z.div_pos; lia|]. apply Z.mul_div_le. lia. Qed.
  Lemma lo_mono nnz t : 0 <= nnz -> 0 <= t < nt -> 0 <= lo nnz t <= lo nnz (t + 1) /\ lo nnz (t + 1) <= nnz.
  Proof.
    intros H Ht. destruct (per_bounds nnz H) as [P1 P2]. unfold lo. destruct (Z.eqb_spec t nt); [lia|].
    destruct (Z.eqb_spec (t + 1) nt); nia.
  Qed.
  Lemma lo_mono2 nnz t u : 0 <= nnz -> 0 <= t <= u -> u <= nt -> lo nnz t <= lo nnz u.
  Proof.
    intros H Ht Hu. revert Hu. replace u with (t + Z.of_nat (Z.to_nat (u - t))) by lia. generalize (Z.to_nat (u - t)) as d.
    induction d as [|d IH]; intros Hd; [replace (t + Z.of_nat 0) with t by lia; lia|].
    pose proof (IH ltac:(lia)). pose proof (lo_mono nnz (t + Z.of_nat d) H ltac:(lia)). replace (t + Z.of_nat (S d)) with (t + Z.of_nat d + 1) by lia. lia.
  Qed.
  Lemma thread_edges_lo nnz t : 0 <= nnz -> 0 <= t < nt -> thread_edges nt nnz t = (lo nnz t, lo nnz (t + 1)).
  Proof.
    intros H Ht. destruct (per_bounds nnz H) as [P1 P2]. unfold thread_edges, lo.
    destruct (Z.eqb_spec t nt); [lia|]. destruct (Z.eqb_spec t (nt - 1)); destruct (Z.eqb_spec (t + 1) nt); try lia.
    - f_equal. destruct (Z.ltb_spec nnz (t * Z.quot nnz nt)); nia.
    - destruct (Z.ltb_spec nnz (t * Z.quot nnz nt)); [nia|]. f_equal. destruct (Z.ltb_spec nnz (t * Z.quot nnz nt + Z.quot nnz nt)); nia.
  Qed.

  (** the two parallel regions: every thread runs over its own stretch *)
  Lemma thread_loop {S} (I : Z -> S -> Prop) nnz (body : Z -> Z -> S -> R S) s : 0 <= nnz -> I 0 s ->
    (forall t i s, 0 <= t < nt -> lo nnz t <= i < lo nnz (t + 1) -> I i s -> exists s', body t i s = Ok s' /\ I (i + 1) s') ->
    exists s', forZ 0 nt (fun tid st => let '(a, b) := thread_edges nt nnz tid in forZ a b (body tid) st) s = Ok s' /\ I nnz s'.
  Proof.
    intros Hn H0 Hs.
    destruct (forZ_inv (fun t s => I (lo nnz t) s) 0 nt (fun tid st => let '(a, b) := thread_edges nt nnz tid in forZ a b (body tid) st) s) as (s' & Er & P).
    - lia.
    - rewrite lo_0. auto.
    - intros t s0 Ht P. rewrite thread_edges_lo by lia. pose proof (lo_mono nnz t Hn Ht).
      apply (forZ_inv (fun i s => I i s)); [lia|exact P|]. intros i s1 Hi P1. apply Hs; auto.
    - exists s'. split; auto. unfold lo in P. rewrite Z.eqb_refl in P. auto.
  Qed.

  Lemma cell_inj t b t' b' : 0 <= b < nr -> 0 <= b' < nr -> t * nr + b = t' * nr + b' -> t = t' /\ b = b'.
  Proof. intros H H' Eq. assert (t = t') as -> by nia. lia. Qed.
  Lemma cell_range t b : 0 <= t < nt -> 0 <= b < nr -> 0 <= t * nr + b < nt * nr.
  Proof. nia. Qed.

  Definition bin (e : edge) : Z := Z.rem (e_src e - 1) nr.
  Lemma bin_range e : 1 <= e_src e -> 0 <= bin e < nr.
  Proof. intros H. unfold bin. rewrite rem_mod by lia. apply Z.mod_pos_bound. lia. Qed.
  Lemma edge_bin_ok e : 1 <= e_src e -> edge_bin nr e = Ok (bin e).
  Proof. intros H. pose proof (bin_range e H). unfold edge_bin. fold (bin e). assert ((0 <=? bin e) && (bin e <=? nr - 1) = true) as -> by lia. reflexivity. Qed.

  Section One.
    Variables (el : elist E) (l : list edge).
    Hypothesis Hh : holds el l.
    Hypothesis Hpos : forall e, In e l -> 1 <= e_src e.
    Definition items : list (Z * edge) := map (fun e => (bin e, e)) l.
    Definition pre (i : Z) : list (Z * edge) := firstn (Z.to_nat i) items.
    Definition cnt (b i : Z) : Z := zlen (keyed b (pre i)).
    Definition nnz : Z := zlen l.
    Lemma nnz_nonneg : 0 <= nnz. Proof. apply zlen_nonneg. Qed.
    Lemma items_range it : In it items -> 0 <= fst it < nr.
    Proof. intros H. apply in_map_iff in H as (e & <- & He). simpl. apply bin_range; auto. Qed.
    Lemma pre_all : pre nnz = items.
    Proof. unfold pre, nnz. apply firstn_all2. unfold items. rewrite map_length. unfold zlen. lia. Qed.
    Lemma cnt_0 b : cnt b 0 = 0. Proof. reflexivity. Qed.
    Lemma pre_step i e : rd l i = Ok e -> pre (i + 1) = pre i ++ [(bin e, e)].
    Proof. intros H. unfold pre. apply firstn_snoc. unfold items. rewrite rd_map_list, H. reflexivity. Qed.
    Lemma cnt_step b i e : rd l i = Ok e -> cnt b (i + 1) = cnt b i + if bin e =? b then 1 else 0.
    Proof. intros H. unfold cnt. rewrite (pre_step i e H), keyed_app, zlen_app, keyed_cons. cbn [fst]. destruct (bin e =? b); [rewrite zlen_app, zlen_cons|]; change (keyed b (@nil (Z*edge))) with (@nil edge); cbn [app]; znil; lia. Qed.
    Lemma cnt_mono b i j : 0 <= i <= j -> cnt b i <= cnt b j.
    Proof.
      intros H. unfold cnt, pre. replace (Z.to_nat j) with (Z.to_nat i + Z.to_nat (j - i))%nat by lia.
      generalize (Z.to_nat (j - i)) as d. intros d. 
      assert (firstn (Z.to_nat i + d) items = firstn (Z.to_nat i) items ++ firstn d (skipn (Z.to_nat i) items)) as ->.
      { generalize (Z.to_nat i). clear. generalize items. intros it n. revert it. induction n as [|n IH]; intros [|x it]; cbn [Nat.add firstn skipn app]; auto.
        - rewrite firstn_nil. auto. - f_equal. apply IH. }
      rewrite keyed_app, zlen_app. pose proof (zlen_nonneg (keyed b (firstn d (skipn (Z.to_nat i) items)))). lia.
    Qed.
    (** position [i] seen by thread [t] *)
    Definition at_thread (t i : Z) : Z := Z.max (lo nnz t) (Z.min (lo nnz (t + 1)) i).
    Definition counted (t b i : Z) : Z := cnt b (at_thread t i) - cnt b (lo nnz t).
    Lemma counted_step t i e t' b : 0 <= t < nt -> lo nnz t <= i < lo nnz (t + 1) -> rd l i = Ok e -> 0 <= t' < nt -> 0 <= b < nr ->
      counted t' b (i + 1) = counted t' b i + if (t =? t') && (bin e =? b) then 1 else 0.
    Proof.
      intros Ht Hi He Ht' Hb. unfold counted. destruct (Z.eqb_spec t t') as [<-|N].
      - unfold at_thread. replace (Z.max (lo nnz t) (Z.min (lo nnz (t + 1)) (i + 1))) with (i + 1) by lia.
        replace (Z.max (lo nnz t) (Z.min (lo nnz (t + 1)) i)) with i by lia. rewrite (cnt_step b i e He). simpl. lia.
      - simpl. rewrite Z.add_0_r. do 2 f_equal. unfold at_thread.
        destruct (Z_lt_dec t t').
        + pose proof (lo_mono2 nnz (t + 1) t' nnz_nonneg ltac:(lia) ltac:(lia)). lia.
        + pose proof (lo_mono2 nnz (t' + 1) t nnz_nonneg ltac:(lia) ltac:(lia)). pose proof (lo_mono nnz t' nnz_nonneg Ht'). lia.
    Qed.
    Lemma counted_0 t b : 0 <= t < nt -> counted t b 0 = 0.
    Proof. intros Ht. unfold counted, at_thread. pose proof (lo_mono nnz t nnz_nonneg Ht). replace (Z.max _ _) with (lo nnz t) by lia. lia. Qed.
    Lemma counted_all t b : 0 <= t < nt -> counted t b nnz = cnt b (lo nnz (t + 1)) - cnt b (lo nnz t).
    Proof. intros Ht. unfold counted, at_thread. pose proof (lo_mono nnz t nnz_nonneg Ht). replace (Z.max _ _) with (lo nnz (t + 1)) by lia. lia. Qed.
    Lemma counted_here t b i : lo nnz t <= i < lo nnz (t + 1) -> counted t b i = cnt b i - cnt b (lo nnz t).
    Proof. intros H. unfold counted, at_thread. replace (Z.max _ _) with i by lia. lia. Qed.

    Definition grid (h : list Z) (f : Z -> Z -> Z) : Prop :=
      zlen h = nt * nr /\ forall t b, 0 <= t < nt -> 0 <= b < nr -> rd h (t * nr + b) = Ok (f t b).
    Lemma grid_zero : grid (repeat 0 (Z.to_nat (nt * nr))) (fun _ _ => 0).
    Proof. split; [rewrite zlen_repeat; nia|]. intros t b Ht Hb. rewrite rd_repeat; auto. pose proof (cell_range t b Ht Hb). lia. Qed.
    Lemma grid_upd h f t b v : grid h f -> 0 <= t < nt -> 0 <= b < nr ->
      wr h (t * nr + b) v = Ok (upd h (Z.to_nat (t * nr + b)) v) /\
      grid (upd h (Z.to_nat (t * nr + b)) v) (fun t' b' => if (t =? t') && (b =? b') then v else f t' b').
    Proof.
      intros [L G] Ht Hb. pose proof (cell_range t b Ht Hb). split; [apply wr_ok; lia|]. split; [rewrite zlen_upd; auto|].
      intros t' b' Ht' Hb'. destruct (Z.eqb_spec t t') as [<-|N]; [destruct (Z.eqb_spec b b') as [<-|N]|]; simpl.
      - apply rd_upd_same. lia.
      - rewrite rd_upd_other; [auto|lia|]. lia.
      - rewrite rd_upd_other; [auto|lia|]. intros Eq. apply cell_inj in Eq as [? ?]; auto.
    Qed.
    Lemma grid_ext h f g : grid h f -> (forall t b, 0 <= t < nt -> 0 <= b < nr -> f t b = g t b) -> grid h g.
    Proof. intros [L G] H. split; auto. intros. rewrite <- H by auto. auto. Qed.

    Lemma rd_here t i : 0 <= t < nt -> lo nnz t <= i < lo nnz (t + 1) -> exists e, rd l i = Ok e /\ rde el i = Ok e /\ edge_bin nr e = Ok (bin e) /\ 0 <= bin e < nr.
    Proof.
      intros Ht Hi. pose proof (lo_mono nnz t nnz_nonneg Ht). destruct (rd_ok l i) as [e He]; [fold nnz; lia|].
      exists e. split; auto. assert (1 <= e_src e) by (apply Hpos; eapply rd_In; eauto). 
      split; [rewrite (rde_holds el l); auto; fold nnz; lia|]. split; [apply edge_bin_ok; auto|apply bin_range; auto].
    Qed.

    Lemma hist_spec : exists h, shuffle_hist nt nr el = Ok h /\ grid h (fun t b => cnt b (lo nnz (t + 1)) - cnt b (lo nnz t)).
    Proof.
      unfold shuffle_hist. destruct Hh as [Hn _]. rewrite Hn. fold nnz.
      destruct (thread_loop (fun i h => grid h (fun t b => counted t b i)) nnz (fun tid i h =>
        do e <- rde el i ;; do bin <- edge_bin nr e ;; do c <- rd h (tid * nr + bin) ;; wr h (tid * nr + bin) (c + 1)) (repeat 0 (Z.to_nat (nt * nr)))) as (h & Er & G).
      - apply nnz_nonneg.
      - eapply grid_ext; [apply grid_zero|]. intros t b Ht Hb. cbv beta. rewrite counted_0; auto.
      - intros t i h Ht Hi G. destruct (rd_here t i Ht Hi) as (e & He & -> & Eb & Hb). cbn [bind]. rewrite Eb. cbn [bind].
        rewrite (proj2 G t (bin e) Ht Hb). cbn [bind]. destruct (grid_upd h _ t (bin e) (counted t (bin e) i + 1) G Ht Hb) as [-> G'].
        eexists. split; [reflexivity|]. eapply grid_ext; [exact G'|]. intros t' b' Ht' Hb'. cbv beta.
        rewrite (counted_step t i e t' b') by auto. destruct (Z.eqb_spec t t') as [<-|]; [destruct (Z.eqb_spec (bin e) b') as [<-|]|]; simpl; lia.
      - exists h. split; auto. eapply grid_ext; [exact G|]. intros t b Ht Hb. cbv beta. apply counted_all; auto.
    Qed.

    Notation K := (kstart items).
    Lemma cnt_total b : cnt b nnz = zlen (keyed b items).
    Proof. unfold cnt. rewrite pre_all. auto. Qed.

    Lemma offset_spec h : grid h (fun t b => cnt b (lo nnz (t + 1)) - cnt b (lo nnz t)) ->
      exists o, shuffle_offset nt nr h = Ok o /\ grid o (fun t b => K b + cnt b (lo nnz t)).
    Proof.
      intros G. unfold shuffle_offset. pose proof (cell_range 0 0 ltac:(lia) ltac:(lia)).
      rewrite wr_ok by (rewrite zlen_repeat; nia). cbn [bind].
      set (F := fun bn td t b => if (b <? bn) || ((b =? bn) && (t <? td)) then K b + cnt b (lo nnz t) else 0).
      destruct (forZ_inv (fun bn o => grid o (F bn 0)) 0 nr (fun bin o => forZ 0 nt (fun tid o =>
        do o <- (if 0 <? tid then
                 do a <- rd o ((tid - 1) * nr + bin) ;; do b <- rd h ((tid - 1) * nr + bin) ;;
                 wr o (tid * nr + bin) (a + b)
               else Ok o) ;;
        if (tid =? 0) && (0 <? bin) then
          do a <- rd o ((nt - 1) * nr + bin - 1) ;; do b <- rd h ((nt - 1) * nr + bin - 1) ;;
          wr o (tid * nr + bin) (a + b)
        else Ok o) o) (upd (repeat 0 (Z.to_nat (nt * nr))) (Z.to_nat 0) 0)) as (o & Er & P).
      - lia.
      - destruct (grid_upd _ _ 0 0 0 grid_zero ltac:(lia) ltac:(lia)) as [_ G0]. replace (0 * nr + 0) with 0 in G0 by lia.
        eapply grid_ext; [exact G0|]. intros t b Ht Hb. cbv beta. unfold F.
        assert ((b <? 0) || ((b =? 0) && (t <? 0)) = false) as -> by lia. destruct ((0 =? t) && (0 =? b)); auto.
      - intros bn o Hbn Go.
        destruct (forZ_inv (fun td o => grid o (F bn td)) 0 nt (fun tid o =>
          do o <- (if 0 <? tid then
                 do a <- rd o ((tid - 1) * nr + bn) ;; do b <- rd h ((tid - 1) * nr + bn) ;;
                 wr o (tid * nr + bn) (a + b)
               else Ok o) ;;
          if (tid =? 0) && (0 <? bn) then
            do a <- rd o ((nt - 1) * nr + bn - 1) ;; do b <- rd h ((nt - 1) * nr + bn - 1) ;;
            wr o (tid * nr + bn) (a + b)
          else Ok o) o) as (o' & Eo & Go'); [lia|exact Go| |].
        + intros td o0 Htd G0. destruct (Z.ltb_spec 0 td).
          * rewrite (proj2 G0 (td - 1) bn) by lia. cbn [bind]. rewrite (proj2 G (td - 1) bn) by lia. cbn [bind].
            unfold F at 1. assert ((bn <? bn) || ((bn =? bn) && (td - 1 <? td)) = true) as -> by lia.
            destruct (grid_upd o0 _ td bn (K bn + cnt bn (lo nnz (td - 1)) + (cnt bn (lo nnz (td - 1 + 1)) - cnt bn (lo nnz (td - 1)))) G0 Htd Hbn) as [-> G1].
            cbn [bind]. destruct (Z.eqb_spec td 0); [lia|]. cbn [andb]. eexists. split; [reflexivity|].
            eapply grid_ext; [exact G1|]. intros t b Ht Hb. cbv beta. unfold F. replace (td - 1 + 1) with td by lia.
            destruct (Z.eqb_spec td t) as [<-|]; [destruct (Z.eqb_spec bn b) as [<-|]|]; cbn [andb].
            -- assert ((bn <? bn) || ((bn =? bn) && (td <? td + 1)) = true) as -> by lia. lia.
            -- replace ((b <? bn) || (b =? bn) && (td <? td + 1)) with ((b <? bn) || (b =? bn) && (td <? td)) by lia. auto.
            -- replace ((b <? bn) || (b =? bn) && (t <? td + 1)) with ((b <? bn) || (b =? bn) && (t <? td)) by lia. auto.
          * assert (td = 0) as -> by lia. cbn [bind]. rewrite Z.eqb_refl. destruct (Z.ltb_spec 0 bn); cbn [andb].
            -- replace ((nt - 1) * nr + bn - 1) with ((nt - 1) * nr + (bn - 1)) by lia.
               rewrite (proj2 G0 (nt - 1) (bn - 1)) by lia. cbn [bind]. rewrite (proj2 G (nt - 1) (bn - 1)) by lia. cbn [bind].
               unfold F at 1. assert ((bn - 1 <? bn) || ((bn - 1 =? bn) && (nt - 1 <? 0)) = true) as -> by lia.
               destruct (grid_upd o0 _ 0 bn (K (bn - 1) + cnt (bn - 1) (lo nnz (nt - 1)) + (cnt (bn - 1) (lo nnz (nt - 1 + 1)) - cnt (bn - 1) (lo nnz (nt - 1)))) G0 Htd Hbn) as [-> G1].
               eexists. split; [reflexivity|]. eapply grid_ext; [exact G1|]. intros t b Ht Hb. cbv beta. unfold F.
               assert (K (bn - 1) + cnt (bn - 1) (lo nnz (nt - 1)) + (cnt (bn - 1) (lo nnz (nt - 1 + 1)) - cnt (bn - 1) (lo nnz (nt - 1))) = K bn) as ->.
               { replace (nt - 1 + 1) with nt by lia. unfold lo at 2. rewrite Z.eqb_refl. rewrite cnt_total.
                 pose proof (kstart_succ items (bn - 1) ltac:(lia)) as KS. replace (bn - 1 + 1) with bn in KS by lia. lia. }
               destruct (Z.eqb_spec 0 t) as [<-|]; [destruct (Z.eqb_spec bn b) as [<-|]|]; cbn [andb].
               ++ assert ((bn <? bn) || ((bn =? bn) && (0 <? 0 + 1)) = true) as -> by lia. rewrite lo_0, cnt_0. lia.
               ++ replace ((b <? bn) || (b =? bn) && (0 <? 0 + 1)) with ((b <? bn) || (b =? bn) && (0 <? 0)) by lia. auto.
               ++ replace ((b <? bn) || (b =? bn) && (t <? 0 + 1)) with ((b <? bn) || (b =? bn) && (t <? 0)) by lia. auto.
            -- assert (bn = 0) as -> by lia. eexists. split; [reflexivity|]. eapply grid_ext; [exact G0|]. intros t b Ht Hb. unfold F.
               destruct (Z.eq_dec t 0) as [->|]; [destruct (Z.eq_dec b 0) as [->|]|].
               ++ simpl. rewrite lo_0. unfold kstart. simpl. rewrite cnt_0. lia.
               ++ assert ((b <? 0) || (b =? 0) && (0 <? 0) = false) as -> by lia. assert ((b <? 0) || (b =? 0) && (0 <? 0 + 1) = false) as -> by lia. auto.
               ++ assert ((b <? 0) || (b =? 0) && (t <? 0) = false) as -> by lia. assert ((b <? 0) || (b =? 0) && (t <? 0 + 1) = false) as -> by lia. auto.
        + exists o'. split; auto. eapply grid_ext; [exact Go'|]. intros t b Ht Hb. unfold F.
          replace ((b <? bn + 1) || (b =? bn + 1) && (t <? 0)) with ((b <? bn) || (b =? bn) && (t <? nt)) by lia. auto.
      - exists o. split; auto. eapply grid_ext; [exact P|]. intros t b Ht Hb. unfold F.
        assert ((b <? nr) || ((b =? nr) && (t <? 0)) = true) as -> by lia. auto.
    Qed.

    (** the slots used so far *)
    Definition used (i s : Z) : Prop := exists b, 0 <= b < nr /\ K b <= s < K b + cnt b i.
    Lemma KB b : 0 <= b < nr -> 0 <= K b /\ K b + cnt b nnz <= nnz.
    Proof.
      intros H. split; [apply kstart_nonneg; lia|]. rewrite cnt_total, <- kstart_succ by lia.
      replace nnz with (zlen items) by (unfold items, nnz; rewrite zlen_map; auto).
      rewrite <- (kstart_total items nr) by (try lia; apply items_range). apply kstart_mono. lia.
    Qed.
    Lemma K_apart b b' i i' : 0 <= b < nr -> 0 <= b' < nr -> b <> b' -> 0 <= i < cnt b nnz -> 0 <= i' < cnt b' nnz -> K b + i <> K b' + i'.
    Proof.
      intros Hb Hb' N Hi Hi'. rewrite cnt_total in *. destruct (Z_lt_dec b b').
      - pose proof (kstart_mono items (b + 1) b' ltac:(lia)). rewrite kstart_succ in * by lia. lia.
      - pose proof (kstart_mono items (b' + 1) b ltac:(lia)). rewrite kstart_succ in * by lia. lia.
    Qed.

    Lemma scatter_spec o : grid o (fun t b => K b + cnt b (lo nnz t)) ->
      exists te wo slots, shuffle_scatter nt nr el o = Ok (te, wo, slots) /\ zlen te = nnz /\ zlen slots = nnz /\ NoDup slots /\
        forall b, 0 <= b < nr -> slice te (K b) (cnt b nnz) = Ok (map Some (keyed b items)).
    Proof.
      intros G. unfold shuffle_scatter. pose proof Hh as [Hn _]. rewrite Hn. fold nnz.
      edestruct (thread_loop (fun i (st : list (option edge) * list Z * list Z) => let '(te, wo, slots) := st in
          grid wo (fun t b => counted t b i) /\ zlen te = nnz /\ 
          (forall b j, 0 <= b < nr -> 0 <= j < cnt b i -> rd te (K b + j) = rd (map Some (keyed b (pre i))) j) /\
          NoDup slots /\ zlen slots = i /\ (forall s, In s slots -> used i s)) nnz (fun tid i st =>
        let '(te, wo, slots) := st in
        do e <- rde el i ;; do bin <- edge_bin nr e ;; do a <- rd o (tid * nr + bin) ;; do b <- rd wo (tid * nr + bin) ;;
        do te <- wr te (a + b) (Some e) ;; do wo <- wr wo (tid * nr + bin) (b + 1) ;; Ok (te, wo, slots ++ [a + b]))) as ([[te wo] slots] & Er & P).
      4:{ exists te, wo, slots. split; [exact Er|]. destruct P as (_ & Lt & Pt & Nd & Ls & _). split; auto. split; auto. split; auto.
          intros b Hb. destruct (KB b Hb) as [K1 K2]. assert (0 <= cnt b nnz) by apply zlen_nonneg.
          unfold slice. destruct (Z.ltb_spec (K b) 0); [lia|]. destruct (Z.ltb_spec (cnt b nnz) 0); [lia|].
          destruct (Z.ltb_spec (zlen te) (K b + cnt b nnz)); [lia|]. simpl. f_equal.
          assert (zlen (firstn (Z.to_nat (cnt b nnz)) (skipn (Z.to_nat (K b)) te)) = cnt b nnz) as Lf by (unfold zlen in *; rewrite firstn_length, skipn_length; lia).
          apply rd_ext; [rewrite Lf, zlen_map, cnt_total; auto|]. intros j Hj.
          rewrite pre_all in Pt. rewrite <- Pt by lia.
          set (m := Z.to_nat (cnt b nnz)) in *. set (s := Z.to_nat (K b)) in *.
          rewrite <- (rd_app1 _ (skipn m (skipn s te))) by exact Hj. rewrite firstn_skipn.
          rewrite <- (firstn_skipn s te) at 2. assert (zlen (firstn s te) = K b) as Ls' by (unfold zlen in *; rewrite firstn_length; lia).
          rewrite rd_app2 by lia. f_equal. lia. }
      - apply nnz_nonneg.
      - split; [eapply grid_ext; [apply grid_zero|]; intros; cbv beta; rewrite counted_0; auto|].
        split; [rewrite zlen_repeat; pose proof nnz_nonneg; lia|]. split; [intros b j Hb Hj; rewrite cnt_0 in Hj; lia|].
        split; [constructor|]. split; [reflexivity|]. intros s [].
      - intros t i [[te wo] slots] Ht Hi (Gw & Lt & Pt & Nd & Ls & Pu).
        destruct (rd_here t i Ht Hi) as (e & He & -> & Eb & Hb). cbn [bind]. rewrite Eb. cbn [bind].
        rewrite (proj2 G t (bin e) Ht Hb). cbn [bind]. rewrite (proj2 Gw t (bin e) Ht Hb). cbn [bind].
        rewrite (counted_here t (bin e) i Hi). pose proof (lo_mono nnz t nnz_nonneg Ht).
        replace (K (bin e) + cnt (bin e) (lo nnz t) + (cnt (bin e) i - cnt (bin e) (lo nnz t))) with (K (bin e) + cnt (bin e) i) by lia.
        set (b := bin e) in *. assert (cnt b (i + 1) = cnt b i + 1) as C1 by (rewrite (cnt_step b i e He); fold b; rewrite Z.eqb_refl; auto).
        pose proof (cnt_mono b (i + 1) nnz ltac:(lia)) as C2. assert (0 <= cnt b i) as C3 by apply zlen_nonneg. destruct (KB b Hb) as [K1 K2].
        rewrite wr_ok by lia. cbn [bind].
        destruct (grid_upd wo _ t b (cnt b i - cnt b (lo nnz t) + 1) Gw Ht Hb) as [-> Gw']. cbn [bind]. eexists. split; [reflexivity|].
        split; [eapply grid_ext; [exact Gw'|]; intros t' b' Ht' Hb'; cbv beta; rewrite (counted_step t i e t' b') by auto; fold b|].
        { destruct (Z.eqb_spec t t') as [<-|]; [destruct (Z.eqb_spec b b') as [<-|]|]; simpl; rewrite ?(counted_here t b i Hi); lia. }
        split; [rewrite zlen_upd; auto|]. split; [|split; [|split]].
        + intros b' j Hb' Hj. rewrite (pre_step i e He), keyed_app, keyed_cons. cbn [fst snd]. change (keyed b' (@nil (Z * edge))) with (@nil edge). rewrite app_nil_r. fold b.
          rewrite (cnt_step b' i e He) in Hj. fold b in Hj. destruct (Z.eqb_spec b b') as [<-|N].
          * rewrite map_app. destruct (Z.eq_dec j (cnt b i)) as [->|Nj].
            -- rewrite rd_upd_same by lia. rewrite rd_app2 by (rewrite zlen_map; unfold cnt; lia). unfold cnt. rewrite zlen_map, Z.sub_diag. reflexivity.
            -- rewrite rd_upd_other by lia. rewrite rd_app1 by (rewrite zlen_map; unfold cnt in *; lia). apply Pt; auto. lia.
          * rewrite app_nil_r. rewrite rd_upd_other; [apply Pt; auto; lia|lia|]. 
            pose proof (cnt_mono b' i nnz ltac:(lia)). apply K_apart; auto; lia.
        + apply (Permutation_NoDup (l := (K b + cnt b i) :: slots)); [apply Permutation_cons_append|]. constructor; auto.
          intros Hin. apply Pu in Hin as (b' & Hb' & Hs). destruct (Z.eq_dec b b') as [<-|N]; [lia|].
          apply (K_apart b b' (cnt b i) (K b + cnt b i - K b')); auto; [lia| |lia].
          pose proof (cnt_mono b' i nnz ltac:(lia)). lia.
        + rewrite zlen_app, zlen_cons. znil. lia.
        + intros s Hs. apply in_app_or in Hs as [Hs|[<-|[]]].
          * apply Pu in Hs as (b' & Hb' & Hs). exists b'. split; auto. pose proof (cnt_mono b' i (i + 1) ltac:(lia)). lia.
          * exists b. split; auto. lia.
    Qed.

    Lemma local_spec : exists slots, shuffle_local nt nr el = Ok (map (fun b => map Some (filter (fun e => bin e =? b) l)) (zrange 0 nr), slots) /\ NoDup slots /\ zlen slots = nnz.
    Proof.
      unfold shuffle_local. destruct (Z.eqb_spec nt 0); [lia|].
      destruct hist_spec as (h & -> & Gh). cbn [bind]. destruct (offset_spec h Gh) as (o & -> & Go). cbn [bind].
      destruct (scatter_spec o Go) as (te & wo & slots & -> & Lt & Ls & Nd & Sl). cbn [bind].
      exists slots. split; [|auto].
      rewrite (mapR_map _ (fun b => map Some (filter (fun e => bin e =? b) l))); [reflexivity|]. intros b Hb. apply in_zrange in Hb.
      unfold shuffle_message. pose proof (proj2 Go 0 b ltac:(lia) Hb) as O0. replace (0 * nr + b) with b in O0 by lia.
      rewrite O0, lo_0, cnt_0. cbn [bind]. rewrite Z.add_0_r.
      destruct (forZ_inv (fun t c => c = cnt b (lo nnz t)) 0 nt (fun tid c => do x <- rd h (tid * nr + b) ;; Ok (c + x)) 0) as (c & -> & Ec).
      + lia.
      + rewrite lo_0. reflexivity.
      + intros t c Ht ->. rewrite (proj2 Gh t b Ht Hb). cbn [bind]. eexists. split; [reflexivity|]. lia.
      + cbn [bind]. rewrite Ec. unfold lo. rewrite Z.eqb_refl. rewrite Sl by auto. do 2 f_equal.
        unfold keyed, items. clear. induction l as [|e t IH]; simpl; auto. destruct (bin e =? b); simpl; [f_equal|]; auto.
    Qed.
  End One.
End SP.

Section All.
  Context {E : Type}.
  Notation edge := (edge E).
  Lemma filter_concat {A} (p : A -> bool) (ls : list (list A)) : concat (map (filter p) ls) = filter p (concat ls).
  Proof. induction ls as [|l ls IH]; simpl; auto. rewrite filter_app, IH. auto. Qed.
  Lemma classes_perm {A} (key : A -> Z) nb (l : list A) : 0 <= nb -> (forall a, In a l -> 0 <= key a < nb) ->
    Permutation (flat_map (fun k => filter (fun a => key a =? k) l) (zrange 0 nb)) l.
  Proof.
    intros Hn. induction l as [|a l IH]; intros H.
    - cbn [filter]. rewrite flat_map_nil; auto.
    - specialize (IH (fun x Hx => H x (or_intror Hx))). pose proof (H a (or_introl eq_refl)) as Ha.
      rewrite (zrange_app 0 (key a) nb), (zrange_cons (key a) nb) in * by lia. rewrite !flat_map_app in *. cbn [flat_map] in *.
      assert (forall r, ~ In (key a) r -> flat_map (fun k => filter (fun x => key x =? k) (a :: l)) r = flat_map (fun k => filter (fun x => key x =? k) l) r) as Z0.
      { clear. induction r as [|k r IH]; intros N; cbn [flat_map]; auto. rewrite IH by (intros Hx; apply N; simpl; auto). cbn [filter].
        destruct (Z.eqb_spec (key a) k); auto. subst. exfalso. apply N. simpl; auto. }
      rewrite !Z0. 2:{ intros Hx. apply in_zrange in Hx. lia. } 2:{ intros Hx. apply in_zrange in Hx. lia. }
      cbn [filter]. rewrite Z.eqb_refl. etransitivity; [|apply perm_skip; exact IH].
      cbn [app]. symmetry. apply Permutation_middle.
  Qed.

  Lemma shuffle_edges_spec nt (els : list (elist E)) ls : 1 <= nt -> 1 <= zlen els -> all_hold els ls ->
    (forall l e, In l ls -> In e l -> 1 <= e_src e) ->
    exists els', shuffle_edges nt els = Ok els' /\
      all_hold els' (map (fun r => filter (fun e => Z.rem (e_src e - 1) (zlen els) =? r) (concat ls)) (zrange 0 (zlen els))) /\
      Forall2 same_dims els' els.
  Proof.
    intros Hnt Hnr Ha Hp. set (nr := zlen els) in *. unfold shuffle_edges. fold nr.
    assert (mapR (fun el => do r <- shuffle_local nt nr el ;; Ok (fst r)) els =
            Ok (map (fun l => map (fun b => map Some (filter (fun e => bin nr e =? b) l)) (zrange 0 nr)) ls)) as ->.
    { clearbody nr. induction Ha as [|el l els' ls' Hl Ha IH]; [reflexivity|]. cbn [mapR map].
      destruct (local_spec nt nr Hnt Hnr el l Hl (fun e He => Hp l e (or_introl eq_refl) He)) as (sl & -> & _). cbn [bind fst].
      rewrite IH; [reflexivity|]. intros l0 e H0 H1. apply (Hp l0 e); simpl; auto. }
    cbn [bind].
    set (out := fun r => filter (fun e : edge => bin nr e =? r) (concat ls)).
    assert (forall r, 0 <= r < nr -> mapR (fun ms => rd ms r) (map (fun l => map (fun b => map Some (filter (fun e => bin nr e =? b) l)) (zrange 0 nr)) ls)
      = Ok (map (fun l => map Some (filter (fun e => bin nr e =? r) l)) ls)) as M.
    { intros r Hr. clear - Hr. induction ls as [|l ls IH]; [reflexivity|]. cbn [map mapR]. rewrite rd_map_list, rd_zrange by lia. cbn [bind].
      rewrite IH. reflexivity. }
    rewrite (mapR_map _ (fun rel : Z * elist E => mkEL (map Some (out (fst rel))) (el_m (snd rel)) (el_n (snd rel)) (zlen (out (fst rel))))).
    2:{ intros [r el] Hin. apply in_combine_l in Hin. apply in_zrange in Hin. cbn [fst snd]. rewrite M by auto. cbn [bind].
        rewrite <- (map_map (filter (fun e => bin nr e =? r)) (map Some)). rewrite <- concat_map, filter_concat. fold (out r). rewrite zlen_map. reflexivity. }
    eexists. split; [reflexivity|].
    assert (length (zrange 0 nr) = length els) as L by (unfold zrange; rewrite zseq_length; unfold nr, zlen; lia).
    change (fun r => filter (fun e : edge => Z.rem (e_src e - 1) nr =? r) (concat ls)) with out.
    clearbody out. revert L. generalize (zrange 0 nr). clear. intros rs L.
    assert (forall r, holds (mkEL (map Some (out r)) 0 0 (zlen (out r))) (out r)) as H0.
    { intros r. split; [reflexivity|]. exists []. simpl. rewrite app_nil_r. auto. }
    revert els L. induction rs as [|r rs IH]; intros [|el els] L; try discriminate; [split; constructor|].
    cbn [combine map]. destruct (IH els) as [A B]; [injection L; auto|]. split; constructor; auto; [|split; reflexivity].
    cbn [fst snd]. destruct (H0 r) as [Q1 Q2]. split; auto.
  Qed.
  Lemma shuffle_perm nr (ls : list (list edge)) : 1 <= nr -> (forall l e, In l ls -> In e l -> 1 <= e_src e) ->
    Permutation (concat (map (fun r => filter (fun e => Z.rem (e_src e - 1) nr =? r) (concat ls)) (zrange 0 nr))) (concat ls).
  Proof.
    intros Hnr Hp. rewrite <- flat_map_concat_map. apply (classes_perm (fun e => Z.rem (e_src e - 1) nr)); [lia|].
    intros e He. apply in_concat in He as (l & Hl & He). apply (bin_range nr Hnr e). eauto.
  Qed.
End All.
