(** Whole-exchange lemmas about segments. *)
From Verif Require Import BaseLemmas Bits BitsProofs Segment SegmentProofs TransferProofs MergeProofs UnionProofs SegHistory SegHistoryProofs Reduce ReduceProofs Conc ConcProofs ParSeg ParSegProofs.

Section SF.
  Context {T byte : Type}.
  Notation sg := (seg T byte).
  Variable ser : bool.
  Variable thr : Z.
  Variable enc : list (Z * T) -> list byte.
  Variable dec : list byte -> Z -> R (list (Z * T)).
  Hypothesis dec_enc : forall l, dec (enc l) (zlen l) = Ok l.

  Lemma shows_of n (s : sg) b M : swf ser thr s -> s_cap s = n -> s_prop s = Some b -> b_uninit b = false ->
    (forall k, sabs s k = option_map Some (M (k + 1))) -> shows n s M.
  Proof.
    intros W C E U A. split; [|split].
    - apply (compute_nnz_members ser thr); auto.
    - intros id a Hid. destruct (members_setbits ser thr n s b M W C E U A) as (w & Bb & Ww & Lv & Mm & Mv & Mt).
      unfold seg_get. rewrite E, U. simpl. apply Mv. replace (id - 1 + 1) with id by lia. auto.
    - intros room start Hr. apply (seg_get_edges_spec ser thr n s b); auto.
  Qed.

  Lemma determinate_map (s : sg) (M : Z -> option T) : (forall k, sabs s k = option_map Some (M (k + 1))) -> determinate s.
  Proof. intros A k. rewrite A. destruct (M (k+1)); discriminate. Qed.

  Lemma transfer_spec t1 t2 (s r : sg) : thok ser thr t1 -> thok ser thr t2 -> swf ser thr s -> swf ser thr r -> s_cap s = s_cap r ->
    (ser = true -> determinate s) ->
    exists s' r', transfer ser enc dec t1 t2 s r = Ok (s', r') /\ swf ser thr s' /\ swf ser thr r' /\ s_cap s' = s_cap s /\ s_cap r' = s_cap r /\
      (forall k, sabs s' k = sabs s k) /\ (forall k, sabs r' k = sabs s k) /\
      (exists b, s_prop r' = Some b /\ b_uninit b = false) /\ s_recv r' = s_recv r /\ s_qmd r' = s_qmd r.
  Proof.
    intros T1 T2 W1 W2 C D. unfold transfer.
    destruct (seg_compress_spec ser thr enc t1 s T1 W1 D) as (s' & md & pl & E & W' & C' & A' & _ & Emd & Epl & Msg).
    rewrite E. cbn [bind]. rewrite Emd. cbn [bind]. rewrite Epl. cbn [bind]. rewrite C in Msg.
    destruct (seg_recv_spec ser thr enc t2 r (sabs s) md pl T2 W2 Msg) as (p & Er & Hp). rewrite Er. cbn [bind].
    pose proof W2 as (H0 & H1 & _ & H3 & H4).
    destruct (seg_decompress_spec ser thr enc dec dec_enc t2 (set_rmd md (set_prop (Some p) r)) p (sabs s) T2) as (r' & Ed & Wr & Ar & b' & Eb & Ub); auto.
    rewrite Ed. cbn [bind]. exists s', r'. subst r'. simpl in *. conjs; auto. eauto.
  Qed.

  Lemma transfers_spec t2 n senders : forall r : sg, thok ser thr t2 -> swf ser thr r -> s_cap r = n ->
    (forall t s, In (t, s) senders -> thok ser thr t /\ swf ser thr s /\ s_cap s = n /\ determinate s) ->
    exists r', transfers ser enc dec t2 senders r = Ok r' /\ swf ser thr r' /\ s_cap r' = n /\
      (forall t s l, senders = l ++ [(t, s)] -> (forall k, sabs r' k = sabs s k) /\ (exists b, s_prop r' = Some b /\ b_uninit b = false)).
  Proof.
    induction senders as [|[t s] l IH] using rev_ind; intros r T2 W C H.
    - exists r. conjs; auto. intros t s [|x l] Q; discriminate.
    - destruct (IH r T2 W C) as (r1 & E1 & W1 & C1 & _). { intros; apply H; apply in_app_iff; auto. }
      destruct (H t s) as (Tt & Ws & Cs & Ds); [apply in_app_iff; simpl; auto|].
      destruct (transfer_spec t t2 s r1 Tt T2 Ws W1 ltac:(congruence) (fun _ => Ds)) as (s' & r' & E & _ & Wr & _ & Cr & _ & Ar & Pb & _).
      exists r'. unfold transfers in *. rewrite foldR_app, E1. cbn [bind foldR fst snd]. rewrite E. cbn [bind]. conjs; auto; try congruence.
      intros t0 s0 l0 Q. apply app_inj_tail in Q as [_ Q]. injection Q as <- <-. auto.
  Qed.

  (** operations leave the receive queues alone *)
  Definition sameq (s s' : sg) : Prop := s_qmd s' = s_qmd s /\ (s_recv s = [] -> s_recv s' = []).
  Lemma sameq_trans a b c : sameq a b -> sameq b c -> sameq a c.
  Proof. intros [A1 A2] [B1 B2]. split; [congruence|auto]. Qed.
  Lemma sameq_set_prop p s : sameq s (set_prop p s).
  Proof. split; auto. Qed.
  Lemma sameq_alloc t s : sameq s (seg_alloc t s).
  Proof. unfold seg_alloc. destruct (s_prop s); split; auto. Qed.
  Lemma sameq_init t s s' : seg_initialize (seg_alloc t s) = Ok s' -> sameq s s'.
  Proof. intros E. apply bind_Ok in E as (b & _ & E). injection E as <-. eapply sameq_trans; [apply sameq_alloc|apply sameq_set_prop]. Qed.
  Lemma sameq_setAll t c s s' : seg_setAll t c s = Ok s' -> sameq s s'.
  Proof.
    unfold seg_setAll. intros E. apply bind_Ok in E as (b & _ & E). eapply sameq_trans; [apply (sameq_alloc t)|].
    destruct (s_nints (seg_alloc t s) =? 0); [injection E as <-; apply sameq_set_prop|].
    apply bind_Ok in E as (w & _ & E). apply bind_Ok in E as (v & _ & E). injection E as <-. apply sameq_set_prop.
  Qed.
  Lemma sameq_sop t s o s' : run_sop t s o = Ok s' -> sameq s s'.
  Proof.
    intros E. destruct o as [id a|id|a| |a]; simpl in E.
    - unfold seg_set in E. apply bind_Ok in E as (s1 & E1 & E). eapply sameq_trans; [eapply sameq_init; eauto|].
      do 5 (apply bind_Ok in E as (? & _ & E)). injection E as <-. apply sameq_set_prop.
    - unfold seg_unset in E. apply bind_Ok in E as (s1 & E1 & E). eapply sameq_trans; [eapply sameq_init; eauto|].
      do 4 (apply bind_Ok in E as (? & _ & E)). injection E as <-. apply sameq_set_prop.
    - eapply sameq_setAll; eauto.
    - injection E as <-. unfold seg_set_uninitialized, seg_set_uninitialized_received. simpl. destruct (s_prop s); split; simpl; auto.
    - apply bind_Ok in E as (s1 & E1 & E). eapply sameq_trans; [eapply sameq_setAll; eauto|]. unfold seg_zero in E. apply bind_Ok in E as (b & _ & E).
      injection E as <-. apply sameq_set_prop.
  Qed.

  (** histories for any element type *)
  Lemma history_wf threads n junk fresh ops : thok ser thr threads -> 0 <= n -> Forall (sop_in_range n) ops ->
    exists s : sg, run_sops threads ops (new_seg n junk fresh) = Ok s /\ swf ser thr s /\ s_cap s = n /\
      (forall k, sabs s k = option_map Some (spec_sops n ops (k + 1))) /\ s_recv s = [] /\ s_qmd s = [].
  Proof.
    intros Ht Hn F.
    destruct (run_sops_spec ser thr threads n ops (@new_seg T byte n junk fresh) (fun _ => None) Ht (swf_new ser thr n junk fresh Hn) eq_refl F (fun _ => eq_refl)) as (s & E & W & C & A & _).
    exists s.
    assert (sameq (@new_seg T byte n junk fresh) s) as [Q1 Q2].
    { clear -E. revert E. generalize (@new_seg T byte n junk fresh) as s0. unfold run_sops. induction ops as [|o ops IH]; intros s0 E; simpl in E.
      - injection E as <-. split; auto.
      - apply bind_Ok in E as (s1 & E1 & E2). eapply sameq_trans; [eapply sameq_sop; eauto|auto]. }
    conjs; auto.
  Qed.

  Lemma opt_op_oop (op : T -> T -> T) x y : opt_op op x y = oop op x y.
  Proof. destruct x, y; reflexivity. Qed.

  Lemma gather_spec op t n (owner : sg) (M0 : Z -> option T) (cs : list (Z * sg)) (Ms : list (Z -> option T)) :
    thok ser thr t -> swf ser thr owner -> s_cap owner = n -> s_recv owner = [] -> s_qmd owner = [] ->
    (forall k, sabs owner k = option_map Some (M0 (k + 1))) ->
    Forall2 (fun c M => thok ser thr (fst c) /\ swf ser thr (snd c) /\ s_cap (snd c) = n /\ forall k, sabs (snd c) k = option_map Some (M (k + 1))) cs Ms ->
    exists o', gather ser enc dec op t cs owner = Ok o' /\ swf ser thr o' /\ s_cap o' = n /\ s_recv o' = [] /\ s_qmd o' = [] /\
      (forall k, sabs o' k = option_map Some (red op (contribs (M0 :: Ms) (k + 1)))) /\ (exists b, s_prop o' = Some b /\ b_uninit b = false).
  Proof.
    intros Ht W C R Q A F. unfold gather.
    assert (exists msgs, mapR (fun (c : Z * sg) => do s <- seg_compress ser enc (fst c) (snd c) ;; do md <- seg_send_nnz s ;; do pl <- seg_send_segment ser s ;; Ok (md, pl)) cs = Ok msgs /\
      Forall2 (fun (m : send_md * payload) (M : Z -> option T) => msg ser thr enc n (fun k => option_map Some (M (k + 1))) (fst m) (snd m)) msgs Ms) as (msgs & Em & Fm).
    { clear -F. induction F as [|c M cs Ms (T1 & W1 & C1 & A1) F IH]; simpl; [exists []; split; auto|].
      destruct IH as (msgs & Em & Fm).
      destruct (seg_compress_spec ser thr enc (fst c) (snd c) T1 W1 (fun _ => determinate_map _ _ A1)) as (s' & md & pl & E & W' & C' & A' & _ & Emd & Epl & Msg).
      rewrite E. cbn [bind]. rewrite Emd. cbn [bind]. rewrite Epl. cbn [bind]. rewrite Em. cbn [bind]. eexists. split; [reflexivity|]. constructor; auto.
      simpl. rewrite C1 in Msg. intros p Bp. destruct (Msg p Bp) as (p' & Ep & Hp). exists p'. split; auto.
      destruct Hp as (Hb & Hu & Hd). split; auto. split; auto. destruct (should_compress ser n (b_nnz p')).
      - destruct Hd as (w & ? & ? & Hk). exists w. conjs; auto. intros k. rewrite <- A1. auto.
      - destruct Hd as (es & ? & ? & ? & ? & ? & Hk). exists es. conjs; auto. intros k. rewrite <- A1. auto.
      - destruct Hd as (es & ? & ? & ? & ? & ? & Hk). exists es. conjs; auto. intros k. rewrite <- A1. auto. }
    rewrite Em. cbn [bind].
    assert (fold_left (fun o (m : send_md * payload) => seg_recv_nnz_queue (fst m) o) msgs owner = set_qmd (rev (map fst msgs)) owner) as ->.
    { pose proof (recv_queue_md (map fst msgs) owner) as G. rewrite Q, app_nil_r in G. rewrite <- G. clear. revert owner. induction msgs; intros; simpl; auto. }
    set (ms := combine (combine (map (fun (M : Z -> option T) k => option_map Some (M (k + 1))) Ms) (map fst msgs)) (map snd msgs)).
    assert (map (fun m => snd (fst m)) ms = map fst msgs /\ map snd ms = map snd msgs /\ map (fun m => fst (fst m)) ms = map (fun (M : Z -> option T) k => option_map Some (M (k + 1))) Ms /\
            forall m, In m ms -> msg ser thr enc n (fst (fst m)) (snd (fst m)) (snd m)) as (E1 & E2 & E3 & Hm).
    { unfold ms. clear -Fm. induction Fm as [|m M msgs Ms Hm Fm (I1 & I2 & I3 & I4)]; simpl; [conjs; auto; intros ? []|]. conjs; try (f_equal; auto).
      intros x [<-|Hx]; auto. }
    clearbody ms.
    assert (foldR (fun o (m : send_md * payload) => seg_recv_segment_queue ser t (snd m) o) msgs (set_qmd (rev (map fst msgs)) owner) =
            foldR (fun s m => seg_recv_segment_queue ser t (snd m) s) ms (set_qmd (rev (map fst msgs)) owner)) as ->.
    { clear -E2. generalize (set_qmd (rev (map fst msgs)) owner) as o. revert ms E2. induction msgs as [|m msgs IH]; intros ms E o; destruct ms as [|m0 ms]; simpl in *; try discriminate; auto.
      injection E as E0 E. rewrite E0. destruct (seg_recv_segment_queue ser t (snd m) o); simpl; auto. }
    assert (swf ser thr (set_qmd (rev (map fst msgs)) owner)) as Wq by (destruct W as (? & ? & ? & ? & ?); unfold swf; simpl; conjs; auto).
    destruct (recv_queue_data ser thr enc t ms (set_qmd (rev (map fst msgs)) owner) Ht Wq) as (o1 & ps & Eo & Wo & Qo & Ro & Fo & Po & Co).
    { intros m Hin. simpl. rewrite C. auto. } { simpl. rewrite E1. reflexivity. }
    rewrite Eo. cbn [bind]. simpl in Ro, Po, Co. rewrite R in Ro. simpl in Ro.
    assert (forall k, sabs o1 k = option_map Some (M0 (k + 1))) as Ao by (intros k; rewrite <- A; unfold sabs; rewrite Po; reflexivity).
    destruct (seg_union_received_spec ser thr enc dec dec_enc op t o1 (fun k => M0 (k + 1)) (map (fun (M : Z -> option T) k => M (k + 1)) Ms) Ht Wo Ao) as (o2 & Eu & Wu & Cu & Ru & Qu & Au & Pu).
    { rewrite Ro, Co. simpl in Fo. clear -Fo E3. revert Ms E3. induction Fo as [|p m ps ms Hp Fo IH]; intros Ms E3; destruct Ms as [|M Ms]; simpl in *; try discriminate; constructor.
      - injection E3 as E0 _. rewrite <- E0. auto.
      - apply IH. injection E3; auto. }
    rewrite Eu. cbn [bind].
    destruct (seg_set_uninit_received_spec ser thr o2 Wu) as (Wf & Af & Cf & Rf & Pf & Qf).
    eexists. split; [reflexivity|]. conjs; auto; try congruence.
    - intros k. rewrite Af, Au. f_equal. 
      assert (M0 (k+1) = red op (olist (M0 (k+1)))) as -> by (destruct (M0 (k+1)); auto).
      pose proof (fold_contribs op Ms (k+1) (olist (M0 (k+1)))) as G. unfold contribs in *. simpl in *. rewrite <- G.
      clear. generalize (red op (olist (M0 (k+1)))) as a. induction Ms as [|M Ms IH]; intros a; simpl; auto.
  Qed.
End SF.

(** ** from histories *)
Section Hist.
  Context {T byte : Type}.
  Notation sg := (seg T byte).
  Variable ser : bool.
  Variable enc : list (Z * T) -> list byte.
  Variable dec : list byte -> Z -> R (list (Z * T)).

  (** [s] is what [t] threads make of a fresh segment of capacity [n] by the operations [ops] *)
  Definition built (n t : Z) (ops : list (sop T)) (s : sg) : Prop :=
    1 <= t /\ Forall (sop_in_range n) ops /\ exists junk fresh, run_sops t ops (new_seg n junk fresh) = Ok s.

  Lemma built_wf thr n t ops s : 0 <= n -> (ser = true -> t = thr) -> built n t ops s ->
    thok ser thr t /\ swf ser thr s /\ s_cap s = n /\ (forall k, sabs s k = option_map Some (spec_sops n ops (k + 1))) /\ s_recv s = [] /\ s_qmd s = [].
  Proof.
    intros Hn Ht (T1 & F & junk & fresh & E). assert (thok ser thr t) as Tk by (split; auto).
    destruct (@history_wf T byte ser thr t n junk fresh ops Tk Hn F) as (s' & E' & W & C & A & R & Q).
    assert (s' = s) by congruence. subst s'. conjs; auto.
  Qed.

  Lemma transfers_hist n t2 ops2 (r : sg) (senders : list (Z * list (sop T) * sg)) t ops s :
    0 <= n -> (forall l, dec (enc l) (zlen l) = Ok l) -> built n t2 ops2 r ->
    Forall (fun x => built n (fst (fst x)) (snd (fst x)) (snd x) /\ (ser = true -> fst (fst x) = t2)) (senders ++ [(t, ops, s)]) ->
    exists r', transfers ser enc dec t2 (map (fun x => (fst (fst x), snd x)) (senders ++ [(t, ops, s)])) r = Ok r' /\ shows n r' (spec_sops n ops).
  Proof.
    intros Hn DE Br F. destruct (built_wf t2 n t2 ops2 r Hn (fun _ => eq_refl) Br) as (Tk & W & C & A & _).
    destruct (transfers_spec ser t2 enc dec DE t2 n (map (fun x => (fst (fst x), snd x)) (senders ++ [(t, ops, s)])) r Tk W C) as (r' & E & W' & C' & L).
    - intros t0 s0 Hin. apply in_map_iff in Hin as ([[t1 ops1] s1] & Eq & Hin). simpl in Eq. injection Eq as -> ->.
      rewrite Forall_forall in F. destruct (F _ Hin) as [B S]. simpl in *.
      destruct (built_wf t2 n t0 ops1 s0 Hn S B) as (Tk0 & W0 & C0 & A0 & _). conjs; auto. eapply determinate_map; eauto.
    - exists r'. split; auto. destruct (L t s (map (fun x => (fst (fst x), snd x)) senders)) as [Ar (b & Eb & Ub)]; [rewrite map_app; reflexivity|].
      apply Forall_app in F as [_ F]. inversion F as [|? ? [B S] _]; subst. simpl in *. destruct (built_wf t2 (s_cap r) t ops s Hn S B) as (_ & _ & _ & As & _).
      apply (shows_of ser t2 (s_cap r) r' b); auto. intros k. rewrite Ar. auto.
  Qed.

  Lemma gather_hist op n t ops (owner : sg) (cs : list (Z * list (sop T) * sg)) :
    0 <= n -> (forall l, dec (enc l) (zlen l) = Ok l) -> built n t ops owner ->
    Forall (fun x => built n (fst (fst x)) (snd (fst x)) (snd x) /\ (ser = true -> fst (fst x) = t)) cs ->
    exists o', gather ser enc dec op t (map (fun x => (fst (fst x), snd x)) cs) owner = Ok o' /\
      shows n o' (fun id => red op (contribs (spec_sops n ops :: map (fun x => spec_sops n (snd (fst x))) cs) id)).
  Proof.
    intros Hn DE Bo F. destruct (built_wf t n t ops owner Hn (fun _ => eq_refl) Bo) as (Tk & W & C & A & R & Q).
    destruct (gather_spec ser t enc dec DE op t n owner (spec_sops n ops) (map (fun x => (fst (fst x), snd x)) cs) (map (fun x => spec_sops n (snd (fst x))) cs) Tk W C R Q A) as (o' & E & W' & C' & _ & _ & A' & b & Eb & Ub).
    - clear -F Hn. induction F as [|[[t1 ops1] s1] cs [B S] F IH]; simpl; constructor; auto. simpl in *.
      destruct (built_wf t n t1 ops1 s1 Hn S B) as (Tk0 & W0 & C0 & A0 & _). auto.
    - exists o'. split; auto. apply (shows_of ser t n o' b); auto.
  Qed.
End Hist.

(** ** parallel decode and merge *)
Section Par.
  Context {T byte : Type}.

  Lemma nonneg_of cap ks : (forall k, In k ks -> 0 <= k < cap) -> nonneg ks.
  Proof. intros H k Hk. apply H in Hk. lia. Qed.

  Lemma decomp_pool_spec threads cap (es : list (Z * option T)) (cdata : list (option T)) (cidx : list (option Z)) (v : list (option T)) :
    1 <= threads -> 0 <= cap -> incr (map fst es) -> (forall e, In e es -> 0 <= fst e < cap) ->
    starts cidx (map Some (map fst es)) -> starts cdata (map snd es) -> zlen v = cap ->
    exists ts ends wv, decomp_pool threads cdata cidx (zlen es) = Ok ts /\ decomp_bounds threads cidx (zlen es) = Ok ends /\
      ts = map (fun p => tfor (lo_of ends p) (hi_of ends p) (decomp_entry_t cdata cidx)) (zrange 0 threads) /\
      cuts (map fst es) threads ends /\
      forZ 0 threads (fun p wv => do st <- (if p =? 0 then Ok 0 else rd ends (p - 1)) ;; do en <- rd ends p ;; forZ st en (decomp_entry cdata cidx) wv)
        (repeat 0 (Z.to_nat (num_ints_of cap)), v) = Ok wv /\
      (forall k, wabs (fst wv) (snd wv) k = massoc es k) /\
      forall ts' m', psteps sloc_eqb (ts, smem (repeat 0 (Z.to_nat (num_ints_of cap)), v)) (ts', m') ->
        ~ bad (ts', m') /\ (finished ts' -> forall l, m' l = smem wv l).
  Proof.
    intros Ht Hc I K S1 S2 Lv.
    set (b := @mkbuf T byte false (zlen es) cap (num_ints_of cap) v None cdata cidx [] 0 0 [] []).
    destruct (buf_decompress_plain_spec threads cap b es) as (w & v' & E & _ & _ & A); auto.
    destruct (decomp_bounds_spec threads cidx (map fst es) Ht S1) as (ends & Ee & Cu); auto.
    { apply (nonneg_of cap). intros k Hk. apply in_map_iff in Hk as (e & <- & He). auto. }
    rewrite zlen_map in Ee. unfold buf_decompress_plain in E. simpl in E. rewrite Ee in E. cbn [bind] in E.
    apply bind_Ok in E as (wv & Ef & E). injection E as E0 E1.
    assert (mapR (fun p => do st <- (if p =? 0 then Ok 0 else rd ends (p - 1)) ;; do en <- rd ends p ;; Ok (tfor st en (decomp_entry_t cdata cidx))) (zrange 0 threads)
      = Ok (cut_pool threads ends (decomp_entry_t cdata cidx))) as Em.
    { apply mapR_map. intros p Hp. apply in_zrange in Hp. destruct (lohi _ _ _ Cu p ltac:(lia)) as (L1 & L2 & _). unfold prevc in L1. rewrite L1, L2. reflexivity. }
    exists (cut_pool threads ends (decomp_entry_t cdata cidx)), ends, wv. unfold decomp_pool. rewrite Ee. cbn [bind]. conjs; auto.
    - intros k. rewrite <- A, E0, E1. reflexivity.
    - intros ts' m' St. eapply (pool_interleavings (map fst es) threads ends Cu ltac:(lia) (decomp_entry_t cdata cidx) (decomp_entry cdata cidx)); eauto.
      + intros i x Hx. apply only_decomp_entry. destruct (rdi_starts cidx (map fst es) i S1) as (x' & Ex & Hx'); [eapply rd_bounds; eauto|]. congruence.
      + intros i. apply sim_decomp_entry.
  Qed.

  Lemma union_pool_spec (op : T -> T -> T) threads cap (es : list (Z * option T)) (cdata : list (option T)) (cidx : list (option Z)) w v M N :
    1 <= threads -> 0 <= cap -> incr (map fst es) -> (forall e, In e es -> 0 <= fst e < cap) ->
    starts cidx (map Some (map fst es)) -> starts cdata (map snd es) -> (forall k, massoc es k = option_map Some (N k)) ->
    wwf cap w -> zlen v = cap -> dmap w v M ->
    exists ends wv, cuts (map fst es) (threads * 16) ends /\
      union_pool op threads cdata cidx (zlen es) = map (fun p => tfor (lo_of ends p) (hi_of ends p) (union_entry_t op cdata cidx)) (zrange 0 (threads * 16)) /\
      union_compressed op threads cdata cidx (zlen es) (w, v) = Ok wv /\ dmap (fst wv) (snd wv) (fun k => opt_op op (M k) (N k)) /\
      forall ts' m', psteps sloc_eqb (union_pool op threads cdata cidx (zlen es), smem (w, v)) (ts', m') ->
        ~ bad (ts', m') /\ (finished ts' -> forall l, m' l = smem wv l).
  Proof.
    intros Ht Hc I K S1 S2 HN W L D.
    destruct (union_compressed_spec op threads cap es cdata cidx w v M N Ht Hc I K S1 S2 HN W L D) as (w' & v' & E & _ & _ & D').
    assert (nonneg (map fst es)) as Nn. { apply (nonneg_of cap). intros k Hk. apply in_map_iff in Hk as (e & <- & He). auto. }
    destruct (union_cuts (threads * 16) cidx (map fst es) ltac:(lia) S1 Nn I) as (ends & Cu & Eq & Rg). rewrite zlen_map in Eq, Rg.
    assert (union_pool op threads cdata cidx (zlen es) = cut_pool (threads * 16) ends (union_entry_t op cdata cidx)) as Ep.
    { unfold union_pool, cut_pool. apply map_ext_in. intros p Hp. apply in_zrange in Hp. destruct (Rg p ltac:(lia)) as (st & en & a & b & -> & Ea & Eb & H).
      unfold lo_of, hi_of. rewrite Ea, Eb. simpl. destruct H as [[-> ->] | [H1 H2]]; auto. unfold tfor. replace (Z.to_nat (en - st)) with 0%nat by lia. replace (Z.to_nat (b - a)) with 0%nat by lia. reflexivity. }
    exists ends, (w', v'). conjs; auto. rewrite Ep.
    unfold union_compressed in E. rewrite Eq in E.
    intros ts' m' St. eapply (pool_interleavings (map fst es) (threads * 16) ends Cu ltac:(lia) (union_entry_t op cdata cidx) (union_entry op cdata cidx)); eauto.
    - intros i x Hx. apply only_union_entry. destruct (rdi_starts cidx (map fst es) i S1) as (x' & Ex & Hx'); [eapply rd_bounds; eauto|]. congruence.
    - intros i. apply sim_union_entry.
  Qed.
End Par.

(** ** final forms *)
From Coq Require Import Sorting.Sorted.
Section FinalPar.
  Context {T : Type}.

  Lemma sorted_incr ks : StronglySorted Z.lt ks -> incr ks.
  Proof.
    intros S. induction S as [|k ks S IH F]; intros i j x y L Hx Hy.
    - apply rd_bounds in Hx. unfold zlen in Hx; simpl in Hx; lia.
    - pose proof (rd_bounds _ _ _ Hx). rewrite rd_consS in Hy by lia. destruct (Z.eq_dec i 0) as [->|].
      + rewrite rd_cons0 in Hx. injection Hx as <-. rewrite Forall_forall in F. apply F. eapply rd_In; eauto.
      + rewrite rd_consS in Hx by lia. apply (IH (i-1) (j-1)); auto; lia.
  Qed.

  Lemma combine_fst {A B} (l : list A) (l' : list B) : length l = length l' -> map fst (combine l l') = l.
  Proof. revert l'. induction l as [|a l IH]; intros [|b l'] H; simpl in *; try discriminate; auto. f_equal; auto. Qed.
  Lemma combine_snd {A B} (l : list A) (l' : list B) : length l = length l' -> map snd (combine l l') = l'.
  Proof. revert l'. induction l as [|a l IH]; intros [|b l'] H; simpl in *; try discriminate; auto. f_equal; auto. Qed.

  (** ranges [lo p, hi p) for parts 0..np-1 split the entries and never share a 32-bit word *)
  Definition word_disjoint_ranges (ks : list Z) (np : Z) (lo hi : Z -> Z) : Prop :=
    (forall i, 0 <= i < zlen ks -> exists p, (0 <= p < np /\ lo p <= i < hi p) /\ forall q, 0 <= q < np -> lo q <= i < hi q -> q = p) /\
    (forall p i, 0 <= p < np -> lo p <= i < hi p -> 0 <= i < zlen ks) /\
    (forall p q i j x y, 0 <= p < np -> 0 <= q < np -> p <> q -> lo p <= i < hi p -> lo q <= j < hi q -> rd ks i = Ok x -> rd ks j = Ok y -> x / 32 <> y / 32).

  Lemma cuts_word_disjoint ks np ends : 0 <= np -> cuts ks np ends -> word_disjoint_ranges ks np (lo_of ends) (hi_of ends).
  Proof.
    intros Hn Cu. split; [|split].
    - intros i Hi. destruct (parts_cover ks np ends Cu Hn i Hi) as (p & Hp & B). exists p. split; auto.
      intros q Hq Bq. destruct (Z.lt_trichotomy p q) as [H|[H|H] ]; auto; exfalso.
      + pose proof (hi_le_lo ks np ends Cu p q ltac:(lia) ltac:(lia)). lia.
      + pose proof (hi_le_lo ks np ends Cu q p ltac:(lia) ltac:(lia)). lia.
    - intros p i Hp Hi. destruct (lohi ks np ends Cu p Hp) as (_ & _ & ? & ? & _). lia.
    - intros p q i j x y Hp Hq N Hi Hj Rx Ry. destruct (Z.lt_trichotomy p q) as [H|[H|H] ]; [| contradiction |].
      + pose proof (part_words_disjoint ks np ends Cu p q i j x y ltac:(lia) ltac:(lia) Hi Hj Rx Ry). lia.
      + pose proof (part_words_disjoint ks np ends Cu q p j i y x ltac:(lia) ltac:(lia) Hj Hi Ry Rx). lia.
  Qed.

  Lemma decode_interleavings threads cap ks (ds rest : list (option T)) irest v :
    1 <= threads -> 0 <= cap -> StronglySorted Z.lt ks -> (forall k, In k ks -> 0 <= k < cap) -> length ds = length ks -> zlen v = cap ->
    let cidx := map Some ks ++ irest in let cdata := ds ++ rest in
    let b := @mkbuf T unit false (zlen ks) cap (num_ints_of cap) v None cdata cidx [] 0 0 [] [] in
    let w0 := repeat 0 (Z.to_nat (num_ints_of cap)) in
    exists ends ts w' v', decomp_bounds threads cidx (zlen ks) = Ok ends /\
      word_disjoint_ranges ks threads (fun p => match (if p =? 0 then Ok 0 else rd ends (p - 1)) with Ok a => a | Err _ => 0 end)
                                      (fun p => match rd ends p with Ok a => a | Err _ => 0 end) /\
      decomp_pool threads cdata cidx (zlen ks) = Ok ts /\
      buf_decompress_plain threads b = Ok (set_value v' (set_bits w' b)) /\
      forall ts' m', psteps sloc_eqb (ts, smem (w0, v)) (ts', m') -> ~ bad (ts', m') /\ (finished ts' -> forall l, m' l = smem (w', v') l).
  Proof.
    intros Ht Hc S K Ln Lv cidx cdata b w0.
    destruct (@decomp_pool_spec T unit threads cap (combine ks ds) cdata cidx v) as (ts & ends & [w' v'] & E1 & E2 & E3 & Cu & E4 & _ & H); auto.
    - rewrite combine_fst by auto. apply sorted_incr; auto.
    - intros [k d] He. apply in_combine_l in He. simpl. auto.
    - rewrite combine_fst by auto. exists irest. reflexivity.
    - rewrite combine_snd by auto. exists rest. reflexivity.
    - assert (zlen (combine ks ds) = zlen ks) as Lc by (unfold zlen; rewrite combine_length; lia). rewrite Lc in *.
      rewrite combine_fst in Cu by auto.
      exists ends, ts, w', v'. split; auto. split; [apply (cuts_word_disjoint ks threads ends); auto; lia|]. split; auto. split; auto.
      unfold buf_decompress_plain. cbn [b_nints b_cidx b_nnz b_cdata b_value b]. rewrite E2. cbn [bind]. rewrite E4. cbn [bind fst snd]. reflexivity.
  Qed.

  Lemma merge_interleavings (op : T -> T -> T) threads cap ks (ds : list T) rest irest w v M :
    1 <= threads -> 0 <= cap -> StronglySorted Z.lt ks -> (forall k, In k ks -> 0 <= k < cap) -> length ds = length ks ->
    wwf cap w -> zlen v = cap -> dmap w v M ->
    let cidx := map Some ks ++ irest in let cdata := map Some ds ++ rest in
    exists lo hi wv, 
      word_disjoint_ranges ks (threads * 16) lo hi /\
      union_pool op threads cdata cidx (zlen ks) = map (fun p => tfor (lo p) (hi p) (union_entry_t op cdata cidx)) (zrange 0 (threads * 16)) /\
      union_compressed op threads cdata cidx (zlen ks) (w, v) = Ok wv /\
      forall ts' m', psteps sloc_eqb (union_pool op threads cdata cidx (zlen ks), smem (w, v)) (ts', m') ->
        ~ bad (ts', m') /\ (finished ts' -> forall l, m' l = smem wv l).
  Proof.
    intros Ht Hc S K Ln W L D cidx cdata. set (es := combine ks (map Some ds)).
    assert (length ks = length (map (@Some T) ds)) as Ln' by (rewrite map_length; auto).
    assert (zlen es = zlen ks) as Lc by (unfold es, zlen; rewrite combine_length; lia).
    destruct (@union_pool_spec T op threads cap es cdata cidx w v M (fun k => match massoc es k with Some (Some a) => Some a | _ => None end)) as (ends & wv & Cu & E1 & E2 & _ & H); auto.
    - unfold es. rewrite combine_fst by auto. apply sorted_incr; auto.
    - intros [k d] He. apply in_combine_l in He. simpl. auto.
    - unfold es. rewrite combine_fst by auto. exists irest. reflexivity.
    - unfold es. rewrite combine_snd by auto. exists rest. reflexivity.
    - intros k. pose proof (massoc_in es k) as Hin. destruct (massoc es k) as [[a|]|]; auto. exfalso. apply in_combine_r in Hin. apply in_map_iff in Hin as (x & ? & _). discriminate.
    - rewrite Lc in *. unfold es in Cu. rewrite combine_fst in Cu by auto.
      exists (lo_of ends), (hi_of ends), wv. split; [apply cuts_word_disjoint; auto; lia|]. auto.
  Qed.

  Lemma history_shows n t junk fresh (ops : list (sop T)) : 1 <= t -> 0 <= n -> Forall (sop_in_range n) ops ->
    exists s : seg T unit, run_sops t ops (new_seg n junk fresh) = Ok s /\
      ((exists ops' o, ops = ops' ++ [o] /\ o <> OClear) -> shows n s (spec_sops n ops)) /\
      seg_compute_nnz s = Ok (zlen (members n (spec_sops n ops))) /\
      (forall ops' o, ops = ops' ++ [o] -> o <> OClear -> 0 < n -> Forall no_inactive ops -> seg_getNNZ s = Ok (zlen (members n (spec_sops n ops)))) /\
      (forall ops' a, ops = ops' ++ [OSetInactive a] -> 0 < n -> seg_getNNZ s = Ok n /\ seg_compute_nnz s = Ok 0).
  Proof.
    intros Ht Hn F. destruct (history_spec t n junk fresh ops Ht Hn F) as (s & E & H1 & H2 & H3 & H4 & H5).
    exists s. conjs; auto. intros (ops' & o & Eo & No). split; [auto|split; auto]. intros room st Hr. eapply H3; eauto.
  Qed.
End FinalPar.

(** Serializable transfer with different thread counts *)
Lemma transfer_ser_threads_bad :
  exists (s r : seg Z (Z * Z)), built 4 2 [OSet 3 7] s /\ built 4 1 [] r /\
    transfer true (fun l => l) (fun bs _ => Ok bs) 2 1 s r = Err OOB.
Proof.
  exists (match run_sops 2 [OSet 3 7] (new_seg 4 0 None) with Ok s => s | Err _ => new_seg 4 0 None end), (new_seg 4 0 None).
  split; [|split].
  - split; [lia|]. split; [repeat constructor; lia|]. exists 0, None. vm_compute. reflexivity.
  - split; [lia|]. split; [constructor|]. exists 0, None. reflexivity.
  - vm_compute. reflexivity.
Qed.
