From Verif Require Import BaseLemmas Layout LayoutProofs Bits BitsProofs Segment SegmentProofs TransferProofs SegHistory SegHistoryProofs SegFinal Bucket BucketProofs Vec VecProofs VecProofs2 GraphVert GraphVertProofs VecArchive.

Section VAP.
  Context {T byte : Type}.
  Notation archive := (list (vitem T byte)).
  Notation buf := (buffer T byte).
  Notation sg := (seg T byte).
  Variable jz : Z -> Z.
  Variable jt : Z -> T.

  Definition filled {A} (l : list (option A)) (l' : list A) : Prop := Forall2 (fun c a => c = None \/ c = Some a) l l'.
  Lemma filled_len {A} (l : list (option A)) l' : filled l l' -> zlen l' = zlen l.
  Proof using T byte. clear jz jt. intros H. induction H; rewrite ?zlen_cons; auto. unfold filled in *. lia. Qed.
  Lemma filled_rd {A} (l : list (option A)) l' i a : filled l l' -> rd l i = Ok (Some a) -> rd (map Some l') i = Ok (Some a).
  Proof using T byte. clear jz jt.
    intros H E. apply rd_nth in E as [B E]. apply rd_nth. split; auto. revert l' H E. generalize (Z.to_nat i) as k.
    intros k. revert l. induction k as [|k IH]; intros l l' H E; destruct H as [|c a' l l' Hc H]; simpl in *; try discriminate.
    - injection E as ->. destruct Hc as [Hc|Hc]; [discriminate|]. congruence.
    - eauto.
  Qed.
  Lemma filled_snoc {A} (l : list (option A)) l' c a : filled l l' -> (c = None \/ c = Some a) -> filled (l ++ [c]) (l' ++ [a]).
  Proof using T byte. clear jz jt. intros H Hc. apply Forall2_app; auto. Qed.
  Lemma filled_somes {A} (w w' : list A) : filled (map Some w) w' -> w' = w.
  Proof using T byte. clear jz jt.
    revert w'. induction w as [|x w IH]; intros w' H; inversion H as [|? ? ? ? Hc Ht]; subst; auto.
    destruct Hc as [Hc|Hc]; [discriminate|]. injection Hc as ->. f_equal. auto.
  Qed.

  Lemma puts_ok {A} (junk : Z -> A) (mk : A -> vitem T byte) l ar count : count = zlen l -> exists l', puts junk mk count l ar = Ok (ar ++ map mk l') /\ filled l l'.
  Proof.
    intros ->. unfold puts. pose proof (zlen_nonneg l) as Hl.
    destruct (forZ_inv (fun i ar' => exists l', ar' = ar ++ map mk l' /\ filled (firstn (Z.to_nat i) l) l') 0 (zlen l)
      (fun i ar => do c <- rd l i ;; Ok (put junk mk c ar)) ar) as (ar' & E & l' & E' & F).
    - lia.
    - exists []. split; [rewrite app_nil_r; auto|constructor].
    - intros i a Hi (l' & -> & F). destruct (rd_ok l i Hi) as [c Ec]. rewrite Ec. cbn [bind]. unfold put. eexists. split; [reflexivity|].
      set (x := match c with Some a => a | None => junk (zlen (ar ++ map mk l')) end).
      exists (l' ++ [x]). split; [rewrite map_app, app_assoc; auto|].
      rewrite (firstn_snoc l i c Ec). apply filled_snoc; auto. unfold x. destruct c; auto.
    - exists l'. rewrite E, E'. split; auto. unfold zlen in F. rewrite Nat2Z.id, firstn_all in F. auto.
  Qed.

  Lemma bytes_ok (l : list byte) (ar : archive) count : count = zlen l -> foldR (fun ar i => do c <- rd l i ;; Ok (ar ++ [VByte c])) (zrange 0 count) ar = Ok (ar ++ map VByte l).
  Proof.
    intros ->.
    pose proof (zlen_nonneg l) as Hl. rewrite <- (forZ_foldR 0 (zlen l) (fun i ar => do c <- rd l i ;; Ok (ar ++ [VByte c]))).
    destruct (forZ_inv (fun i ar' => ar' = ar ++ map VByte (firstn (Z.to_nat i) l)) 0 (zlen l) (fun i ar => do c <- rd l i ;; Ok (ar ++ [VByte c])) ar) as (ar' & E & E').
    - lia.
    - simpl. rewrite app_nil_r. auto.
    - intros i a Hi ->. destruct (rd_ok l i Hi) as [c Ec]. rewrite Ec. cbn [bind]. eexists. split; [reflexivity|].
      rewrite (firstn_snoc l i c Ec), map_app, app_assoc. auto.
    - rewrite E, E'. unfold zlen. rewrite Nat2Z.id, firstn_all. auto.
  Qed.

  Lemma take_many_map {A} (take : archive -> R (A * archive)) mk (l : list A) rest : (forall a r, take (mk a :: r) = Ok (a, r)) ->
    take_many take (length l) (map mk l ++ rest) = Ok (l, rest).
  Proof using T byte. clear jz jt. intros H. induction l as [|a l IH]; simpl; auto. rewrite H. cbn [bind snd]. rewrite IH. auto. Qed.
  Lemma take_array_map {A} (take : archive -> R (A * archive)) mk (l : list A) count rest : (forall a r, take (mk a :: r) = Ok (a, r)) -> count = zlen l ->
    take_array take count (map mk l ++ rest) = Ok (l, rest).
  Proof using T byte. clear jz jt.
    intros H ->. unfold take_array. pose proof (zlen_nonneg l). destruct (Z.ltb_spec (zlen l) 0); [lia|].
    unfold zlen. rewrite Nat2Z.id. apply take_many_map; auto.
  Qed.

  (** ** buffers *)
  Definition sersz (b : buf) : Prop := b_snb b = zlen (b_sdata b) /\ b_snp b + 1 = zlen (b_nbscan b) /\ b_snp b + 1 = zlen (b_nzscan b).
  Definition same (b b' : buf) : Prop :=
    b_uninit b' = b_uninit b /\ b_nnz b' = b_nnz b /\ b_cap b' = b_cap b /\ b_nints b' = b_nints b /\ b_sdata b' = b_sdata b /\ b_snb b' = b_snb b /\ b_snp b' = b_snp b /\
    (exists v, b_value b' = map Some v /\ filled (b_value b) v) /\
    (exists w, b_bits b' = Some w /\ zlen w = b_nints b /\ forall w0, b_bits b = Some w0 -> w = w0) /\
    (exists v, b_cdata b' = map Some v /\ filled (b_cdata b) v) /\
    (exists v, b_cidx b' = map Some v /\ filled (b_cidx b) v) /\
    (exists v, b_nbscan b' = map Some v /\ filled (b_nbscan b) v) /\
    (exists v, b_nzscan b' = map Some v /\ filled (b_nzscan b) v).

  Lemma buf_trip ser thr cap (b : buf) ar : bwf0 ser thr cap b -> sersz b ->
    exists it b', buf_archive jz jt b ar = Ok (ar ++ it) /\ (forall rest, buf_restore (it ++ rest) = Ok (b', rest)) /\ same b b'.
  Proof.
    intros (H0 & Hc & Hi & Hv & Hd & Hx & Hb & _) (S1 & S2 & S3). pose proof (num_ints_bounds cap H0) as Hni.
    assert (zlen (bit_cells b) = b_nints b) as Lb.
    { unfold bit_cells. destruct (b_bits b) as [w|]; [unfold zlen in *; rewrite map_length; lia|]. rewrite zlen_repeat; lia. }
    unfold buf_archive. cbv zeta.
    set (ar0 := ar ++ [VBool (b_uninit b); VInt (b_nnz b); VInt (b_cap b); VInt (b_nints b); VInt (b_snb b); VInt (b_snp b)]).
    destruct (puts_ok jt VVal (b_value b) ar0 (b_cap b) ltac:(lia)) as (v & -> & Fv). cbn [bind].
    destruct (puts_ok jz VInt (bit_cells b) (ar0 ++ map VVal v) (b_nints b) ltac:(lia)) as (w & -> & Fw). cbn [bind].
    destruct (puts_ok jt VVal (b_cdata b) ((ar0 ++ map VVal v) ++ map VInt w) (b_cap b) ltac:(lia)) as (d & -> & Fd). cbn [bind].
    destruct (puts_ok jz VInt (b_cidx b) (((ar0 ++ map VVal v) ++ map VInt w) ++ map VVal d) (b_cap b) ltac:(lia)) as (x & -> & Fx). cbn [bind].
    rewrite (bytes_ok _ _ _ S1). cbn [bind].
    destruct (puts_ok jz VInt (b_nbscan b) (((((ar0 ++ map VVal v) ++ map VInt w) ++ map VVal d) ++ map VInt x) ++ map VByte (b_sdata b)) (b_snp b + 1) S2) as (nb & -> & Fnb). cbn [bind].
    destruct (puts_ok jz VInt (b_nzscan b) ((((((ar0 ++ map VVal v) ++ map VInt w) ++ map VVal d) ++ map VInt x) ++ map VByte (b_sdata b)) ++ map VInt nb) (b_snp b + 1) S3) as (nz & -> & Fnz).
    pose proof (filled_len _ _ Fv) as Lv. pose proof (filled_len _ _ Fw) as Lw. pose proof (filled_len _ _ Fd) as Ld. pose proof (filled_len _ _ Fx) as Lx.
    pose proof (filled_len _ _ Fnb) as Lnb. pose proof (filled_len _ _ Fnz) as Lnz.
    eexists. exists (mkbuf (b_uninit b) (b_nnz b) (b_cap b) (b_nints b) (map Some v) (Some w) (map Some d) (map Some x) (b_sdata b) (b_snb b) (b_snp b) (map Some nb) (map Some nz)).
    split; [unfold ar0; rewrite <- !app_assoc; reflexivity|]. split.
    - intros rest. unfold buf_restore. cbn [app take_bool take_int bind]. rewrite <- !app_assoc.
      rewrite (take_array_map take_val VVal v) by (auto; lia). cbn [bind].
      rewrite (take_array_map take_int VInt w) by (auto; lia). cbn [bind].
      rewrite (take_array_map take_val VVal d) by (auto; lia). cbn [bind].
      rewrite (take_array_map take_int VInt x) by (auto; lia). cbn [bind].
      rewrite (take_array_map take_byte VByte (b_sdata b)) by (auto; lia). cbn [bind].
      rewrite (take_array_map take_int VInt nb) by (auto; lia). cbn [bind].
      rewrite (take_array_map take_int VInt nz) by (auto; lia). cbn [bind]. reflexivity.
    - unfold same. cbn [b_uninit b_nnz b_cap b_nints b_sdata b_snb b_snp b_value b_bits b_cdata b_cidx b_nbscan b_nzscan]. conjs; auto; eauto.
      exists w. conjs; auto; [lia|]. intros w0 E0. unfold bit_cells in Fw. rewrite E0 in Fw. apply filled_somes in Fw. auto.
  Qed.

  Lemma zlen_somes {A} (l : list A) : zlen (map Some l) = zlen l.
  Proof using T byte. clear jz jt. unfold zlen. rewrite map_length. auto. Qed.
  Lemma same_bwf0 ser thr cap (b b' : buf) : same b b' -> bwf0 ser thr cap b -> bwf0 ser thr cap b'.
  Proof using T byte. clear jz jt.
    intros (E1 & E2 & E3 & E4 & E5 & E6 & E7 & (v & Ev & Fv) & (w & Ew & Lw & Hw) & (d & Ed & Fd) & (x & Ex & Fx) & (nb & Enb & Fnb) & (nz & Enz & Fnz)) (H0 & Hc & Hi & Hv & Hd & Hx & Hb & Hs).
    apply filled_len in Fv, Fd, Fx, Fnb, Fnz. unfold bwf0. rewrite Ev, Ew, Ed, Ex, Enb, Enz, !zlen_somes. conjs; try congruence.
    intros S. destruct (Hs S) as (S1 & S2 & S3 & S4). conjs; auto; congruence.
  Qed.
  Lemma same_sersz (b b' : buf) : same b b' -> sersz b -> sersz b'.
  Proof using T byte. clear jz jt.
    intros (E1 & E2 & E3 & E4 & E5 & E6 & E7 & _ & _ & _ & _ & (nb & Enb & Fnb) & (nz & Enz & Fnz)) (S1 & S2 & S3).
    apply filled_len in Fnb, Fnz. unfold sersz. rewrite E5, E6, E7, Enb, Enz, !zlen_somes. conjs; congruence.
  Qed.
  Lemma same_bwf ser thr cap (b b' : buf) : same b b' -> bwf ser thr cap b -> bwf ser thr cap b'.
  Proof using T byte. clear jz jt.
    intros S [B0 B1]. split; [eapply same_bwf0; eauto|]. destruct S as (E1 & _ & _ & _ & _ & _ & _ & _ & (w & Ew & Lw & Hw) & _).
    intros U. rewrite E1 in U. destruct (B1 U) as (w0 & E0 & W0). exists w. split; auto. rewrite (Hw w0 E0). auto.
  Qed.
  Lemma same_abs ser thr cap (b b' : buf) k o : same b b' -> bwf ser thr cap b -> babs b k = option_map Some o -> babs b' k = option_map Some o.
  Proof using T byte. clear jz jt.
    intros (E1 & E2 & E3 & E4 & E5 & E6 & E7 & (v & Ev & Fv) & (w & Ew & Lw & Hw) & _) [B0 B1] H. unfold babs in *. rewrite E1. destruct (b_uninit b); auto.
    destruct (B1 eq_refl) as (w0 & E0 & W0). rewrite E0 in H. rewrite Ew, (Hw w0 E0). unfold wabs in *. destruct (tb w0 k); auto.
    destruct (rd (b_value b) k) as [c|e] eqn:Ec.
    - destruct o as [a|]; [|discriminate]. injection H as ->. rewrite Ev, (filled_rd _ _ _ _ Fv Ec). auto.
    - destruct o; simpl in H; try discriminate. rewrite Ev. rewrite rd_oob; auto. rewrite zlen_somes, (filled_len _ _ Fv).
      intros B. destruct (rd_ok _ _ B). congruence.
  Qed.

  (** ** segments *)
  Definition ssz (s : sg) : Prop := (forall b, s_prop s = Some b -> sersz b) /\ Forall sersz (s_recv s) /\ Forall sersz (s_pool s).

  Lemma bufs_trip ser thr cap (l : list buf) : forall ar, Forall (bwf0 ser thr cap) l -> Forall sersz l ->
    exists it l', foldR (fun ar b => buf_archive jz jt b ar) l ar = Ok (ar ++ it) /\ (forall rest, take_many buf_restore (length l) (it ++ rest) = Ok (l', rest)) /\ Forall2 same l l'.
  Proof.
    induction l as [|b l IH]; intros ar W S; simpl.
    - exists [], []. rewrite app_nil_r. conjs; auto.
    - inversion W as [|? ? W1 W2]; inversion S as [|? ? S1 S2]; subst. destruct (buf_trip ser thr cap b ar W1 S1) as (it & b' & E & R & Sm). rewrite E. cbn [bind].
      destruct (IH (ar ++ it) W2 S2) as (it2 & l' & E2 & R2 & F). rewrite E2. exists (it ++ it2), (b' :: l'). split; [rewrite app_assoc; auto|]. split; [|constructor; auto].
      intros rest. rewrite <- app_assoc, R. cbn [bind snd]. rewrite R2. auto.
  Qed.
  Lemma take_md_ok m (rest : archive) : take_md (md_archive m ++ rest) = Ok (m, rest).
  Proof using T byte. clear jz jt. destruct m. reflexivity. Qed.
  Lemma take_mds (l : list send_md) (rest : archive) : take_many take_md (length l) (concat (map md_archive l) ++ rest) = Ok (l, rest).
  Proof using T byte. clear jz jt. induction l as [|m l IH]; simpl; auto. destruct m. simpl. rewrite IH. auto. Qed.
  Lemma take_list_many {A} (take : archive -> R (A * archive)) {B} (l : list B) (l' : list A) it (rest : archive) :
    take_many take (length l) (it ++ rest) = Ok (l', rest) -> take_list take (VInt (zlen l) :: it ++ rest) = Ok (l', rest).
  Proof using T byte. clear jz jt.
    intros H. unfold take_list. cbn [take_int bind fst snd]. unfold take_array. pose proof (zlen_nonneg l). destruct (Z.ltb_spec (zlen l) 0); [lia|].
    unfold zlen. rewrite Nat2Z.id. auto.
  Qed.

  (** what a restored segment has in common with the archived one *)
  Definition alike (s s' : sg) : Prop :=
    s_cap s' = s_cap s /\ s_nints s' = s_nints s /\ s_rmd s' = s_rmd s /\ s_qmd s' = s_qmd s /\
    match s_prop s, s_prop s' with Some b, Some b' => same b b' | None, None => True | _, _ => False end /\
    Forall2 same (s_recv s) (s_recv s') /\ Forall2 same (s_pool s) (s_pool s').

  Lemma seg_trip ser thr (s : sg) junk fresh ar : swf ser thr s -> ssz s ->
    exists it s', seg_archive jz jt s ar = Ok (ar ++ it) /\ (forall rest, seg_restore junk fresh (it ++ rest) = Ok (s', rest)) /\ alike s s'.
  Proof.
    intros (H0 & H1 & Hp & Hr & Hq) (Sp & Sr & Sq). unfold seg_archive.
    set (hd := [VBool (match s_prop s with None => true | Some _ => false end); VInt (s_cap s); VInt (s_nints s)] : archive).
    assert (exists itp p', match s_prop s with Some b => buf_archive jz jt b (ar ++ hd) | None => Ok (ar ++ hd) end = Ok ((ar ++ hd) ++ itp) /\
      (forall rest, (if match s_prop s with None => true | Some _ => false end then Ok (None, itp ++ rest) else do r <- buf_restore (itp ++ rest) ;; Ok (Some (fst r), snd r)) = Ok (p', rest)) /\
      match s_prop s, p' with Some b, Some b' => same b b' | None, None => True | _, _ => False end) as (itp & p' & Ep & Rp & Pp).
    { destruct (s_prop s) as [b|].
      - destruct Hp as [Hp _]. destruct (buf_trip ser thr _ b (ar ++ hd) Hp (Sp b eq_refl)) as (it & b' & E & R & Sm). exists it, (Some b'). conjs; auto.
        intros rest. rewrite R. auto.
      - exists [], None. rewrite app_nil_r. conjs; auto. }
    rewrite Ep. cbn [bind].
    destruct (bufs_trip ser thr _ (s_recv s) (((((ar ++ hd) ++ itp) ++ md_archive (s_rmd s)) ++ VInt (zlen (s_qmd s)) :: concat (map md_archive (s_qmd s))) ++ [VInt (zlen (s_recv s))]) Hr Sr) as (itr & rc & Er & Rr & Fr).
    rewrite Er. cbn [bind].
    destruct (bufs_trip ser thr _ (s_pool s) (((((((ar ++ hd) ++ itp) ++ md_archive (s_rmd s)) ++ VInt (zlen (s_qmd s)) :: concat (map md_archive (s_qmd s))) ++ [VInt (zlen (s_recv s))]) ++ itr) ++ [VInt (zlen (s_pool s))]) Hq Sq) as (itq & pl & Eq & Rq & Fq).
    rewrite Eq. eexists. exists (mkseg (s_cap s) (s_nints s) p' (s_rmd s) (s_qmd s) rc pl junk fresh).
    split; [rewrite <- !app_assoc; reflexivity|]. split.
    - intros rest. unfold seg_restore, hd. cbn [app take_bool take_int bind]. rewrite <- !app_assoc. rewrite Rp. cbn [bind].
      rewrite take_md_ok. cbn [bind]. repeat (progress (cbn [app]; rewrite <- ?app_assoc)).
      rewrite (take_list_many take_md (s_qmd s) (s_qmd s)) by apply take_mds. cbn [bind].
      rewrite (take_list_many buf_restore (s_recv s) rc) by apply Rr. cbn [bind].
      rewrite (take_list_many buf_restore (s_pool s) pl) by apply Rq. cbn [bind]. reflexivity.
    - unfold alike. cbn [s_cap s_nints s_prop s_rmd s_qmd s_recv s_pool]. conjs; auto.
  Qed.

  Lemma Forall2_Forall {A B} (P : A -> Prop) (Q : B -> Prop) (R : A -> B -> Prop) l l' : (forall a b, R a b -> P a -> Q b) -> Forall2 R l l' -> Forall P l -> Forall Q l'.
  Proof using T byte. clear jz jt. intros H F. induction F; intros G; inversion G; subst; constructor; eauto. Qed.
  Lemma alike_swf ser thr (s s' : sg) : alike s s' -> swf ser thr s -> swf ser thr s'.
  Proof using T byte. clear jz jt.
    intros (Ec & Ei & _ & _ & Ep & Er & Eq) (H0 & H1 & Hp & Hr & Hq). unfold swf. rewrite Ec, Ei. conjs; auto.
    - destruct (s_prop s) as [b|], (s_prop s') as [b'|]; try contradiction; auto. eapply same_bwf; eauto.
    - eapply Forall2_Forall; [|exact Er|exact Hr]. intros a b. apply same_bwf0.
    - eapply Forall2_Forall; [|exact Eq|exact Hq]. intros a b. apply same_bwf0.
  Qed.
  Lemma alike_abs ser thr (s s' : sg) (M : Z -> option T) : alike s s' -> swf ser thr s -> (forall k, sabs s k = option_map Some (M (k + 1))) ->
    forall k, sabs s' k = option_map Some (M (k + 1)).
  Proof using T byte. clear jz jt.
    intros (Ec & Ei & _ & _ & Ep & Er & Eq) (H0 & H1 & Hp & Hr & Hq) A k. specialize (A k). unfold sabs in *.
    destruct (s_prop s) as [b|], (s_prop s') as [b'|]; try contradiction; auto. eapply same_abs; eauto.
  Qed.
  Lemma alike_nnz (s s' : sg) : alike s s' -> eff_nnz s' = eff_nnz s.
  Proof using T byte. clear jz jt.
    intros (Ec & Ei & _ & _ & Ep & Er & Eq). unfold eff_nnz. destruct (s_prop s) as [b|], (s_prop s') as [b'|]; try contradiction; auto.
    destruct Ep as (E1 & E2 & _). rewrite E1, E2. auto.
  Qed.

  (** operations keep the sizes of the archives of buffers *)
  Lemma ssz_new n junk fresh : ssz (@new_seg T byte n junk fresh).
  Proof using T byte. clear jz jt. split; [|split]; [intros b H; discriminate|constructor|constructor]. Qed.
  Lemma sersz_new t cap nints junk fresh : 0 <= t -> sersz (@new_buffer T byte t cap nints junk fresh).
  Proof using T byte. clear jz jt. intros H. unfold sersz, new_buffer. simpl. rewrite !zlen_repeat. unfold zlen. simpl. lia. Qed.
  Lemma ssz_alloc t (s : sg) : 0 <= t -> ssz s -> ssz (seg_alloc t s).
  Proof using T byte. clear jz jt.
    intros Ht S. unfold seg_alloc. destruct (s_prop s) as [b|] eqn:E; auto. destruct S as (S1 & S2 & S3). split; [|split]; auto. simpl.
    intros b Hb. injection Hb as <-. apply sersz_new. auto.
  Qed.
  Lemma ssz_set_prop (s : sg) b : ssz s -> sersz b -> ssz (set_prop (Some b) s).
  Proof using T byte. clear jz jt. intros (S1 & S2 & S3) H. split; [|split]; auto. simpl. intros b' Hb. injection Hb as <-. auto. Qed.
  Lemma ssz_prop (s : sg) b : ssz s -> prop s = Ok b -> sersz b.
  Proof using T byte. clear jz jt. intros (S1 & _) H. unfold prop in H. destruct (s_prop s); [|discriminate]. oki H. auto. Qed.
  Lemma ssz_init t (s s' : sg) : 0 <= t -> ssz s -> seg_initialize (seg_alloc t s) = Ok s' -> ssz s'.
  Proof using T byte. clear jz jt.
    intros Ht S H. apply (ssz_alloc t s Ht) in S. unfold seg_initialize in H. apply bind_Ok in H as (b & Eb & H). oki H.
    apply ssz_set_prop; auto. apply (ssz_prop _ _ S) in Eb. unfold buf_initialize. destruct (b_uninit b); exact Eb.
  Qed.
  Lemma ssz_setAll t c (s s' : sg) : 0 <= t -> ssz s -> seg_setAll t c s = Ok s' -> ssz s'.
  Proof using T byte. clear jz jt.
    intros Ht S H. apply (ssz_alloc t s Ht) in S. unfold seg_setAll in H. apply bind_Ok in H as (b & Eb & H). apply (ssz_prop _ _ S) in Eb.
    destruct (s_nints (seg_alloc t s) =? 0); [oki H; apply ssz_set_prop; auto|].
    apply bind_Ok in H as (w & Ew & H). apply bind_Ok in H as (v & Ev & H). oki H. apply ssz_set_prop; auto.
  Qed.
  Lemma ssz_sop t (s s' : sg) o : 0 <= t -> ssz s -> run_sop t s o = Ok s' -> ssz s'.
  Proof using T byte. clear jz jt.
    intros Ht S H. destruct o as [id a|id|a| |a]; simpl in H.
    - unfold seg_set in H. apply bind_Ok in H as (s1 & E1 & H). apply (ssz_init t s s1 Ht S) in E1. apply bind_Ok in H as (b & Eb & H). apply (ssz_prop _ _ E1) in Eb.
      repeat (apply bind_Ok in H as (? & ? & H)). oki H. apply ssz_set_prop; auto. destruct x0; exact Eb.
    - unfold seg_unset in H. apply bind_Ok in H as (s1 & E1 & H). apply (ssz_init t s s1 Ht S) in E1. apply bind_Ok in H as (b & Eb & H). apply (ssz_prop _ _ E1) in Eb.
      repeat (apply bind_Ok in H as (? & ? & H)). oki H. apply ssz_set_prop; auto. destruct x0; exact Eb.
    - eapply ssz_setAll; eauto.
    - oki H. destruct S as (S1 & S2 & S3). unfold seg_set_uninitialized, seg_set_uninitialized_received. simpl.
      assert (Forall sersz (s_pool s ++ map (set_uninit true) (s_recv s))) as F.
      { apply Forall_app. split; auto. apply Forall_map. exact S2. }
      destruct (s_prop s) as [b|] eqn:E; (split; [|split]); simpl; auto.
      + intros b' Hb. injection Hb as <-. exact (S1 b eq_refl).
      + intros b' Hb. congruence.
    - apply bind_Ok in H as (s1 & E1 & H). apply (ssz_setAll t _ s s1 Ht S) in E1. unfold seg_zero in H. apply bind_Ok in H as (b & Eb & H). oki H.
      apply ssz_set_prop; auto. apply (ssz_prop _ _ E1) in Eb. exact Eb.
  Qed.
  Lemma ssz_sops t ops : forall s s' : sg, 0 <= t -> ssz s -> run_sops t ops s = Ok s' -> ssz s'.
  Proof using T byte. clear jz jt.
    induction ops as [|o ops IH]; intros s s' Ht S H; unfold run_sops in *; simpl in H; [oki H; auto|].
    apply bind_Ok in H as (s1 & E1 & H). eapply (IH s1); eauto. eapply ssz_sop; eauto.
  Qed.
End VAP.

(** ** vectors *)
Section VAV.
  Context {T byte : Type}.
  Notation archive := (list (vitem T byte)).
  Notation sg := (seg T byte).
  Variables n ns nr : Z.
  Hypothesis Hn : 0 <= n.
  Hypothesis Hs : 1 <= ns.
  Hypothesis Hr : 1 <= nr.
  Notation rwf := (rwf (T:=T) (byte:=byte) false 1 n ns).
  Notation rholds := (rholds (T:=T) (byte:=byte) n ns nr).
  Notation owner id := (ow nr (vpart n ns id)).

  Lemma Forall_upd {A} (P : A -> Prop) l k a : Forall P l -> P a -> Forall P (upd l k a).
  Proof using. intros F. revert k. induction F; intros [|k] Ha; simpl; constructor; auto. Qed.
  Lemma ssz_at_owner r idx f (segs segs' : list sg) : (forall i s s', ssz s -> f i s = Ok s' -> ssz s') -> Forall ssz segs -> at_owner n ns nr r idx f segs = Ok segs' -> Forall ssz segs'.
  Proof using T byte. clear Hn Hs Hr.
    intros Hf F H. unfold at_owner in H. apply bind_Ok in H as (p & _ & H). apply bind_Ok in H as (u & _ & H). apply bind_Ok in H as (o & _ & H).
    destruct (o =? r); [|oki H; auto]. apply bind_Ok in H as (s & Es & H). apply bind_Ok in H as (u' & _ & H). apply bind_Ok in H as (a & _ & H). apply bind_Ok in H as (s' & Es' & H).
    apply wr_Ok in H as [_ ->]. apply Forall_upd; auto. eapply Hf; eauto. apply rd_In in Es. rewrite Forall_forall in F. auto.
  Qed.
  Lemma ssz_each_owned r f (segs segs' : list sg) : (forall i s s', ssz s -> f i s = Ok s' -> ssz s') -> Forall ssz segs -> each_owned ns nr r f segs = Ok segs' -> Forall ssz segs'.
  Proof using T byte. clear Hn Hs Hr.
    intros Hf F H. unfold each_owned in H. apply mapR_Ok in H. induction H as [|j s l l' E H IH]; constructor; auto.
    apply bind_Ok in E as (s0 & Es & E). apply rd_In in Es. rewrite Forall_forall in F. apply bind_Ok in E as (o & _ & E). destruct (o =? r); [eapply Hf; eauto|oki E; auto].
  Qed.
  Lemma ssz_vop t r (segs segs' : list sg) o : 0 <= t -> Forall ssz segs -> run_vop n ns nr t r segs o = Ok segs' -> Forall ssz segs'.
  Proof using T byte. clear Hn Hs Hr.
    intros Ht F H. destruct o as [id a|id|a| |a]; simpl in H.
    - eapply ssz_at_owner; [|exact F|exact H]. intros i s s' S E. exact (ssz_sop t s s' (OSet i a) Ht S E).
    - eapply ssz_at_owner; [|exact F|exact H]. intros i s s' S E. exact (ssz_sop t s s' (OUnset i) Ht S E).
    - eapply ssz_each_owned; [|exact F|exact H]. intros i s s' S E. exact (ssz_sop t s s' (OSetAll a) Ht S E).
    - eapply ssz_each_owned; [|exact F|exact H]. intros i s s' S E. exact (ssz_sop t s s' OClear Ht S E).
    - unfold vec_set_inactive in H. apply bind_Ok in H as (segs1 & E1 & H).
      assert (Forall ssz segs1) as F1. { eapply ssz_each_owned; [|exact F|exact E1]. intros i s s' S E. exact (ssz_sop t s s' (OSetAll a) Ht S E). }
      eapply ssz_each_owned; [|exact F1|exact H]. intros i s s' S E. unfold seg_zero in E. apply bind_Ok in E as (b & Eb & E). oki E. apply ssz_set_prop; auto.
      apply (ssz_prop _ _ S) in Eb. exact Eb.
  Qed.
  Lemma ssz_vops t r ops : forall segs segs' : list sg, 0 <= t -> Forall ssz segs -> run_vops n ns nr t r ops segs = Ok segs' -> Forall ssz segs'.
  Proof using T byte. clear Hn Hs Hr.
    induction ops as [|o ops IH]; intros s s' Ht S H; unfold run_vops in *; simpl in H; [oki H; auto|].
    apply bind_Ok in H as (s1 & E1 & H). eapply (IH s1); eauto. eapply ssz_vop; eauto.
  Qed.

  Variable jz : Z -> Z.
  Variable jt : Z -> T.
  Lemma segs_trip junk fresh (l : list sg) : forall ar, Forall (swf false 1) l -> Forall ssz l ->
    exists it l', foldR (fun ar s => seg_archive jz jt s ar) l ar = Ok (ar ++ it) /\ (forall rest, take_many (seg_restore junk fresh) (length l) (it ++ rest) = Ok (l', rest)) /\ Forall2 alike l l'.
  Proof using T byte. clear n ns nr Hn Hs Hr.
    induction l as [|b l IH]; intros ar W S; simpl.
    - exists [], []. rewrite app_nil_r. conjs; auto.
    - inversion W as [|? ? W1 W2]; inversion S as [|? ? S1 S2]; subst. destruct (seg_trip jz jt false 1 b junk fresh ar W1 S1) as (it & b' & E & R & Sm). rewrite E. cbn [bind].
      destruct (IH (ar ++ it) W2 S2) as (it2 & l' & E2 & R2 & F). rewrite E2. exists (it ++ it2), (b' :: l'). split; [rewrite app_assoc; auto|]. split; [|constructor; auto].
      intros rest. rewrite <- app_assoc, R. cbn [bind snd]. rewrite R2. auto.
  Qed.
  Lemma take_ints (l : list Z) (rest : archive) : take_list take_int (VInt (zlen l) :: map VInt l ++ rest) = Ok (l, rest).
  Proof using T byte. clear n ns nr Hn Hs Hr jz jt. apply take_list_many. apply take_many_map. auto. Qed.

  Definition same_shape (v v' : vobj T byte) : Prop :=
    vo_nsegments v' = vo_nsegments v /\ vo_n v' = vo_n v /\ vo_tiles v' = vo_tiles v /\ vo_nrank v' = vo_nrank v /\ vo_myrank v' = vo_myrank v /\ vo_nodes v' = vo_nodes v /\ vo_starts v' = vo_starts v.

  Lemma vec_trip junk fresh (v : vobj T byte) : Forall (swf false 1) (vo_segs v) -> Forall ssz (vo_segs v) ->
    exists ar v', vec_archive jz jt v [] = Ok ar /\ (forall rest, vec_restore junk fresh (ar ++ rest) = Ok (v', rest)) /\ same_shape v v' /\ Forall2 alike (vo_segs v) (vo_segs v').
  Proof using T byte. clear n ns nr Hn Hs Hr.
    intros W S. unfold vec_archive. cbv zeta.
    set (h := [VInt (vo_nsegments v); VInt (vo_n v); VInt (vo_tiles v); VInt (vo_nrank v); VInt (vo_myrank v)] : archive).
    destruct (segs_trip junk fresh (vo_segs v) (((([] ++ h) ++ VInt (zlen (vo_nodes v)) :: map VInt (vo_nodes v)) ++ VInt (zlen (vo_starts v)) :: map VInt (vo_starts v)) ++ [VInt (zlen (vo_segs v))]) W S) as (it & l' & E & R & F).
    rewrite E. eexists. exists (mkVO (vo_nsegments v) (vo_n v) (vo_tiles v) (vo_nrank v) (vo_myrank v) (vo_nodes v) (vo_starts v) l'). split; [reflexivity|]. split; [|split].
    - intros rest. unfold h, vec_restore. repeat (progress (cbn [app]; rewrite <- ?app_assoc)). cbn [take_int bind]. rewrite take_ints. cbn [bind]. rewrite take_ints. cbn [bind].
      rewrite (take_list_many (seg_restore junk fresh) (vo_segs v) l') by apply R. reflexivity.
    - unfold same_shape. simpl. auto 10.
    - simpl. auto.
  Qed.

  Lemma Forall2_rd {A B} (Q : A -> B -> Prop) l l' i b : Forall2 Q l l' -> rd l' i = Ok b -> exists a, rd l i = Ok a /\ Q a b.
  Proof using.
    intros F E. apply rd_nth in E as [B0 E]. revert E. assert (forall k, nth_error l' k = Some b -> exists a, nth_error l k = Some a /\ Q a b) as G.
    { induction F as [|x y l l' Hxy F IH]; intros [|k] E; simpl in *; try discriminate; eauto. injection E as <-. eauto. }
    intros E. destruct (G _ E) as (a & Ea & Ha). exists a. split; auto. apply rd_nth. auto.
  Qed.
  Lemma rwf_alike (segs segs' : list sg) : Forall2 alike segs segs' -> rwf segs -> rwf segs'.
  Proof using T byte. clear Hn Hs Hr jz jt.
    intros F [L W]. split. { rewrite <- L. unfold zlen. clear -F. induction F; simpl; lia. }
    intros j s Es. destruct (Forall2_rd _ _ _ _ _ F Es) as (s0 & E0 & A). destruct (W j s0 E0) as [W0 C0]. split; [eapply alike_swf; eauto|].
    destruct A as (A & _). congruence.
  Qed.
  Lemma rholds_alike r (segs segs' : list sg) M : Forall2 alike segs segs' -> rwf segs -> rholds r segs M -> rholds r segs' M.
  Proof using T byte. clear Hn Hs Hr jz jt.
    intros F [L W] H j s Es O. destruct (Forall2_rd _ _ _ _ _ F Es) as (s0 & E0 & A). destruct (W j s0 E0) as [W0 C0].
    apply (alike_abs false 1 s0 s (restr n ns M j) A W0). intros k. apply (H j s0 E0 O).
  Qed.
End VAV.

(** ** histories *)
(** rank [r]: construct a vector, run operations, archive it *)
Definition archive_after {T byte} (jz : Z -> Z) (jt : Z -> T) (n ns nr : Z) (junk : Z -> Z) (fresh : option T) (threads r : Z) (ops : list (sop T)) : R (vobj T byte * list (vitem T byte)) :=
  do segs <- vec_history n ns nr junk fresh threads r ops ;;
  do v <- vec_object n ns nr r segs ;;
  do ar <- vec_archive jz jt v [] ;;
  Ok (v, ar).
(** operations on a vector object go by its own members *)
Definition run_on {T byte} (threads : Z) (ops : list (sop T)) (v : vobj T byte) : R (list (seg T byte)) :=
  run_vops (vo_n v) (vo_nsegments v) (vo_nrank v) threads (vo_myrank v) ops (vo_segs v).

Section VAF.
  Context {T byte : Type}.
  Variables n ns nr : Z.
  Hypothesis Hn : 0 <= n.
  Hypothesis Hs : 1 <= ns.
  Hypothesis Hr : 1 <= nr.
  Notation rwf := (rwf (T:=T) (byte:=byte) false 1 n ns).
  Notation rholds := (rholds (T:=T) (byte:=byte) n ns nr).
  Notation owner id := (ow nr (vpart n ns id)).

  Lemma rank_trip jz jt junk fresh junk2 fresh2 threads r (ops : list (sop T)) : 1 <= threads -> Forall (sop_in_range n) ops ->
    exists (v : vobj T byte) ar v', archive_after jz jt n ns nr junk fresh threads r ops = Ok (v, ar) /\ (forall rest, vec_restore junk2 fresh2 (ar ++ rest) = Ok (v', rest)) /\
      same_shape v v' /\ vo_n v = n /\ vo_nsegments v = ns /\ vo_nrank v = nr /\ vo_myrank v = r /\ rwf (vo_segs v') /\ rholds r (vo_segs v') (spec_sops n ops).
  Proof.
    intros Ht Ho. unfold archive_after. destruct (@vec_history_spec T byte n ns nr Hn Hs Hr junk fresh threads r ops Ht Ho) as (segs & E & W & H). rewrite E. cbn [bind].
    assert (Forall ssz segs) as S.
    { unfold vec_history in E. apply bind_Ok in E as (segs0 & E0 & E). eapply ssz_vops; [| |exact E]; [lia|].
      destruct (@rwf_new T byte false 1 n ns nr Hn Hs junk fresh) as (segs1 & E1 & [L1 _] & I1). assert (segs1 = segs0) by congruence. subst segs1.
      apply Forall_forall. intros s Hin. apply In_rd in Hin as (j & Hj & Ej). rewrite I1 in Ej by lia. oki Ej. apply ssz_new. }
    assert (Forall (swf false 1) segs) as Sw.
    { apply Forall_forall. intros s Hin. apply In_rd in Hin as (j & Hj & Ej). destruct W as [_ W]. apply (W j s Ej). }
    unfold vec_object. destruct (mapR_zrange (vown ns nr) (fun _ _ => True) ns ltac:(lia)) as (nodes & En & _); [intros j Hj; rewrite (vown_ok ns nr Hr) by lia; eauto|]. rewrite En. cbn [bind].
    destruct (vec_trip jz jt junk2 fresh2 (mkVO ns n ns nr r nodes (Layout.starts n ns) segs) Sw S) as (ar & v' & Ea & Re & Sh & F). rewrite Ea. cbn [bind].
    eexists. exists ar, v'. split; [reflexivity|]. simpl in F. conjs; auto.
    - eapply rwf_alike; eauto.
    - eapply rholds_alike; eauto.
  Qed.

  Lemma vector_archive (jz : Z -> Z -> Z) (jt : Z -> Z -> T) junk fresh (junk2 : Z -> Z) (fresh2 : option T) threads (ops : Z -> list (sop T)) :
    1 <= threads -> (forall r, 0 <= r < nr -> Forall (sop_in_range n) (ops r)) ->
    exists saved : list (vobj T byte * list (vitem T byte)), mapR (fun r => archive_after (jz r) (jt r) n ns nr junk fresh threads r (ops r)) (zrange 0 nr) = Ok saved /\
    exists loaded, mapR (fun r => do s <- rd saved r ;; do x <- vec_restore (junk2 r) fresh2 (snd s) ;; Ok (fst x)) (zrange 0 nr) = Ok loaded /\
      (forall r s v, rd saved r = Ok s -> rd loaded r = Ok v -> same_shape (fst s) v) /\
    exists own, (forall id r, 1 <= id <= n -> vec_node_owner n ns nr r id = Ok (own id =? r)) /\
    forall t2 (ops2 : Z -> list (sop T)), 1 <= t2 -> (forall r, 0 <= r < nr -> Forall (sop_in_range n) (ops2 r)) ->
      let M := fun id => spec_sops n (ops (own id) ++ ops2 (own id)) id in
      exists v2, mapR (fun r => do v <- rd loaded r ;; run_on t2 (ops2 r) v) (zrange 0 nr) = Ok v2 /\
        vec_getNNZ ns nr v2 = Ok (zlen (members n M)) /\
        forall r segs id a d, rd v2 r = Ok segs -> 1 <= id <= n -> M id = Some a -> vec_get n ns nr r id d segs = Ok (if own id =? r then Some a else d).
  Proof.
    intros Ht Ho.
    destruct (mapR_seq_all (fun r => archive_after (jz r) (jt r) n ns nr junk fresh threads r (ops r)) (fun r s => exists v', vec_restore (junk2 r) fresh2 (snd s) = Ok (v', []) /\ same_shape (fst s) v' /\
      vo_n v' = n /\ vo_nsegments v' = ns /\ vo_nrank v' = nr /\ vo_myrank v' = r /\ rwf (vo_segs v') /\ rholds r (vo_segs v') (spec_sops n (ops r))) nr) as (saved & Es & Ls & Is); [lia| |].
    { intros r Hb. destruct (rank_trip (jz r) (jt r) junk fresh (junk2 r) fresh2 threads r (ops r) Ht (Ho r Hb)) as (v & ar & v' & E & Re & Sh & V1 & V2 & V3 & V4 & W & H).
      exists (v, ar). split; auto. exists v'. cbn [fst snd]. specialize (Re []). rewrite app_nil_r in Re. pose proof Sh as (S1 & S2 & S3 & S4 & S5 & _). conjs; auto; congruence. }
    exists saved. split; auto.
    destruct (mapR_seq_all (fun r => do s <- rd saved r ;; do x <- vec_restore (junk2 r) fresh2 (snd s) ;; Ok (fst x)) (fun r v => (forall s, rd saved r = Ok s -> same_shape (fst s) v) /\
      vo_n v = n /\ vo_nsegments v = ns /\ vo_nrank v = nr /\ vo_myrank v = r /\ rwf (vo_segs v) /\ rholds r (vo_segs v) (spec_sops n (ops r))) nr) as (loaded & El & Ll & Il); [lia| |].
    { intros r Hb. destruct (rd_ok saved r) as [s E]; [lia|]. rewrite E. cbn [bind]. destruct (Is r s E) as (_ & v' & Re & Sh & V1 & V2 & V3 & V4 & W & H). rewrite Re. cbn [bind fst].
      exists v'. split; auto. conjs; auto. intros s' Es'. assert (s' = s) by congruence. subst s'. auto. }
    exists loaded. split; auto. split; [intros r s v E1 E2; destruct (Il r v E2) as (_ & S & _); auto|].
    exists (fun id => owner id). split; [intros; apply node_owner_spec; auto|].
    intros t2 ops2 Ht2 Ho2 M.
    destruct (mapR_seq_all (fun r => do v <- rd loaded r ;; run_on t2 (ops2 r) v) (fun r segs => rwf segs /\ rholds r segs (spec_sops n (ops r ++ ops2 r))) nr) as (v2 & E2 & L2 & I2); [lia| |].
    { intros r Hb. destruct (rd_ok loaded r) as [v E]; [lia|]. rewrite E. cbn [bind]. destruct (Il r v E) as (_ & _ & V1 & V2 & V3 & V4 & W & H). unfold run_on. rewrite V1, V2, V3, V4.
      destruct (run_vops_spec false 1 n ns nr Hn Hs Hr t2 r (ops2 r) (vo_segs v) _ (thok1 _ Ht2) W H (Ho2 r Hb)) as (segs & E' & W' & H' & _).
      exists segs. split; auto. split; auto. unfold spec_sops in *. rewrite fold_left_app. auto. }
    exists v2. split; auto.
    assert (vwf false 1 n ns nr v2) as W by (split; auto; intros r segs Er; apply (I2 r segs Er)).
    assert (vholds n ns nr v2 M) as H. { apply (vholds_ranks n ns nr Hn Hs v2 (fun r => spec_sops n (ops r ++ ops2 r))); auto. intros r segs Er. apply (I2 r segs Er). }
    split; [eapply getNNZ_spec; eauto|]. intros r segs id a d Er Hi Ma. destruct W as [_ W]. eapply vec_get_spec; eauto.
  Qed.

  (** ** one segment, archived after any history, continued afterwards or sent *)
  Lemma segment_archive ser thr jz jt junk2 fresh2 c t (ops : list (sop T)) (s : seg T byte) : 0 <= c -> (ser = true -> t = thr) -> built c t ops s ->
    exists ar s', seg_archive jz jt s [] = Ok ar /\ (forall rest, seg_restore junk2 fresh2 (ar ++ rest) = Ok (s', rest)) /\
      alike s s' /\ swf ser thr s' /\ s_cap s' = c /\ (forall k, sabs s' k = option_map Some (spec_sops c ops (k + 1))) /\ s_recv s' = [] /\ s_qmd s' = [].
  Proof.
    intros Hc Ht B. destruct (built_wf ser thr c t ops s Hc Ht B) as (Tk & W & C & A & R & Q).
    assert (ssz s) as S. { destruct B as (T1 & F & junk & fresh & E). eapply ssz_sops; [| |exact E]; [lia|apply ssz_new]. }
    destruct (seg_trip jz jt ser thr s junk2 fresh2 [] W S) as (it & s' & E & Re & Al). simpl in E. exists it, s'. conjs; auto.
    - eapply alike_swf; eauto.
    - destruct Al as (Al & _). congruence.
    - eapply alike_abs; eauto.
    - destruct Al as (_ & _ & _ & _ & _ & F & _). rewrite R in F. inversion F. auto.
    - destruct Al as (_ & _ & _ & Al & _). congruence.
  Qed.

  Lemma alike_ready (s s' : seg T byte) b : alike s s' -> s_prop s = Some b -> b_uninit b = false -> exists b', s_prop s' = Some b' /\ b_uninit b' = false.
  Proof using T byte.
    clear. intros (_ & _ & _ & _ & Ep & _) E U. rewrite E in Ep. destruct (s_prop s') as [b'|]; [|contradiction]. exists b'. split; auto. destruct Ep as (Ep & _). congruence.
  Qed.
  Lemma alike_getNNZ (s s' : seg T byte) : alike s s' -> seg_getNNZ s' = seg_getNNZ s.
  Proof using T byte.
    clear. intros (_ & _ & _ & _ & Ep & _). unfold seg_getNNZ, prop. destruct (s_prop s), (s_prop s'); try contradiction; auto. destruct Ep as (_ & Ep & _). simpl. congruence.
  Qed.
  Lemma touched t ops o (s s' : seg T byte) c M : 1 <= t -> swf false 1 s -> s_cap s = c -> Forall (sop_in_range c) (ops ++ [o]) -> (forall k, sabs s k = option_map Some (M (k + 1))) ->
    run_sops t (ops ++ [o]) s = Ok s' -> o <> OClear -> exists b, s_prop s' = Some b /\ b_uninit b = false.
  Proof using T byte.
    clear n ns nr Hn Hs Hr. intros Ht W C F A E No. unfold run_sops in E. rewrite foldR_app in E. apply bind_Ok in E as (s1 & E1 & E2). cbn [foldR] in E2.
    apply Forall_app in F as [F1 F2]. inversion F2 as [|? ? Fo _]; subst.
    destruct (run_sops_spec false 1 t (s_cap s) ops s M (thok1 _ Ht) W eq_refl F1 A) as (s1' & E1' & W1 & C1 & A1 & _). unfold run_sops in E1'. assert (s1' = s1) by congruence. subst s1'.
    destruct (run_sop_spec false 1 t (s_cap s) s1 _ o (thok1 _ Ht) W1 C1 Fo A1) as (s2 & E2' & _ & _ & _ & _ & Tc & _). rewrite E2' in E2. cbn [bind] in E2. oki E2.
    apply Tc. destruct o; simpl; auto.
  Qed.

  Lemma segment_archive_continues jz jt junk2 fresh2 c t (ops : list (sop T)) (s : seg T byte) : 0 <= c -> built c t ops s ->
    exists ar s', seg_archive jz jt s [] = Ok ar /\ (forall rest, seg_restore junk2 fresh2 (ar ++ rest) = Ok (s', rest)) /\ seg_getNNZ s' = seg_getNNZ s /\
    forall t2 ops2, 1 <= t2 -> Forall (sop_in_range c) ops2 -> exists s2, run_sops t2 ops2 s' = Ok s2 /\
      seg_compute_nnz s2 = Ok (zlen (members c (spec_sops c (ops ++ ops2)))) /\
      ((exists l o, ops ++ ops2 = l ++ [o] /\ o <> OClear) -> shows c s2 (spec_sops c (ops ++ ops2))).
  Proof using T byte.
    clear n ns nr Hn Hs Hr. intros Hc B. destruct (segment_archive false 1 jz jt junk2 fresh2 c t ops s Hc ltac:(discriminate) B) as (ar & s' & E & Re & Al & W & C & A & _).
    exists ar, s'. conjs; auto; [apply alike_getNNZ; auto|]. intros t2 ops2 Ht2 F2.
    destruct (run_sops_spec false 1 t2 c ops2 s' _ (thok1 _ Ht2) W C F2 A) as (s2 & E2 & W2 & C2 & A2 & _). exists s2.
    assert (forall k, sabs s2 k = option_map Some (spec_sops c (ops ++ ops2) (k + 1))) as A2'. { intros k. rewrite A2. unfold spec_sops. rewrite fold_left_app. auto. }
    conjs; auto; [eapply compute_nnz_members; eauto|]. intros (l & o & El & No).
    assert (exists b, s_prop s2 = Some b /\ b_uninit b = false) as (b & Eb & Ub).
    { destruct (rev ops2) as [|o' rl] eqn:Er.
      - assert (ops2 = []) by (apply (f_equal (@rev _)) in Er; rewrite rev_involutive in Er; auto). subst ops2. unfold run_sops in E2. cbn [foldR] in E2. oki E2.
        rewrite app_nil_r in El. destruct B as (T1 & F1 & junk & fresh & E1). rewrite El in E1, F1.
        destruct (touched t l o (new_seg c junk fresh) s c (fun _ => None) T1 (swf_new false 1 c junk fresh Hc) eq_refl F1 (fun _ => eq_refl) E1 No) as (b & Eb & Ub).
        exact (alike_ready s _ b Al Eb Ub).
      - assert (ops2 = rev rl ++ [o']) as Eo by (apply (f_equal (@rev _)) in Er; rewrite rev_involutive in Er; auto). subst ops2.
        rewrite app_assoc in El. apply app_inj_tail in El as [_ ->]. exact (touched t2 _ o s' s2 c _ Ht2 W C F2 A E2 No). }
    eapply shows_of; eauto.
  Qed.

  Lemma segment_archive_sends ser (enc : list (Z * T) -> list byte) dec jz jt junk2 fresh2 c t ops (s : seg T byte) t2 ops2 (r : seg T byte) :
    0 <= c -> (forall l, dec (enc l) (zlen l) = Ok l) -> built c t ops s -> built c t2 ops2 r -> (ser = true -> t = t2) ->
    exists ar s', seg_archive jz jt s [] = Ok ar /\ (forall rest, seg_restore junk2 fresh2 (ar ++ rest) = Ok (s', rest)) /\
    forall t1, 1 <= t1 -> (ser = true -> t1 = t2) -> exists s2 r2, transfer ser enc dec t1 t2 s' r = Ok (s2, r2) /\ shows c r2 (spec_sops c ops).
  Proof using T byte.
    clear n ns nr Hn Hs Hr. intros Hc DE B Br Ht. destruct (segment_archive ser t2 jz jt junk2 fresh2 c t ops s Hc Ht B) as (ar & s' & E & Re & Al & W & C & A & _).
    exists ar, s'. conjs; auto. intros t1 T1 Ht1. destruct (built_wf ser t2 c t2 ops2 r Hc (fun _ => eq_refl) Br) as (Tk & Wr & Cr & _).
    destruct (transfer_spec ser t2 enc dec DE t1 t2 s' r (conj T1 Ht1) Tk W Wr ltac:(congruence) (fun _ => determinate_map s' _ A)) as (s2 & r2 & Et & _ & Wr2 & _ & Cr2 & _ & Ar & (b & Eb & Ub) & _).
    exists s2, r2. split; auto. eapply shows_of; eauto; [congruence|]. intros k. rewrite Ar. auto.
  Qed.
End VAF.

(** a plain-type segment that heard from a sender with more threads *)
Lemma archive_after_transfer_bad : exists (s r s' r' : seg Z (Z * Z)), built 4 2 [OSet 3 7] s /\ built 4 1 [] r /\
  transfer false (fun l => l) (fun bs _ => Ok bs) 2 1 s r = Ok (s', r') /\ shows 4 r' (spec_sops 4 [OSet 3 7]) /\ forall jz jt, seg_archive jz jt r' [] = Err OOB.
Proof.
  set (s := match run_sops 2 [OSet 3 7] (new_seg 4 0 None) with Ok s => s | Err _ => new_seg 4 0 None end : seg Z (Z * Z)).
  assert (built 4 2 [OSet 3 7] s) as B. { split; [lia|]. split; [repeat constructor; lia|]. exists 0, None. vm_compute. reflexivity. }
  assert (built 4 1 [] (new_seg 4 0 None : seg Z (Z * Z))) as Br. { split; [lia|]. split; [constructor|]. exists 0, None. reflexivity. }
  set (p := match transfer false (fun l => l) (fun bs _ => Ok bs) 2 1 s (new_seg 4 0 None) with Ok p => p | Err _ => (s, s) end).
  exists s, (new_seg 4 0 None), (fst p), (snd p). split; [exact B|]. split; [exact Br|]. split; [|split].
  - vm_compute. reflexivity.
  - destruct (@transfers_hist Z (Z * Z) false (fun l => l) (fun bs _ => Ok bs) 4 1 [] (new_seg 4 0 None) [] 2 [OSet 3 7] s ltac:(lia) (fun _ => eq_refl) Br ltac:(constructor; [split; [exact B|discriminate]|constructor])) as (r' & E & Sh).
    replace (snd p) with r'; auto. vm_compute in E. oki E. vm_compute. reflexivity.
  - intros jz jt. vm_compute. reflexivity.
Qed.
