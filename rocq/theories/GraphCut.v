(** Reading GraphMat's binary files of which a part is missing. *)
From Verif Require Import BaseLemmas BucketProofs SegmentProofs UnionProofs VecProofs2 SearchProofs Layout LayoutProofs Reduce Bits Segment Vec VecProofs GraphVertProofs ListLemmas DCSC DCSCFinal MatSpec TileProofs SpMat SpMatProofs GraphVert Graph GraphProofs Runtime RunSegProofs RunSpec DistProofs MultProofs HeldProofs RuntimeProofs GraphOps GraphHist GraphHistProofs RunFinal GraphBin GraphBinProofs GraphCutSpec.

Lemma mapR_err {A B} (f : A -> R B) l x e : In x l -> f x = Err e -> exists e', mapR f l = Err e'.
Proof.
  intros I He. induction l as [|a l IH]; [destruct I|]. cbn [mapR]. destruct (f a) eqn:Ea; cbn [bind]; [|eauto]. destruct I as [->|I]; [congruence|].
  destruct (IH I) as (e' & ->). cbn [bind]. eauto.
Qed.

Section Prefix.
  Context {E : Type}.
  Notation archive := (list (item E)).
  (** more items after those that were read change nothing *)
  Definition extends {A} (get : archive -> R (A * archive)) : Prop := forall p y r q, get p = Ok (y, r) -> get (p ++ q) = Ok (y, r ++ q).
  Lemma ext_int : extends get_int.
  Proof. intros [|[z|v] p] y r q H; try discriminate. injection H as <- <-. reflexivity. Qed.
  Lemma ext_val : extends get_val.
  Proof. intros [|[z|v] p] y r q H; try discriminate. injection H as <- <-. reflexivity. Qed.
  Lemma ext_many {A} (get : archive -> R (A * archive)) k : extends get -> extends (get_many get k).
  Proof.
    intros G. induction k as [|k IH]; intros p y r q H; [injection H as <- <-; reflexivity|]. cbn [get_many] in *.
    destruct (get p) as [[a p1]|] eqn:E1; [|discriminate]. cbn [bind snd fst] in H. destruct (get_many get k p1) as [[l p2]|] eqn:E2; [|discriminate]. cbn [bind snd fst] in H. injection H as <- <-.
    rewrite (G _ _ _ q E1). cbn [bind snd fst]. rewrite (IH _ _ _ q E2). reflexivity.
  Qed.
  Lemma ext_vec {A} (get : archive -> R (A * archive)) : extends get -> extends (get_vec get).
  Proof.
    intros G p y r q H. unfold get_vec in *. destruct (get_int p) as [[k p1]|] eqn:E1; [|discriminate]. cbn [bind snd fst] in H. rewrite (ext_int _ _ _ q E1). cbn [bind snd fst]. apply ext_many; auto.
  Qed.
  Ltac step G := match goal with H : (do r <- ?g ;; _) = Ok _ |- _ => let a := fresh "a" in let p := fresh "p" in let Q := fresh "Q" in
    destruct g as [[a p]|] eqn:Q; [|discriminate H]; cbn [bind] in H; rewrite (G _ _ _ _ Q); cbn [bind] end.
  Lemma ext_dcsc : extends dcsc_load.
  Proof.
    intros p y r q H. unfold dcsc_load in *. do 5 step ext_int. destruct (0 <? a).
    - step (ext_many _ (Z.to_nat a) ext_val). step (ext_many _ (Z.to_nat a) ext_int). do 3 step (ext_many _ (Z.to_nat (a3 + 1)) ext_int). do 2 step (ext_many _ (Z.to_nat a2) ext_int). injection H as <- <-. reflexivity.
    - injection H as <- <-. reflexivity.
  Qed.
  Lemma ext_ptr : extends get_ptr.
  Proof.
    intros p y r q H. unfold get_ptr in *. step ext_int. cbn [fst snd] in *. destruct (a =? 0); [injection H as <- <-; reflexivity|]. step ext_dcsc. cbn [fst snd] in *. injection H as <- <-. reflexivity.
  Qed.
  Lemma ext_part : extends part_load.
  Proof.
    intros p y r q H. unfold part_load in *. do 4 step ext_int. step (ext_vec _ (ext_vec _ ext_ptr)). do 3 step (ext_vec _ ext_int). injection H as <- <-. reflexivity.
  Qed.

  (** what rank [r] reads, and how many items it leaves *)
  Definition parse (ar : archive) : R ((matpart E * matpart E * Z) * archive) :=
    do a <- part_load ar ;; do at_ <- part_load (snd a) ;; do t <- get_int (snd at_) ;; Ok ((fst a, fst at_, fst t), snd t).
  Lemma ext_parse : extends parse.
  Proof.
    intros p y r q H. unfold parse in *. step ext_part. cbn [fst snd] in *. step ext_part. cbn [fst snd] in *. step ext_int. cbn [fst snd] in *. injection H as <- <-. reflexivity.
  Qed.
  Lemma rank_read_parse nr th (dir : folder E) r x ar : dir r = Some ar -> rank_read nr th dir r = Ok x -> exists rest, parse ar = Ok (x, rest).
  Proof.
    intros Ed H. unfold rank_read in H. rewrite Ed in H. unfold parse. destruct (part_load ar) as [[a p]|]; [|discriminate]. cbn [bind fst snd] in *. destruct (part_load p) as [[a' p']|]; [|discriminate]. cbn [bind fst snd] in *.
    destruct (_ || _); [discriminate|]. destruct (get_int p') as [[t p'']|]; [|discriminate]. cbn [bind fst snd] in *. destruct (negb _); [discriminate|]. injection H as <-. eauto.
  Qed.
  (** what succeeds on some of the items gives the same on all of them *)
  Lemma rank_read_more nr th (dir dir1 : folder E) r x p q : dir r = Some p -> dir1 r = Some (p ++ q) -> rank_read nr th dir r = Ok x -> rank_read nr th dir1 r = Ok x.
  Proof.
    intros Ed Ed1 H. unfold rank_read in *. rewrite Ed in H. rewrite Ed1. step ext_part. cbn [fst snd] in *. step ext_part. cbn [fst snd] in *. destruct (_ || _); [discriminate|]. step ext_int. cbn [fst snd] in *. exact H.
  Qed.
  Lemma cut_fails nr th (dir : folder E) r whole x : parse whole = Ok (x, []) -> damaged whole (dir r) -> exists e, rank_read nr th dir r = Err e.
  Proof.
    intros Ep [D|(kept & i & lost & D & W)].
    - unfold rank_read. rewrite D. eauto.
    - destruct (rank_read nr th dir r) as [y|e] eqn:Er; [|eauto]. exfalso. destruct (rank_read_parse _ _ _ _ _ _ D Er) as (rest & P). apply (ext_parse _ _ _ (i :: lost)) in P. rewrite <- W, Ep in P. injection P as _ P. destruct rest; discriminate P.
  Qed.
  Lemma survived_or whole (found : option archive) : survived whole found -> found = Some whole \/ damaged whole found.
  Proof.
    intros [->|(kept & lost & -> & ->)]; [right; left; reflexivity|]. destruct lost as [|i lost]; [left; rewrite app_nil_r; reflexivity|right; right; eauto].
  Qed.
End Prefix.

Section Files.
  Context {V E byte : Type}.
  Variables (nr nt n : Z) (g : graph V E byte) (es : list (edge E)).
  Hypothesis Hnr : 1 <= nr.
  Hypothesis Hg : edges_held nr nt g n es.
  Lemma written_parse (dir dir' : folder E) r : g_WriteGraphMatBin nr g dir = Ok dir' -> 0 <= r < nr -> exists whole x, dir' r = Some whole /\ parse whole = Ok (x, []).
  Proof.
    intros Ew Br. destruct Hg as (Gn & Gt & ids & Ei & HA & HT). unfold g_WriteGraphMatBin in Ew. destruct (mapR (rank_write g) (zrange 0 nr)) as [files|] eqn:Ef; [|discriminate]. injection Ew as <-.
    destruct (rd_ok files r) as [ar Er]. { pose proof (mapR_length _ _ _ Ef). pose proof (zlen_zrange 0 nr). unfold zlen in *. lia. }
    destruct (mapR_zrange_rd _ _ _ _ _ Ef Er) as [_ Ea]. destruct (Z.leb_spec 0 r); [|lia]. destruct (Z.ltb_spec r nr); [|lia]. cbn [andb]. rewrite Er.
    destruct (part_of nr n n nr nr Hnr Hnr ids _ _ HA r Br) as (ta & _ & Pa & Sa). destruct (part_of nr n n nr nr Hnr Hnr ids _ _ HT r Br) as (tt & _ & Pt & St).
    destruct (round_part _ Sa) as (aa & Wa & La). destruct (round_part _ St) as (at_ & Wt & Lt).
    unfold rank_write in Ea. rewrite Pa in Ea. cbn [bind] in Ea. rewrite Wa in Ea. cbn [bind] in Ea. rewrite Pt in Ea. cbn [bind] in Ea. rewrite Wt in Ea. cbn [bind] in Ea. injection Ea as <-.
    eexists _, _. split; [reflexivity|]. unfold parse. rewrite La. cbn [bind fst snd]. rewrite Lt. cbn [bind fst snd get_int]. reflexivity.
  Qed.
End Files.

Section Claims.
  Context {V E byte : Type}.
  Variable neq : V -> V -> bool.
  Variables (m : machine V E byte) (dv : V) (n : Z) (blobs : list (list (edge E))) (h : list (Z * gcall V E byte)) (g : graph V E byte) (q : gspec V E).
  Hypothesis Hset : setting m n blobs.
  Hypothesis Hok : calls_ok n m h.
  Hypothesis Hre : reached neq m dv n blobs h g.
  Hypothesis Hme : means neq dv n blobs h q.

  Let Hg : is m n g q. Proof. eapply reach_is; eauto. Qed.
  Let Hm : machine_ok m. Proof. apply Hset. Qed.

  Lemma read_bin_err {V' byte'} (m' : machine V' E byte') dv' (dir : folder E) r e : 0 <= r < m_nr m' -> rank_read (m_nr m') (m_nt m') dir r = Err e -> exists e', read_bin m' dv' dir = Err e'.
  Proof.
    intros Br He. unfold read_bin, g_ReadGraphMatBin. destruct (mapR_err (rank_read (m_nr m') (m_nt m') dir) (zrange 0 (m_nr m')) r e) as (e' & ->); [apply in_zrange; lia|exact He|]. cbn [bind]. eauto.
  Qed.
  Lemma cut_file {V' byte'} (m' : machine V' E byte') dv' dir dir' found r whole :
    write_bin m g dir = Ok dir' -> 0 <= r < m_nr m -> dir' r = Some whole -> damaged whole (found r) ->
    (forall nr th, exists e, rank_read nr th found r = Err e) /\ (r < m_nr m' -> exists e, read_bin m' dv' found = Err e).
  Proof.
    intros Ew Br Ed D. destruct Hg as (_ & He & _). pose proof Hm as (Hr & _). destruct (written_parse (m_nr m) (m_nt m) n g _ Hr He dir dir' r Ew Br) as (w & x & Ed' & P). rewrite Ed in Ed'. injection Ed' as <-.
    assert (forall nr th, exists e, rank_read nr th found r = Err e) as Q by (intros; eapply cut_fails; eauto).
    split; [exact Q|]. intros B. destruct (Q (m_nr m') (m_nt m')) as (e & Qe). eapply read_bin_err; eauto. lia.
  Qed.
  Lemma cut_folder {V' byte'} (m' : machine V' E byte') dv' dir dir' found : write_bin m g dir = Ok dir' -> 1 <= m_nr m' ->
    (forall r, 0 <= r < m_nr m -> exists whole, dir' r = Some whole /\ survived whole (found r)) ->
    (exists r, 0 <= r < m_nr m /\ found r <> dir' r) -> exists e, read_bin m' dv' found = Err e.
  Proof.
    intros Ew H1 S (r & Br & N). destruct (S r Br) as (whole & Ed & Sr). destruct (survived_or _ _ Sr) as [Q|D]; [congruence|].
    destruct (Z.lt_ge_cases r (m_nr m')) as [B|B]. { destruct (cut_file m' dv' dir dir' found r whole Ew Br Ed D) as [_ C]. auto. }
    (* other ranks: the file of rank 0, whole or not, is refused *)
    pose proof Hm as (Hr & _). destruct (S 0 ltac:(lia)) as (w0 & Ed0 & S0). assert (exists e, rank_read (m_nr m') (m_nt m') found 0 = Err e) as (e & Q).
    { destruct (rank_read (m_nr m') (m_nt m') found 0) as [x|e] eqn:Er; [|eauto]. exfalso.
      assert (rank_read (m_nr m') (m_nt m') dir' 0 = Err ExitCall) as X. { apply (reload_other m n g q Hm Hg dir dir' _ _ Ew); [|lia]. destruct (Z.eqb_spec (m_nr m') (m_nr m)); [lia|reflexivity]. }
      destruct S0 as [F|(kept & lost & F & W)]; [unfold rank_read in Er; rewrite F in Er; discriminate|]. rewrite (rank_read_more _ _ found dir' _ x kept lost F) in X; [discriminate|congruence|exact Er]. }
    eapply read_bin_err; eauto. lia.
  Qed.
End Claims.
