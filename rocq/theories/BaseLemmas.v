(** Lemmas about the outcome monad, checked arrays and loops. *)
From Verif Require Export Base.

Lemma bind_Ok {A B} (x : R A) (f : A -> R B) b :
  bind x f = Ok b -> exists a, x = Ok a /\ f a = Ok b.
Proof. destruct x as [a|e]; simpl; intros H; [eauto|discriminate]. Qed.

Lemma length_upd {A} (l : list A) n a : length (upd l n a) = length l.
Proof. revert n; induction l as [|h t IH]; intros [|n]; simpl; auto. Qed.

Lemma nth_error_upd_same {A} (l : list A) n a : (n < length l)%nat -> nth_error (upd l n a) n = Some a.
Proof. revert n; induction l as [|h t IH]; intros [|n] H; simpl in *; try lia; auto. apply IH; lia. Qed.

Lemma nth_error_upd_other {A} (l : list A) n m a : n <> m -> nth_error (upd l n a) m = nth_error l m.
Proof. revert n m; induction l as [|h t IH]; intros [|n] [|m] H; simpl; try congruence; auto. Qed.

Lemma upd_same_id {A} (l : list A) n a : nth_error l n = Some a -> upd l n a = l.
Proof. revert n; induction l as [|h t IH]; intros [|n] H; simpl in *; try congruence; auto. f_equal; auto. Qed.

Lemma upd_comm {A} (l : list A) n m a b : n <> m -> upd (upd l n a) m b = upd (upd l m b) n a.
Proof. revert n m; induction l as [|h t IH]; intros [|n] [|m] H; simpl; try congruence; auto. f_equal; auto. Qed.

Lemma upd_upd {A} (l : list A) n a b : upd (upd l n a) n b = upd l n b.
Proof. revert n; induction l as [|h t IH]; intros [|n]; simpl; auto. f_equal; auto. Qed.

Lemma upd_split {A} (l : list A) n a : (n < length l)%nat -> upd l n a = firstn n l ++ a :: skipn (S n) l.
Proof. revert n; induction l as [|h t IH]; intros [|n] H; simpl in *; try lia; auto. f_equal; apply IH; lia. Qed.

Lemma map_upd {A B} (f : A -> B) l n a : map f (upd l n a) = upd (map f l) n (f a).
Proof. revert n; induction l as [|h t IH]; intros [|n]; simpl; auto. f_equal; auto. Qed.

Lemma zlen_nonneg {A} (l : list A) : 0 <= zlen l.
Proof. unfold zlen; lia. Qed.

Lemma zlen_app {A} (l l' : list A) : zlen (l ++ l') = zlen l + zlen l'.
Proof. unfold zlen; rewrite app_length; lia. Qed.

Lemma zlen_cons {A} (a : A) l : zlen (a :: l) = 1 + zlen l.
Proof. unfold zlen; cbn [length]; lia. Qed.

Lemma rd_nth {A} (l : list A) i a : rd l i = Ok a <-> 0 <= i /\ nth_error l (Z.to_nat i) = Some a.
Proof.
  unfold rd. destruct (Z.ltb_spec i 0).
  - split; [discriminate|lia].
  - destruct (nth_error l (Z.to_nat i)) eqn:E.
    + split; [intros H0; inversion H0; auto|]. intros [_ H0]; inversion H0; auto.
    + split; [discriminate|intros [_ H0]; discriminate].
Qed.

Lemma rd_ok {A} (l : list A) i : 0 <= i < zlen l -> exists a, rd l i = Ok a.
Proof.
  unfold zlen; intros H. destruct (nth_error l (Z.to_nat i)) as [a|] eqn:E.
  - exists a. apply rd_nth; split; [lia|auto].
  - apply nth_error_None in E. lia.
Qed.

Lemma rd_bounds {A} (l : list A) i a : rd l i = Ok a -> 0 <= i < zlen l.
Proof.
  intros H; apply rd_nth in H as [H H']. assert (nth_error l (Z.to_nat i) <> None) as N by congruence.
  apply nth_error_Some in N. unfold zlen. lia.
Qed.

Lemma rd_oob {A} (l : list A) i : ~ (0 <= i < zlen l) -> rd l i = Err OOB.
Proof.
  intros H. destruct (rd l i) as [a|e] eqn:E.
  - apply rd_bounds in E; contradiction.
  - unfold rd in E. destruct (i <? 0); [congruence|]. destruct (nth_error l (Z.to_nat i)); congruence.
Qed.

Lemma rd_In {A} (l : list A) i a : rd l i = Ok a -> In a l.
Proof. intros H; apply rd_nth in H as [_ H]. eapply nth_error_In; eauto. Qed.

Lemma In_rd {A} (l : list A) a : In a l -> exists i, 0 <= i < zlen l /\ rd l i = Ok a.
Proof.
  intros H. apply In_nth_error in H as [n Hn]. exists (Z.of_nat n).
  assert (rd l (Z.of_nat n) = Ok a) as E.
  { apply rd_nth. rewrite Nat2Z.id. split; [lia|auto]. }
  split; [eapply rd_bounds; eauto|auto].
Qed.

Lemma rd_ext {A} (l l' : list A) : zlen l = zlen l' -> (forall i, 0 <= i < zlen l -> rd l i = rd l' i) -> l = l'.
Proof.
  revert l'; induction l as [|h t IH]; intros [|h' t'] HL H; try (unfold zlen in HL; simpl in HL; lia); auto.
  assert (h = h').
  { specialize (H 0). unfold rd in H. simpl in H. unfold zlen in H; simpl in H.
    assert (Ok h = Ok h') as E by (apply H; lia). congruence. }
  subst; f_equal. apply IH.
  - unfold zlen in *; simpl in HL; lia.
  - intros i Hi. specialize (H (i+1)). rewrite zlen_cons in H. assert (0 <= i + 1 < 1 + zlen t) as B by lia.
    specialize (H B). unfold rd in *.
    destruct (Z.ltb_spec i 0); [lia|]. destruct (Z.ltb_spec (i+1) 0); [lia|].
    replace (Z.to_nat (i+1)) with (S (Z.to_nat i)) in H by lia. simpl in H. auto.
Qed.

Lemma rd_map {A B} (f : A -> B) l i a : rd l i = Ok a -> rd (map f l) i = Ok (f a).
Proof. intros H; apply rd_nth in H as [H1 H2]. apply rd_nth. split; auto. rewrite nth_error_map, H2; auto. Qed.

Lemma rd_app1 {A} (l l' : list A) i : 0 <= i < zlen l -> rd (l ++ l') i = rd l i.
Proof. unfold zlen, rd; intros H. destruct (i <? 0); auto. rewrite nth_error_app1 by lia; auto. Qed.

Lemma rd_app2 {A} (l l' : list A) i : zlen l <= i -> rd (l ++ l') i = rd l' (i - zlen l).
Proof.
  unfold zlen, rd; intros H. destruct (Z.ltb_spec i 0); [lia|]. destruct (Z.ltb_spec (i - Z.of_nat (length l)) 0); [lia|].
  rewrite nth_error_app2 by lia. replace (Z.to_nat (i - Z.of_nat (length l))) with (Z.to_nat i - length l)%nat by lia; auto.
Qed.

Lemma rd_cons0 {A} (a : A) l : rd (a :: l) 0 = Ok a.
Proof. reflexivity. Qed.

Lemma rd_consS {A} (a : A) l i : 0 < i -> rd (a :: l) i = rd l (i - 1).
Proof.
  intros H. change (a :: l) with ([a] ++ l). rewrite rd_app2; unfold zlen; simpl; [auto|lia].
Qed.

Lemma wr_ok {A} (l : list A) i a : 0 <= i < zlen l -> wr l i a = Ok (upd l (Z.to_nat i) a).
Proof.
  unfold zlen, wr; intros H. destruct (Z.ltb_spec i 0); [lia|]. destruct (Z.leb_spec (Z.of_nat (length l)) i); [lia|].
  reflexivity.
Qed.

Lemma wr_Ok {A} (l l' : list A) i a : wr l i a = Ok l' -> 0 <= i < zlen l /\ l' = upd l (Z.to_nat i) a.
Proof.
  unfold wr, zlen. destruct (Z.ltb_spec i 0); simpl; [discriminate|].
  destruct (Z.leb_spec (Z.of_nat (length l)) i); [discriminate|]. intros E; inversion E; split; [lia|auto].
Qed.

Lemma wr_oob {A} (l : list A) i a : ~ (0 <= i < zlen l) -> wr l i a = Err OOB.
Proof.
  unfold wr, zlen; intros H. destruct (Z.ltb_spec i 0); simpl; auto.
  destruct (Z.leb_spec (Z.of_nat (length l)) i); auto; lia.
Qed.

Lemma zlen_upd {A} (l : list A) n a : zlen (upd l n a) = zlen l.
Proof. unfold zlen; rewrite length_upd; auto. Qed.

Lemma rd_upd_same {A} (l : list A) i a : 0 <= i < zlen l -> rd (upd l (Z.to_nat i) a) i = Ok a.
Proof. unfold zlen; intros H; apply rd_nth; split; [lia|]. apply nth_error_upd_same; lia. Qed.

Lemma rd_upd_other {A} (l : list A) i j a : 0 <= i -> i <> j -> rd (upd l (Z.to_nat i) a) j = rd l j.
Proof.
  unfold rd; intros H0 H. destruct (Z.ltb_spec j 0); auto. rewrite nth_error_upd_other; auto; lia.
Qed.

Lemma wr_same_rd {A} (l l' : list A) i a : wr l i a = Ok l' -> rd l' i = Ok a.
Proof. intros H; apply wr_Ok in H as [B ->]. apply rd_upd_same; auto. Qed.

Lemma wr_other_rd {A} (l l' : list A) i j a : wr l i a = Ok l' -> i <> j -> rd l' j = rd l j.
Proof. intros H N; apply wr_Ok in H as [B ->]. apply rd_upd_other; lia. Qed.

Lemma wr_zlen {A} (l l' : list A) i a : wr l i a = Ok l' -> zlen l' = zlen l.
Proof. intros H; apply wr_Ok in H as [B ->]. apply zlen_upd. Qed.

(** ** zseq / zrange *)
Lemma zseq_length lo n : length (zseq lo n) = n.
Proof. unfold zseq; rewrite map_length, seq_length; auto. Qed.

Lemma zseq_S lo n : zseq lo (S n) = lo :: zseq (lo + 1) n.
Proof.
  unfold zseq. simpl. f_equal; [lia|]. rewrite <- seq_shift, map_map. apply map_ext; intros; lia.
Qed.

Lemma zseq_0 lo : zseq lo 0 = [].
Proof. reflexivity. Qed.

Lemma zseq_app lo n m : zseq lo (n + m) = zseq lo n ++ zseq (lo + Z.of_nat n) m.
Proof.
  revert lo; induction n as [|n IH]; intros lo.
  - rewrite Z.add_0_r; reflexivity.
  - cbn [Nat.add]. rewrite !zseq_S, IH. cbn [app]. do 3 f_equal; lia.
Qed.

Lemma in_zseq lo n x : In x (zseq lo n) <-> lo <= x < lo + Z.of_nat n.
Proof.
  unfold zseq. rewrite in_map_iff. split.
  - intros [k [Hk Hin]]. apply in_seq in Hin. lia.
  - intros H. exists (Z.to_nat (x - lo)). split; [lia|]. apply in_seq; lia.
Qed.

Lemma in_zrange lo hi x : In x (zrange lo hi) <-> lo <= x < hi.
Proof. unfold zrange; rewrite in_zseq. lia. Qed.

Lemma zrange_nil lo hi : hi <= lo -> zrange lo hi = [].
Proof. intros H; unfold zrange. replace (Z.to_nat (hi - lo)) with O by lia; reflexivity. Qed.

Lemma zrange_cons lo hi : lo < hi -> zrange lo hi = lo :: zrange (lo + 1) hi.
Proof.
  intros H; unfold zrange. replace (Z.to_nat (hi - lo)) with (S (Z.to_nat (hi - (lo + 1)))) by lia.
  rewrite zseq_S; auto.
Qed.

Lemma zrange_app lo mid hi : lo <= mid <= hi -> zrange lo hi = zrange lo mid ++ zrange mid hi.
Proof.
  intros H; unfold zrange. replace (Z.to_nat (hi - lo)) with (Z.to_nat (mid - lo) + Z.to_nat (hi - mid))%nat by lia.
  rewrite zseq_app. do 2 f_equal; lia.
Qed.

Lemma zrange_snoc lo hi : lo <= hi -> zrange lo (hi + 1) = zrange lo hi ++ [hi].
Proof. intros H. rewrite (zrange_app lo hi (hi+1)) by lia. f_equal. rewrite zrange_cons by lia. rewrite zrange_nil by lia; auto. Qed.

Lemma zlen_zrange lo hi : lo <= hi -> zlen (zrange lo hi) = hi - lo.
Proof. intros H; unfold zlen, zrange; rewrite zseq_length; lia. Qed.

Lemma NoDup_zseq lo n : NoDup (zseq lo n).
Proof.
  revert lo; induction n as [|n IH]; intros lo; [constructor|]. rewrite zseq_S. constructor; auto.
  rewrite in_zseq; lia.
Qed.

Lemma NoDup_zrange lo hi : NoDup (zrange lo hi).
Proof. apply NoDup_zseq. Qed.

Lemma rd_zrange lo hi i : 0 <= i < hi - lo -> rd (zrange lo hi) i = Ok (lo + i).
Proof.
  intros H; apply rd_nth; split; [lia|]. unfold zrange, zseq. rewrite nth_error_map.
  rewrite (nth_error_nth' _ 0%nat) by (rewrite seq_length; lia). rewrite seq_nth by lia. simpl. f_equal. lia.
Qed.

Lemma map_rd_zrange {A} (l : list A) (d : A) :
  map (fun i => match rd l i with Ok a => a | Err _ => d end) (zrange 0 (zlen l)) = l.
Proof.
  induction l as [|h t IH]; [reflexivity|].
  rewrite zlen_cons. rewrite zrange_cons by (pose proof (zlen_nonneg t); lia). cbn [map]. f_equal.
  rewrite <- IH at 2. unfold zrange.
  replace (Z.to_nat (1 + zlen t - (0+1))) with (Z.to_nat (zlen t - 0)) by lia.
  unfold zseq. rewrite !map_map. apply map_ext. intros k.
  rewrite rd_consS by lia. replace (0 + 1 + Z.of_nat k - 1) with (0 + Z.of_nat k) by lia. auto.
Qed.

(** ** loops *)
Lemma forN_inv {S} (I : Z -> S -> Prop) n lo body s :
  I lo s ->
  (forall i s, lo <= i < lo + Z.of_nat n -> I i s -> exists s', body i s = Ok s' /\ I (i + 1) s') ->
  exists s', forN n lo body s = Ok s' /\ I (lo + Z.of_nat n) s'.
Proof.
  revert lo s; induction n as [|n IH]; intros lo s H0 HS; simpl.
  - exists s; split; auto. rewrite Z.add_0_r; auto.
  - destruct (HS lo s) as [s1 [E1 H1]]; [lia|auto|]. rewrite E1; simpl.
    destruct (IH (lo+1) s1 H1) as [s2 [E2 H2]].
    + intros i s' Hi. apply HS; lia.
    + exists s2; split; auto. replace (lo + Z.pos (Pos.of_succ_nat n)) with (lo + 1 + Z.of_nat n) by lia; auto.
Qed.

Lemma forZ_inv {S} (I : Z -> S -> Prop) lo hi body s :
  lo <= hi -> I lo s ->
  (forall i s, lo <= i < hi -> I i s -> exists s', body i s = Ok s' /\ I (i + 1) s') ->
  exists s', forZ lo hi body s = Ok s' /\ I hi s'.
Proof.
  intros H H0 HS. unfold forZ. destruct (forN_inv I (Z.to_nat (hi - lo)) lo body s H0) as [s' [E H']].
  - intros i s' Hi; apply HS; lia.
  - exists s'; split; auto. replace hi with (lo + Z.of_nat (Z.to_nat (hi - lo))) by lia; auto.
Qed.

Lemma forZ_empty {S} lo hi (body : Z -> S -> R S) s : hi <= lo -> forZ lo hi body s = Ok s.
Proof. intros H; unfold forZ. replace (Z.to_nat (hi - lo)) with O by lia; auto. Qed.

Lemma forZ_step {S} lo hi (body : Z -> S -> R S) s : lo < hi ->
  forZ lo hi body s = (do s' <- body lo s ;; forZ (lo + 1) hi body s').
Proof.
  intros H; unfold forZ. replace (Z.to_nat (hi - lo)) with (Datatypes.S (Z.to_nat (hi - (lo + 1)))) by lia. reflexivity.
Qed.

Lemma forN_app {S} n m lo (body : Z -> S -> R S) s :
  forN (n + m) lo body s = (do s' <- forN n lo body s ;; forN m (lo + Z.of_nat n) body s').
Proof.
  revert lo s; induction n as [|n IH]; intros lo s; simpl; [rewrite Z.add_0_r; auto|].
  destruct (body lo s) as [s'|e]; simpl; auto. rewrite IH.
  replace (lo + 1 + Z.of_nat n) with (lo + Z.pos (Pos.of_succ_nat n)) by lia; auto.
Qed.

Lemma forZ_split {S} lo mid hi (body : Z -> S -> R S) s : lo <= mid <= hi ->
  forZ lo hi body s = (do s' <- forZ lo mid body s ;; forZ mid hi body s').
Proof.
  intros H; unfold forZ. replace (Z.to_nat (hi - lo)) with (Z.to_nat (mid - lo) + Z.to_nat (hi - mid))%nat by lia.
  rewrite forN_app. replace (lo + Z.of_nat (Z.to_nat (mid - lo))) with mid by lia; auto.
Qed.

Lemma forN_foldR {S} n lo (body : Z -> S -> R S) s :
  forN n lo body s = foldR (fun s i => body i s) (zseq lo n) s.
Proof.
  revert lo s; induction n as [|n IH]; intros lo s; [reflexivity|]. rewrite zseq_S; simpl.
  destruct (body lo s); simpl; auto.
Qed.

Lemma forZ_foldR {S} lo hi (body : Z -> S -> R S) s :
  forZ lo hi body s = foldR (fun s i => body i s) (zrange lo hi) s.
Proof. apply forN_foldR. Qed.

Lemma foldR_app {A S} (f : S -> A -> R S) l l' s :
  foldR f (l ++ l') s = (do s' <- foldR f l s ;; foldR f l' s').
Proof. revert s; induction l as [|a t IH]; intros s; simpl; auto. destruct (f s a); simpl; auto. Qed.

Lemma foldR_ext {A S} (f g : S -> A -> R S) l s :
  (forall a s, In a l -> f s a = g s a) -> foldR f l s = foldR g l s.
Proof.
  revert s; induction l as [|a t IH]; intros s H; simpl; auto.
  rewrite H by (simpl; auto). destruct (g s a); simpl; auto. apply IH. intros; apply H; simpl; auto.
Qed.

Lemma forZ_ext {S} lo hi (f g : Z -> S -> R S) s :
  (forall i s, lo <= i < hi -> f i s = g i s) -> forZ lo hi f s = forZ lo hi g s.
Proof. intros H. rewrite !forZ_foldR. apply foldR_ext. intros i s' Hi. apply in_zrange in Hi. auto. Qed.

(** a loop whose body always succeeds is a fold *)
Lemma foldR_fold_left {A S} (f : S -> A -> S) l s :
  foldR (fun s a => Ok (f s a)) l s = Ok (fold_left f l s).
Proof. revert s; induction l as [|a t IH]; intros s; simpl; auto. Qed.

Lemma foldR_inv {A S} (I : S -> Prop) (f : S -> A -> R S) l s :
  I s -> (forall a s, In a l -> I s -> exists s', f s a = Ok s' /\ I s') ->
  exists s', foldR f l s = Ok s' /\ I s'.
Proof.
  revert s; induction l as [|a t IH]; intros s H HS; simpl; [eauto|].
  destruct (HS a s) as [s1 [E1 H1]]; simpl; auto. rewrite E1; simpl. apply IH; auto.
  intros b s' Hb; apply HS; simpl; auto.
Qed.

Lemma mapR_Ok {A B} (f : A -> R B) l bs : mapR f l = Ok bs -> Forall2 (fun a b => f a = Ok b) l bs.
Proof.
  revert bs; induction l as [|a t IH]; intros bs H; simpl in H.
  - inversion H; constructor.
  - apply bind_Ok in H as [b [Hb H]]. apply bind_Ok in H as [bs' [Hbs H]]. inversion H; subst.
    constructor; auto.
Qed.

Lemma mapR_map {A B} (f : A -> R B) (g : A -> B) l : (forall a, In a l -> f a = Ok (g a)) -> mapR f l = Ok (map g l).
Proof.
  induction l as [|a t IH]; intros H; simpl; auto. rewrite H by (simpl; auto); simpl.
  rewrite IH; auto. intros; apply H; simpl; auto.
Qed.

Lemma mapR_length {A B} (f : A -> R B) l bs : mapR f l = Ok bs -> length bs = length l.
Proof. intros H; apply mapR_Ok in H. induction H; simpl; auto. Qed.

Lemma mapR_app {A B} (f : A -> R B) l l' :
  mapR f (l ++ l') = (do a <- mapR f l ;; do b <- mapR f l' ;; Ok (a ++ b)).
Proof.
  induction l as [|x t IH]; simpl.
  - destruct (mapR f l'); auto.
  - destruct (f x); simpl; auto. rewrite IH. destruct (mapR f t); simpl; auto. destruct (mapR f l'); auto.
Qed.

Ltac inv H := inversion H; subst; clear H.

(** ** C integer division on nonnegative operands *)
Lemma quot_div a b : 0 <= a -> 0 < b -> Z.quot a b = a / b.
Proof. intros; apply Z.quot_div_nonneg; lia. Qed.
Lemma rem_mod a b : 0 <= a -> 0 < b -> Z.rem a b = a mod b.
Proof. intros; apply Z.rem_mod_nonneg; lia. Qed.

(** from [Ok a = Ok b], replace one by the other and touch nothing else *)
Ltac oki H := let x := fresh "Heq" in injection H as x;
  match type of x with ?a = ?b => first [subst b | subst a | idtac] end.
