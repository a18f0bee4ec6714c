From Coq Require Import QArith Qround Lia.
From Coq Require Import Sorting.Sorted.
From Verif Require Import BaseLemmas Segment SegmentProofs Bucket BucketProofs VecProofs2 ListLemmas DCSC EdgeList EdgeSpec EdgeListProofs ShuffleProofs.
Open Scope Z_scope.

Lemma F2_length {A B} (P : A -> B -> Prop) l l' : Forall2 P l l' -> length l = length l'.
Proof. induction 1; simpl; auto. Qed.

Section Dup.
  Context {E : Type}.
  Notation edge := (edge E).
  Definition same_ends (a b : edge) : bool := (e_src a =? e_src b) && (e_dst a =? e_dst b).
  Lemma same_ends_spec a b : same_ends a b = true <-> ends a = ends b.
  Proof.
    unfold same_ends, ends. split; intros H.
    - apply andb_true_iff in H as [H1 H2]. f_equal; lia.
    - injection H as -> ->. rewrite !Z.eqb_refl. auto.
  Qed.
  Fixpoint dd (p : edge) (l : list edge) : list edge :=
    match l with [] => [] | x :: t => if same_ends x p then dd x t else x :: dd x t end.
  Lemma dd_snoc l : forall p x, dd p (l ++ [x]) = dd p l ++ (if same_ends x (last l p) then [] else [x]).
  Proof.
    induction l as [|y l IH]; intros p x; [simpl; destruct (same_ends x p); auto|].
    replace (last (y :: l) p) with (last l y).
    - cbn [app dd]. rewrite IH. destruct (same_ends y p); auto.
    - clear. revert y p. induction l as [|z l IH]; intros y p; [reflexivity|].
      change (last (y :: z :: l) p) with (last (z :: l) p). rewrite <- (IH z p), <- (IH z y). reflexivity.
  Qed.
  Lemma dd_len l : forall p, zlen (dd p l) <= zlen l.
  Proof. induction l as [|x l IH]; intros p; simpl; [lia|]. specialize (IH x). destruct (same_ends x p); rewrite ?zlen_cons; lia. Qed.
  Lemma dd_incl l : forall p e, In e (dd p l) -> In e l.
  Proof. induction l as [|x l IH]; intros p e H; simpl in *; auto. destruct (same_ends x p); [right; eauto|]. destruct H; [auto|right; eauto]. Qed.
  Lemma dd_cover l : forall p e, In e l -> In (ends e) (map ends (p :: dd p l)).
  Proof.
    induction l as [|x l IH]; intros p e H; [destruct H|]. cbn [dd]. destruct (same_ends x p) eqn:S.
    - apply same_ends_spec in S. destruct H as [<-|H]; [left; auto|]. specialize (IH x e H). cbn [map] in *. rewrite <- S. auto.
    - destruct H as [<-|H]; [right; left; auto|]. right. cbn [map]. apply (IH x e H).
  Qed.
  Definition le_ends (a b : edge) : Prop := e_src a < e_src b \/ e_src a = e_src b /\ e_dst a <= e_dst b.
  Lemma dd_nodup l : forall p, StronglySorted le_ends (p :: l) -> NoDup (map ends (p :: dd p l)).
  Proof.
    induction l as [|x l IH]; intros p S; [repeat constructor; intros []|].
    inversion S as [|? ? S' F]; subst. specialize (IH x S'). cbn [dd]. destruct (same_ends x p) eqn:Q.
    - apply same_ends_spec in Q. cbn [map] in *. rewrite <- Q. auto.
    - cbn [map]. constructor; auto. change (ends x :: map ends (dd x l)) with (map ends (x :: dd x l)). intros Hin. apply in_map_iff in Hin as (e & Ee & He).
      assert (In e (x :: l)) as He' by (destruct He as [<-|He]; [left; auto|right; eapply dd_incl; eauto]).
      assert (le_ends x e) as Lxe.
      { destruct He' as [<-|H']; [right; lia|]. inversion S' as [|? ? _ F']; subst. rewrite Forall_forall in F'. auto. }
      inversion F as [|? ? Lpx _]; subst. unfold ends in Ee. injection Ee as E1 E2.
      assert (same_ends x p = true); [|congruence]. unfold same_ends. unfold le_ends in *. lia.
  Qed.

  Lemma mapR_rde (el : elist E) l : holds el l -> mapR (fun i => rde el i) (zrange 0 (el_nnz el)) = Ok l.
  Proof.
    intros H. pose proof H as [Hn _]. rewrite Hn.
    destruct l as [|d l0]; [reflexivity|]. set (l := d :: l0) in *.
    rewrite (mapR_map _ (fun i => match rd l i with Ok e => e | Err _ => d end)).
    - f_equal. apply map_rd_zrange.
    - intros i Hi. apply in_zrange in Hi. rewrite (rde_holds el l i H) by auto. destruct (rd_ok l i Hi) as [e ->]. auto.
  Qed.

  Lemma remove_dup_local_spec srt (el : elist E) l : sorts_ends srt -> holds el l ->
    exists el' l', remove_duplicate_edges_local srt el = Ok el' /\ holds el' l' /\ same_dims el' el /\
      NoDup (map ends l') /\ (forall e, In e l' -> In e l) /\ (forall e, In e l -> In (ends e) (map ends l')) /\
      l' = (match srt l with [] => [] | x :: t => x :: dd x t end).
  Proof.
    intros Hs H. pose proof H as [Hn [rest Ha]]. unfold remove_duplicate_edges_local. rewrite Hn.
    destruct (Hs l) as [Hperm Hsort].
    destruct (Z.ltb_spec 0 (zlen l)).
    2:{ destruct l as [|e l]; [|rewrite zlen_cons in *; pose proof (zlen_nonneg l); lia].
        apply Permutation_sym, Permutation_nil in Hperm. exists el, []. rewrite Hperm. split; auto. split; auto. split; [split; auto|]. split; [constructor|]. split; auto. }
    unfold sort_types. rewrite (mapR_rde el l H). cbn [bind].
    assert (zlen (srt l) = zlen l) as Ls by (unfold zlen; rewrite (Permutation_length Hperm); auto).
    set (el1 := mkEL _ _ _ _).
    assert (holds el1 (srt l)) as H1 by (split; [cbn; lia|eexists; reflexivity]).
    destruct (srt l) as [|x0 t] eqn:Es; [znil; lia|]. rewrite zlen_cons in Ls.
    rewrite (rde_holds el1 _ 0 H1) by (rewrite zlen_cons; pose proof (zlen_nonneg t); lia). rewrite rd_cons0. cbn [bind].
    change (el_nnz el1) with (el_nnz el). rewrite Hn. cbn [el_arr new_elist].
    destruct (filled_wr (zlen l) _ [] 0 x0 (filled_start (zlen l) ltac:(lia)) eq_refl ltac:(znil; lia)) as (a0 & -> & F0). cbn [bind app] in *.
    destruct (for_slice (fun pre (st : list (option edge) * Z) => filled (zlen l) (fst st) (x0 :: dd x0 pre) /\ snd st = zlen (x0 :: dd x0 pre))
      (x0 :: t) 1 t (fun i st =>
          do e <- rde el1 i ;; do p <- rde el1 (i - 1) ;;
          if (e_src e =? e_src p) && (e_dst e =? e_dst p) then Ok st
          else do a <- wr (fst st) (snd st) (Some e) ;; Ok (a, snd st + 1)) (a0, 1)) as ([a k] & Er & F & Ek).
    - intros i Hi. rewrite rd_consS by lia. f_equal. lia.
    - split; [exact F0|reflexivity].
    - intros pre x post [a k] Et Hx [F Ek]. cbn [fst snd] in *. pose proof (rd_bounds _ _ _ Hx) as Bx. pose proof (zlen_nonneg pre).
      rewrite (rde_holds el1 _ _ H1) by lia. rewrite Hx. cbn [bind].
      rewrite (rde_holds el1 _ _ H1) by lia.
      assert (rd (x0 :: t) (1 + zlen pre - 1) = Ok (last pre x0)) as ->.
      { replace (1 + zlen pre - 1) with (zlen pre) by lia. rewrite Et. clear.
        destruct pre as [|y pre] using rev_ind; [reflexivity|]. clear IHpre. rewrite last_last. rewrite zlen_app, zlen_cons. znil.
        pose proof (zlen_nonneg pre). rewrite rd_consS by lia. rewrite <- app_assoc, rd_app2 by lia. replace (_ - _ - _) with 0 by lia. reflexivity. }
      cbn [bind]. fold (same_ends x (last pre x0)). rewrite dd_snoc. destruct (same_ends x (last pre x0)).
      + eexists. split; [reflexivity|]. rewrite app_nil_r. auto.
      + destruct (filled_wr (zlen l) a (x0 :: dd x0 pre) k x F Ek) as (a' & -> & F').
        { rewrite zlen_cons. pose proof (dd_len pre x0). assert (zlen t = zlen pre + 1 + zlen post) by (rewrite Et, zlen_app, zlen_cons; lia). pose proof (zlen_nonneg post). lia. }
        cbn [bind]. eexists. split; [reflexivity|]. cbn [fst snd]. split; [exact F'|].
        change (x0 :: dd x0 pre ++ [x]) with ((x0 :: dd x0 pre) ++ [x]). rewrite zlen_app, (zlen_cons x). znil. lia.
    - cbn [fst snd] in *. replace (1 + zlen t) with (zlen l) in Er by lia. rewrite Er. cbn [bind fst snd].
      do 2 eexists. split; [reflexivity|]. destruct F as [_ Fa].
      split; [split; [exact Ek|eexists; exact Fa]|]. split; [split; reflexivity|].
      split; [apply dd_nodup; exact Hsort|]. split; [|split; [|reflexivity]].
      + intros e He. apply (Permutation_in _ Hperm). destruct He as [<-|He]; [left; auto|right; eapply dd_incl; eauto].
      + intros e He. apply (Permutation_in _ (Permutation_sym Hperm)) in He. destruct He as [<-|He]; [left; auto|apply dd_cover; auto].
  Qed.

  Lemma NoDup_app_disj {A} (a b : list A) : NoDup a -> NoDup b -> (forall x, In x a -> ~ In x b) -> NoDup (a ++ b).
  Proof.
    induction a as [|x a IH]; intros Ha Hb D; auto. inversion Ha; subst. simpl. constructor.
    - intros H. apply in_app_or in H as [H|H]; [auto|apply (D x); simpl; auto].
    - apply IH; auto. intros y Hy. apply D. simpl; auto.
  Qed.

  Lemma remove_dup_spec nt (srt : Z -> list edge -> list edge) (els : list (elist E)) ls :
    1 <= nt -> 1 <= zlen els -> (forall r, sorts_ends (srt r)) -> all_hold els ls -> (forall l e, In l ls -> In e l -> 1 <= e_src e) ->
    exists els' ls', remove_duplicate_edges nt srt els = Ok els' /\ all_hold els' ls' /\ Forall2 same_dims els' els /\
      NoDup (map ends (concat ls')) /\ (forall e, In e (concat ls') -> In e (concat ls)) /\
      (forall e, In e (concat ls) -> In (ends e) (map ends (concat ls'))).
  Proof.
    intros Hnt Hnr Hs Ha Hp. unfold remove_duplicate_edges.
    (* after the exchange: key classes *)
    assert (exists els1 ls1 (key : edge -> Z), (if zlen els =? 1 then Ok els else shuffle_edges nt els) = Ok els1 /\ all_hold els1 ls1 /\ Forall2 same_dims els1 els /\
       (forall e, In e (concat ls1) <-> In e (concat ls)) /\ (forall a b, ends a = ends b -> key a = key b) /\
       (forall r l e, rd ls1 r = Ok l -> In e l -> key e = r)) as (els1 & ls1 & key & -> & Ha1 & Hd1 & Hin & Hk & Hcls).
    { destruct (Z.eqb_spec (zlen els) 1) as [E1|N1].
      - exists els, ls, (fun _ => 0). split; auto. split; auto. split. { clear. induction els; constructor; auto. split; auto. }
        split; [tauto|]. split; auto. intros r l e Hr _. apply rd_bounds in Hr. assert (zlen ls = 1); [|lia].
        unfold all_hold in Ha. apply F2_length in Ha. unfold zlen in *. lia.
      - destruct (shuffle_edges_spec nt els ls Hnt Hnr Ha Hp) as (els1 & -> & Ha1 & Hd1).
        eexists els1, _, (fun e => Z.rem (e_src e - 1) (zlen els)). split; auto. split; [exact Ha1|]. split; auto.
        split. { intros e. pose proof (shuffle_perm (zlen els) ls Hnr Hp) as P. split; intros He; [apply (Permutation_in _ P); auto|apply (Permutation_in _ (Permutation_sym P)); auto]. }
        split. { intros a b Q. unfold ends in Q. injection Q as -> _. auto. }
        intros r l e Hr He. pose proof (rd_bounds _ _ _ Hr) as Br. rewrite zlen_map, zlen_zrange in Br by lia. rewrite rd_map_list, rd_zrange in Hr by lia. injection Hr as <-.
        apply filter_In in He as [_ He]. lia. }
    cbn [bind].
    assert (zlen els1 = zlen els) as Lel by (apply F2_length in Hd1; unfold zlen; lia). clear Ha.
    (* run the local step on every rank *)
    assert (forall k els1 ls1, Forall2 holds els1 ls1 -> forall els, Forall2 same_dims els1 els ->
      exists els' ls', mapR (fun rel : Z * elist E => remove_duplicate_edges_local (srt (fst rel)) (snd rel)) (combine (zrange k (k + zlen els1)) els1) = Ok els' /\
        Forall2 holds els' ls' /\ Forall2 same_dims els' els /\
        Forall2 (fun l' l => NoDup (map ends l') /\ (forall e, In e l' -> In e l) /\ (forall e, In e l -> In (ends e) (map ends l'))) ls' ls1) as G.
    { clear - Hs. intros k els1 ls1 H1. revert k. induction H1 as [|el l els1 ls1 Hl H1 IH]; intros k els Hd.
      - inversion Hd; subst. exists [], []. split; [|repeat constructor]. znil. rewrite zrange_nil by lia. reflexivity.
      - inversion Hd as [|? el0 ? els0 D0 D1]; subst. rewrite zlen_cons. pose proof (zlen_nonneg els1). rewrite zrange_cons by lia. cbn [combine mapR fst snd].
        destruct (remove_dup_local_spec (srt k) el l (Hs k) Hl) as (el' & l' & -> & Hl' & Hd' & Nd & Hi & Hc & _). cbn [bind].
        replace (k + (1 + zlen els1)) with (k + 1 + zlen els1) by lia.
        destruct (IH (k + 1) els0 D1) as (els' & ls' & -> & A & B & C). cbn [bind]. exists (el' :: els'), (l' :: ls').
        split; auto. split; [constructor; auto|]. split; [constructor; auto|]; [|constructor; auto].
        unfold same_dims in *. destruct Hd', D0. split; congruence. }
    destruct (G 0 els1 ls1 Ha1 els Hd1) as (els' & ls' & Er & A & B & C). rewrite Z.add_0_l in Er. exists els', ls'.
    split; auto. split; auto. split; auto.
    assert (forall e, In e (concat ls') -> In e (concat ls1)) as Hincl.
    { clear - C. induction C as [|l' l ls' ls1 (_ & I & _) C IH]; intros e He; [destruct He|]. simpl in *. apply in_app_or in He as [He|He]; apply in_or_app; auto. }
    assert (forall e, In e (concat ls1) -> In (ends e) (map ends (concat ls'))) as Hcov.
    { clear - C. induction C as [|l' l ls' ls1 (_ & _ & I) C IH]; intros e He; [destruct He|]. simpl in *. rewrite map_app. apply in_app_or in He as [He|He]; apply in_or_app; auto. }
    split; [|split].
    - clear - C Hk Hcls.
      assert (forall k, (forall r l e, rd ls1 r = Ok l -> In e l -> key e = r + k) -> NoDup (map ends (concat ls')) /\ forall e, In e (concat ls') -> k <= key e) as Q.
      { clear Hcls. induction C as [|l' l ls' ls1 (Nd & I & _) C IH]; intros k Hcls; [split; [constructor|intros e []]|].
        destruct (IH (k + 1)) as [IH1 IH2].
        { intros r l0 e Hr He. rewrite (Hcls (r + 1) l0 e); auto; [lia|]. pose proof (rd_bounds _ _ _ Hr). rewrite rd_consS by lia. replace (r + 1 - 1) with r by lia. auto. }
        assert (forall e, In e l' -> key e = k) as K0. { intros e He. rewrite (Hcls 0 l e); auto; lia. }
        split.
        - cbn [concat]. rewrite map_app. apply NoDup_app_disj; auto. intros x Hx Hy. apply in_map_iff in Hx as (a & <- & Ha). apply in_map_iff in Hy as (b & Eb & Hb).
          apply Hk in Eb. rewrite (K0 a Ha) in Eb. apply IH2 in Hb. lia.
        - intros e He. cbn [concat] in He. apply in_app_or in He as [He|He]; [rewrite K0; auto; lia|]. apply IH2 in He. lia. }
      apply (Q 0). intros r l e Hr He. rewrite Z.add_0_r. eauto.
    - intros e He. apply Hin. auto.
    - intros e He. apply Hcov. apply Hin. auto.
  Qed.
End Dup.

(** ** randomize_edgelist_square *)
Section Rnd.
  Context {E : Type}.
  Notation edge := (edge E).
  Lemma random_mapping_spec rnd m : (forall i, 0 <= rnd i) -> 0 <= m ->
    exists mp, random_mapping rnd m = Ok mp /\ zlen mp = m /\ (forall i x, rd mp i = Ok x -> 0 <= x < m) /\
      (forall i j x, rd mp i = Ok x -> rd mp j = Ok x -> i = j).
  Proof.
    intros Hr Hm. unfold random_mapping.
    rewrite (mapR_map _ (fun i => Z.rem (rnd i) m)).
    2:{ intros i Hi. apply in_zrange in Hi. destruct (Z.eqb_spec m 0); [lia|auto]. }
    cbn [bind].
    apply (forZ_inv (fun i mp => zlen mp = m /\ (forall i x, rd mp i = Ok x -> 0 <= x < m) /\ (forall i j x, rd mp i = Ok x -> rd mp j = Ok x -> i = j))); auto.
    - split; [rewrite zlen_zrange; lia|]. split.
      + intros i x Hx. apply rd_In, in_zrange in Hx. lia.
      + intros i j x Hi Hj. pose proof (rd_bounds _ _ _ Hi). pose proof (rd_bounds _ _ _ Hj). rewrite zlen_zrange in * by lia. rewrite rd_zrange in Hi by lia. rewrite rd_zrange in Hj by lia. injection Hi as <-. injection Hj as Hj. lia.
    - intros i mp Hi (L & B & I). rewrite rd_map_list, rd_zrange by lia. cbn [bind].
      set (r := Z.rem (rnd (0 + i)) m). assert (0 <= r < m) as Br by (unfold r; rewrite rem_mod by (auto; lia); apply Z.mod_pos_bound; lia).
      destruct (rd_ok mp i) as [ti Ti]; [lia|]. destruct (rd_ok mp r) as [tr Tr]; [lia|]. rewrite Ti, Tr. cbn [bind].
      rewrite wr_ok by lia. cbn [bind]. rewrite wr_ok by (rewrite zlen_upd; lia). eexists. split; [reflexivity|].
      rewrite !zlen_upd. split; auto.
      set (tau := fun k => if k =? r then i else if k =? i then r else k).
      assert (forall k, rd (upd (upd mp (Z.to_nat i) tr) (Z.to_nat r) ti) k = rd mp (tau k)) as T.
      { intros k. unfold tau. destruct (Z.eqb_spec k r) as [->|N]; [rewrite rd_upd_same by (rewrite zlen_upd; lia); auto|].
        rewrite rd_upd_other by lia. destruct (Z.eqb_spec k i) as [->|N']; [rewrite rd_upd_same by lia; auto|]. rewrite rd_upd_other by lia. auto. }
      split.
      + intros k x Hx. rewrite T in Hx. eauto.
      + intros j k x Hj Hk. rewrite T in Hj, Hk. specialize (I _ _ _ Hj Hk). unfold tau in I.
        destruct (Z.eqb_spec j r), (Z.eqb_spec j i), (Z.eqb_spec k r), (Z.eqb_spec k i); lia.
  Qed.

  Definition renaming (mp : list Z) (v : Z) : Z := match rd mp (v - 1) with Ok x => x + 1 | Err _ => v end.
  Lemma randomize_spec rnd m : (forall i, 0 <= rnd i) -> 0 <= m ->
    exists p, permutes m p /\ forall (els : list (elist E)) ls, all_hold els ls -> (forall el, In el els -> el_m el = m) ->
      (forall e, In e (concat ls) -> 1 <= e_src e <= m /\ 1 <= e_dst e <= m) ->
      exists els', randomize_edgelist_square rnd els = Ok els' /\ all_hold els' (map (map (rename p)) ls) /\ Forall2 same_dims els' els.
  Proof.
    intros Hr Hm. destruct (random_mapping_spec rnd m Hr Hm) as (mp & Em & Lm & Bm & Im).
    exists (renaming mp).
    assert (forall v, 1 <= v <= m -> exists x, rd mp (v - 1) = Ok x /\ renaming mp v = x + 1 /\ 0 <= x < m) as RV.
    { intros v Hv. destruct (rd_ok mp (v - 1)) as [x Hx]; [lia|]. exists x. split; auto. split; [unfold renaming; rewrite Hx; auto|eauto]. }
    split.
    - split.
      + intros v Hv. destruct (RV v Hv) as (x & _ & -> & B). lia.
      + intros v w Hv Hw Q. destruct (RV v Hv) as (x & X & Ex & _), (RV w Hw) as (y & Y & Ey & _). assert (x = y) as -> by lia.
        pose proof (Im _ _ _ X Y). lia.
    - intros els ls Ha Hme Hin. unfold randomize_edgelist_square. destruct els as [|el0 els0] eqn:Eels.
      + inversion Ha; subst. exists []. split; [auto|split; constructor].
      + rewrite <- Eels in *. rewrite (Hme el0) by (subst; simpl; auto). rewrite Em. cbn [bind]. clear Eels el0 els0.
        revert Hin. induction Ha as [|el l els ls Hl Ha IH]; intros Hin; [exists []; split; [auto|split; constructor]|].
        cbn [mapR map]. rewrite (Hme el) by (simpl; auto). rewrite Z.eqb_refl. cbn [negb].
        destruct (rewrite_edges_map (fun _ e => do s <- rd mp (e_src e - 1) ;; do d <- rd mp (e_dst e - 1) ;; Ok (mkE (s + 1) (d + 1) (e_val e))) (rename (renaming mp)) el l Hl) as (el' & -> & Hl' & Hd & _).
        { intros i e He. destruct (Hin e) as [H1 H2]; [apply in_or_app; auto|]. destruct (RV _ H1) as (x & -> & Ex & _), (RV _ H2) as (y & -> & Ey & _).
          cbn [bind]. unfold rename. rewrite Ex, Ey. auto. }
        cbn [bind]. destruct IH as (els' & -> & A & B).
        * intros el1 H1. apply Hme. simpl; auto.
        * intros e He. apply Hin. apply in_or_app; auto.
        * cbn [bind]. exists (el' :: els'). split; auto. split; constructor; auto.
  Qed.
End Rnd.

(** ** remove_empty_columns *)
Section Cols.
  Context {E : Type}.
  Notation edge := (edge E).
  Definition has_col (l : list edge) (c : Z) : bool := existsb (fun e => e_dst e - 1 =? c) l.
  Lemma has_col_snoc l e c : has_col (l ++ [e]) c = has_col l c || (e_dst e - 1 =? c).
  Proof. unfold has_col. rewrite existsb_app. simpl. rewrite orb_false_r. auto. Qed.
  Definition cols (p : Z -> bool) (i : Z) : list Z := filter p (zrange 0 i).
  Lemma cols_succ p i : 0 <= i -> cols p (i + 1) = cols p i ++ if p i then [i] else [].
  Proof. intros H. unfold cols. rewrite zrange_snoc, filter_app by lia. simpl. destruct (p i); auto. Qed.
  Lemma filter_ext_zr (p q : Z -> bool) lo hi : (forall c, lo <= c < hi -> p c = q c) -> filter p (zrange lo hi) = filter q (zrange lo hi).
  Proof. intros H. apply filter_ext_in. intros c Hc. apply in_zrange in Hc. auto. Qed.
  Lemma cols_add p d n : 0 <= d < n -> p d = false -> zlen (cols (fun c => p c || (d =? c)) n) = zlen (cols p n) + 1.
  Proof.
    intros Hd Hp. unfold cols. rewrite (zrange_app 0 d n), (zrange_cons d n) by lia. rewrite !filter_app. cbn [filter]. rewrite Hp, Z.eqb_refl. cbn [orb].
    rewrite (filter_ext_zr (fun c => p c || (d =? c)) p 0 d), (filter_ext_zr (fun c => p c || (d =? c)) p (d + 1) n).
    - rewrite !zlen_app, zlen_cons. lia.
    - intros c Hc. destruct (Z.eqb_spec d c); [lia|]. apply orb_false_r.
    - intros c Hc. destruct (Z.eqb_spec d c); [lia|]. apply orb_false_r.
  Qed.
  Lemma cols_prefix p i j : 0 <= i <= j -> exists rest, cols p j = cols p i ++ rest.
  Proof. intros H. unfold cols. rewrite (zrange_app 0 i j) by lia. rewrite filter_app. eauto. Qed.

  Lemma remove_empty_columns_spec (el : elist E) l : holds el l -> (forall e, In e l -> 1 <= e_dst e <= el_n el) ->
    exists el' idx l', remove_empty_columns el = Ok (el', map Some idx) /\ holds el' l' /\ el_m el' = el_m el /\ el_n el' = zlen idx /\
      StronglySorted Z.lt idx /\ (forall c, In c idx <-> In c (map e_dst l)) /\
      Forall2 (fun e e' => e_src e' = e_src e /\ e_val e' = e_val e /\ rd idx (e_dst e' - 1) = Ok (e_dst e)) l l'.
  Proof.
    intros H Hd. pose proof H as [Hn _]. unfold remove_empty_columns. rewrite Hn.
    assert (0 <= el_n el \/ l = []) as HN by (destruct l as [|e l0]; auto; left; specialize (Hd e (or_introl eq_refl)); lia).
    set (n := el_n el) in *.
    destruct (for_slice (fun pre (st : list bool * Z) => zlen (fst st) = Z.max 0 n /\ (forall c, 0 <= c < n -> rd (fst st) c = Ok (has_col pre c)) /\ snd st = zlen (cols (has_col pre) n))
      l 0 l (fun i st =>
        do e <- rde el i ;;
        do c <- rd (fst st) (e_dst e - 1) ;;
        let k := if negb c then snd st + 1 else snd st in
        do ce <- wr (fst st) (e_dst e - 1) true ;; Ok (ce, k)) (repeat false (Z.to_nat n), 0)) as ([ce k] & Er & Lc & Hc & Ek).
    { intros; f_equal. }
    { cbn [fst snd]. rewrite zlen_repeat. split; [lia|]. split; [intros c Hc; apply rd_repeat; lia|].
      unfold cols. rewrite filter_all_false; auto. }
    { intros pre x post [ce k] El Hx (Lc & Hc & Ek). cbn [fst snd] in *. pose proof (rd_bounds _ _ _ Hx).
      rewrite (rde_holds el l) by (auto; lia). rewrite Hx. cbn [bind].
      assert (1 <= e_dst x <= n) as Bx by (apply Hd; eapply rd_In; eauto).
      rewrite Hc by lia. cbn [bind]. rewrite wr_ok by lia. cbn [bind]. eexists. split; [reflexivity|]. cbn [fst snd]. rewrite zlen_upd. split; auto. split.
      - intros c Bc. rewrite has_col_snoc. destruct (Z.eqb_spec (e_dst x - 1) c) as [<-|N].
        + rewrite rd_upd_same by lia. rewrite orb_true_r. auto.
        + rewrite rd_upd_other by lia. rewrite orb_false_r. auto.
      - assert (cols (has_col (pre ++ [x])) n = cols (fun c => has_col pre c || (e_dst x - 1 =? c)) n) as ->.
        { apply filter_ext_zr. intros c _. apply has_col_snoc. }
        destruct (has_col pre (e_dst x - 1)) eqn:Q; cbn [negb].
        + rewrite Ek. f_equal. apply filter_ext_zr. intros c Hcc. destruct (Z.eqb_spec (e_dst x - 1) c) as [<-|]; [rewrite Q; auto|rewrite orb_false_r; auto].
        + rewrite cols_add by (auto; lia). lia. }
    replace (0 + zlen l) with (zlen l) in Er by lia. cbv zeta in Er. rewrite Er. cbn [bind fst snd] in *. clear Er.
    set (p := has_col l) in *.
    destruct (forZ_inv (fun i (st : list Z * list (option Z) * Z) => let '(ids, rem, cn) := st in
        zlen ids = Z.max 0 (n + 1) /\ (forall j, 0 <= j <= i -> j <= n -> rd ids j = Ok (zlen (cols p j))) /\ filled k rem (map (fun c => c + 1) (cols p i)) /\ cn = zlen (cols p i))
      0 (Z.max 0 n) (fun i st =>
        let '(ids, rem, cnt) := st in
        do c <- rd ce i ;;
        do x <- rd ids i ;;
        do ids <- wr ids (i + 1) ((if c then 1 else 0) + x) ;;
        if c : bool then
          do _ <- assertb (cnt <? k) ;;
          do rem <- wr rem cnt (Some (i + 1)) ;;
          Ok (ids, rem, cnt + 1)
        else Ok (ids, rem, cnt)) (repeat 0 (Z.to_nat (n + 1)), repeat None (Z.to_nat k), 0)) as ([[ids rem] cn] & Er & Li & Hi & Fr & Ec).
    { lia. }
    { rewrite zlen_repeat. split; [lia|]. split; [intros j Hj Hj'; assert (j = 0) as -> by lia; rewrite rd_repeat by lia; reflexivity|].
      split; [apply filled_start; rewrite Ek; apply zlen_nonneg|reflexivity]. }
    { intros i [[ids rem] cn] Bi (Li & Hi & Fr & Ec). rewrite Hc by lia. cbn [bind]. rewrite Hi by lia. cbn [bind]. rewrite wr_ok by lia. cbn [bind].
      fold (p i).
      assert (forall j, 0 <= j <= i + 1 -> j <= n -> rd (upd ids (Z.to_nat (i + 1)) ((if p i then 1 else 0) + zlen (cols p i))) j = Ok (zlen (cols p j))) as U.
      { intros j Bj Bn. destruct (Z.eq_dec (i + 1) j) as [<-|N].
        - rewrite rd_upd_same by lia. rewrite cols_succ, zlen_app by lia. destruct (p i); rewrite ?zlen_cons; znil; f_equal; lia.
        - rewrite rd_upd_other by lia. apply Hi; lia. }
      destruct (p i) eqn:Q.
      - assert (zlen (cols p i) < k) as Lt.
        { rewrite Ek. destruct (cols_prefix p (i + 1) n ltac:(lia)) as [rest ->]. rewrite cols_succ, !zlen_app, Q, zlen_cons by lia. pose proof (zlen_nonneg rest). znil. lia. }
        rewrite Ec. destruct (Z.ltb_spec (zlen (cols p i)) k); [|lia]. cbn [assertb bind].
        destruct (filled_wr k rem (map (fun c => c + 1) (cols p i)) (zlen (cols p i)) (i + 1) Fr) as (rem' & -> & Fr'); [rewrite zlen_map; auto|rewrite zlen_map; auto|].
        cbn [bind]. eexists. split; [reflexivity|]. cbv beta iota. rewrite zlen_upd. split; auto. split; [exact U|]. rewrite cols_succ, Q by lia. split; [rewrite map_app; exact Fr'|].
        rewrite zlen_app, zlen_cons. znil. lia.
      - eexists. split; [reflexivity|]. cbv beta iota. rewrite zlen_upd. split; auto. split; [exact U|]. rewrite cols_succ, Q, app_nil_r by lia. auto. }
    assert (forZ 0 n (fun i st =>
        let '(ids, rem, cnt) := st in
        do c <- rd ce i ;;
        do x <- rd ids i ;;
        do ids <- wr ids (i + 1) ((if c then 1 else 0) + x) ;;
        if c : bool then
          do _ <- assertb (cnt <? k) ;;
          do rem <- wr rem cnt (Some (i + 1)) ;;
          Ok (ids, rem, cnt + 1)
        else Ok (ids, rem, cnt)) (repeat 0 (Z.to_nat (n + 1)), repeat None (Z.to_nat k), 0) = Ok (ids, rem, cn)) as ->.
    { rewrite <- Er. unfold forZ. f_equal. lia. }
    cbn [bind]. assert (cols p (Z.max 0 n) = cols p n) as Cm by (unfold cols, zrange; do 2 f_equal; lia). rewrite Cm in *.
    rewrite Ec, Ek, Z.eqb_refl. cbn [assertb bind].
    set (idx := map (fun c => c + 1) (cols p n)).
    assert (forall e, In e l -> 0 <= zlen (cols p (e_dst e - 1)) < zlen (cols p n) /\ rd idx (zlen (cols p (e_dst e - 1))) = Ok (e_dst e)) as RD.
    { intros e He. pose proof (Hd e He). destruct (cols_prefix p (e_dst e - 1 + 1) n ltac:(lia)) as [rest Ep].
      assert (p (e_dst e - 1) = true) as Pe by (apply existsb_exists; exists e; split; auto; lia).
      rewrite cols_succ, Pe in Ep by lia. unfold idx. rewrite Ep. rewrite !zlen_app, zlen_cons. pose proof (zlen_nonneg rest). pose proof (zlen_nonneg (cols p (e_dst e - 1))).
      split; [znil; lia|]. rewrite rd_map_list, <- app_assoc, rd_app2 by lia. rewrite Z.sub_diag. cbn [app]. rewrite rd_cons0. f_equal. lia. }
    destruct (rewrite_edges_map (fun _ e =>
        do x <- rd ids (e_dst e - 1) ;;
        do _ <- assertb (0 <=? x + 1 - 1) ;;
        do _ <- assertb (x + 1 - 1 <? zlen (cols p n)) ;;
        Ok (mkE (e_src e) (x + 1) (e_val e))) (fun e => mkE (e_src e) (zlen (cols p (e_dst e - 1)) + 1) (e_val e)) el l H) as (el' & -> & Hl' & Hdim & Hnz).
    { intros i e He. pose proof (Hd e He). destruct (RD e He) as [B _]. rewrite Hi by lia. cbn [bind]. 
      assert (0 <=? zlen (cols p (e_dst e - 1)) + 1 - 1 = true) as -> by lia. assert (zlen (cols p (e_dst e - 1)) + 1 - 1 <? zlen (cols p n) = true) as -> by lia. reflexivity. }
    cbn [bind]. do 3 eexists. split; [|split; [|split; [|split; [|split; [|split]]]]].
    - f_equal. f_equal. destruct Fr as [_ ->]. rewrite zlen_map. fold idx. rewrite Ek. rewrite Z.sub_diag. cbn [repeat Z.to_nat]. rewrite app_nil_r. reflexivity.
    - destruct Hl' as [L1 L2]. split; cbn [el_nnz el_arr]; [|exact L2]. rewrite zlen_map. auto.
    - reflexivity.
    - cbn [el_n]. unfold idx. rewrite zlen_map. auto.
    - unfold idx, cols. assert (StronglySorted Z.lt (zrange 0 n)) as SS.
      { unfold zrange. generalize (Z.to_nat (n - 0)) as m. generalize 0. intros z m. revert z. induction m as [|m IH]; intros z; [constructor|].
        rewrite zseq_S. constructor; auto. apply Forall_forall. intros y Hy. apply in_zseq in Hy. lia. }
      clear - SS. induction SS as [|x t SS IH F]; [constructor|]. cbn [filter]. destruct (p x); auto. cbn [map]. constructor; auto.
      apply Forall_forall. intros y Hy. apply in_map_iff in Hy as (z & <- & Hz). apply filter_In in Hz as [Hz _]. rewrite Forall_forall in F. specialize (F z Hz). lia.
    - intros c. unfold idx. rewrite !in_map_iff. split.
      + intros (z & <- & Hz). apply filter_In in Hz as [_ Hz]. apply existsb_exists in Hz as (e & He & Q). exists e. split; auto. lia.
      + intros (e & <- & He). exists (e_dst e - 1). split; [lia|]. apply filter_In. specialize (Hd e He). split; [apply in_zrange; lia|]. apply existsb_exists. exists e. split; auto. lia.
    - clearbody idx p. clear - RD. induction l as [|e l IH]; cbn [map]; constructor.
      + cbn [e_src e_val e_dst]. split; auto. split; auto. destruct (RD e (or_introl eq_refl)) as [_ R]. rewrite <- R. f_equal. lia.
      + apply IH. intros x Hx. apply RD. simpl; auto.
  Qed.
End Cols.

(** ** random weights *)
Lemma random_weight_range fl rmax range r : 1 <= range -> (1 <= random_weight fl rmax range r <= inject_Z range)%Q.
Proof.
  intros H. assert (1 <= inject_Z range)%Q as H1 by (change 1%Q with (inject_Z 1); rewrite <- Zle_Qle; auto).
  unfold random_weight. set (t := fl _). destruct (Qlt_le_dec (inject_Z range) t) as [L|L].
  - destruct (Qlt_le_dec (inject_Z range) 1) as [L'|L']; split; auto; apply Qle_refl.
  - destruct (Qlt_le_dec t 1); split; auto; apply Qle_refl.
Qed.
Lemma random_weight_int fl rmax range r : 1 <= range -> 1 <= Qfloor (random_weight fl rmax range r) <= range.
Proof.
  intros H. destruct (random_weight_range fl rmax range r H) as [H1 H2]. split.
  - apply Qfloor_resp_le in H1. exact H1.
  - apply Qfloor_resp_le in H2. rewrite Qfloor_Z in H2. auto.
Qed.
Lemma random_weight_top (fl : Q -> Q) rmax range : 1 <= range -> 1 <= rmax -> (forall x k, (x == inject_Z k)%Q -> (fl x == inject_Z k)%Q) ->
  (random_weight fl rmax range rmax == inject_Z range)%Q.
Proof.
  intros H Hm Hf. unfold random_weight.
  assert (fl (inject_Z rmax / inject_Z rmax) == inject_Z 1)%Q as E1.
  { apply Hf. unfold Qdiv. apply Qmult_inv_r. intros QQ. change 0%Q with (inject_Z 0) in QQ. apply (proj1 (inject_Z_injective _ _)) in QQ. lia. }
  assert (fl (fl (inject_Z rmax / inject_Z rmax) * inject_Z range) == inject_Z range)%Q as E2.
  { apply Hf. rewrite E1. apply Qmult_1_l. }
  set (t := fl (fl (inject_Z rmax / inject_Z rmax) * inject_Z range)%Q) in *. clearbody t. destruct (Qlt_le_dec (inject_Z range) t) as [L|L].
  - exfalso. rewrite E2 in L. destruct (Qlt_irrefl _ L).
  - destruct (Qlt_le_dec t 1) as [L'|L']; auto. exfalso. rewrite E2 in L'. change 1%Q with (inject_Z 1) in L'. rewrite <- Zlt_Qlt in L'. lia.
Qed.
