(** What load_edgelist and write_edgelist do to whole directories. *)
From Verif Require Import Base BaseLemmas ListLemmas BitsProofs Segment DCSC EdgeList EdgeSpec EdgeListProofs2 GraphVertProofs Apps FileIO FileSpec FileProofs.

Section FF.
  Context {E : Type}.
  Variables (w : wtype E) (wide : Z -> Z) (fm : fmt).
  Lemma present_in (d : dirt) l i : In i (present d l) -> In i l /\ exists b, file_at d i = Some b.
  Proof.
    induction l as [|k l IH]; cbn; [tauto|]. destruct (file_at d k) as [b|] eqn:Ek; [|intros []]. intros [<-|H]; [eauto|]. destruct (IH H). auto.
  Qed.
  Lemma read_by_in nr d r i : 1 <= nr -> 0 <= r -> In i (read_by nr d r) -> 0 <= i < zlen d /\ exists b, file_at d i = Some b.
  Proof.
    intros Hn Hr H. apply present_in in H as [H [b Hb]]. apply in_map_iff in H as (k & <- & Hk). apply in_zrange in Hk. assert (0 <= r + nr * k) by nia. split; [|eauto]. split; [auto|].
    destruct (Z.lt_ge_cases (r + nr * k) (zlen d)) as [L|L]; [auto|]. rewrite file_at_out in Hb by auto. discriminate.
  Qed.
  Lemma mapR_if {A B} (c : A -> bool) (f : A -> R B) (g : A -> B) l : (forall a, In a l -> f a = if c a then Ok (g a) else Err OOB) ->
    mapR f l = if forallb c l then Ok (map g l) else Err OOB.
  Proof.
    induction l as [|a l IH]; intros H; [reflexivity|]. cbn [mapR forallb map]. rewrite (H a) by (left; auto). destruct (c a); [|reflexivity]. cbn [bind andb]. rewrite IH by (intros; apply H; right; auto). destruct (forallb c l); reflexivity.
  Qed.
  Lemma as_edge_full (e : edge E) : as_edge (full e) = Some e.
  Proof. destruct e; reflexivity. Qed.
  Lemma combine_map2 {A B C} (f : A -> B) (g : A -> C) l : combine (map f l) (map g l) = map (fun a => (f a, g a)) l.
  Proof. induction l as [|a l IH]; cbn; [auto|rewrite IH; auto]. Qed.
  Lemma mapR_map_dom {A B C} (h : A -> B) (f : B -> R C) l : mapR f (map h l) = mapR (fun a => f (h a)) l.
  Proof. induction l as [|a l IH]; cbn [map mapR]; [auto|rewrite IH; auto]. Qed.
  Lemma maxl_nn l : 0 <= maxl l. Proof. unfold maxl. induction l; cbn; lia. Qed.
  Lemma map_rep {A B} (f : A -> B) a n : map f (repeat a n) = repeat (f a) n. Proof. induction n; cbn; congruence. Qed.
  Lemma maxl_concat (ls : list (list Z)) : maxl (concat ls) = maxl (map maxl ls).
  Proof. unfold maxl. induction ls as [|l ls IH]; cbn [concat map fold_right]; [auto|]. rewrite <- IH. clear IH. induction l as [|a l IH]; cbn [app fold_right]; [|rewrite IH]; [|lia]. pose proof (maxl_nn (concat ls)) as P. unfold maxl in P. lia. Qed.

  Lemma load_exact fuel nr d F : supported w fm -> 1 <= nr -> holds_files w fm d F -> enough fuel d F ->
    let fs r := map F (read_by nr d r) in
    load_edgelist w wide fuel fm nr d =
    if forallb (fun r => zlen (kept (fs r)) <=? Z.max 0 (count fm (fs r))) (zrange 0 nr) then Ok (loaded w fm nr fs) else Err OOB.
  Proof.
    intros Hs Hn Hd [Hf Hfl] fs. unfold load_edgelist.
    assert (forall r, 0 <= r -> map (bytes_at d) (read_by nr d r) = map (content w fm) (fs r) /\ Forall (fits w fm) (fs r) /\ Forall (fun G => (length (ef_edges G) < fuel)%nat) (fs r)) as Hr.
    { intros r Hr. unfold fs. rewrite map_map. rewrite !Forall_map, !Forall_forall. split; [apply map_ext_in|split]; intros i Hi; apply read_by_in in Hi as [Bi [b Hb]]; auto; try lia.
      - unfold bytes_at. rewrite Hb. apply (Hd i b); [lia|auto].
      - apply (Hd i b); [lia|auto]. }
    rewrite (mapR_map _ (fun r => map (content w fm) (fs r))).
    2:{ intros r Ir. apply in_zrange in Ir. rewrite <- (proj1 (Hr r ltac:(lia))). apply (opened_eq nr d Hn (length d)); [lia| |auto]. unfold zlen. pose proof (Zle_0_nat (length d)). nia. }
    cbn [bind]. rewrite mapR_map_dom. rewrite (mapR_map _ (fun r => (maxl (map (file_m fm) (fs r)), maxl (map (file_n fm) (fs r)), count fm (fs r)))).
    2:{ intros r Ir. apply in_zrange in Ir. destruct (Hr r ltac:(lia)) as (_ & H1 & H2). apply pass1_eq; auto. }
    cbn [bind]. rewrite combine_map2, mapR_map_dom. unfold loaded. rewrite !map_map. cbn [fst snd].
    assert (forall g : efile E -> Z, maxl (concat (map (fun r => map g (fs r)) (zrange 0 nr))) = fold_right Z.max 0 (map (fun r => maxl (map g (fs r))) (zrange 0 nr))) as Hm.
    { intros g. rewrite maxl_concat, map_map. reflexivity. }
    rewrite <- !Hm. apply mapR_if. intros r Ir. apply in_zrange in Ir. destruct (Hr r ltac:(lia)) as (_ & H1 & H2). destruct (pass2_eq w wide fm fuel (fs r) (count fm (fs r)) Hs H1 H2) as (pos & ->).
    destruct (zlen (kept (fs r)) <=? Z.max 0 (count fm (fs r))); [|reflexivity]. cbn [bind fst]. rewrite map_app, map_map, map_rep. cbn [as_edge fresh]. do 2 f_equal. f_equal. rewrite !map_map. apply map_ext. intros e. apply as_edge_full.
  Qed.

  (** *** writing *)
  Lemma foldR_mapR {A B St} (f : A -> R B) (g : St -> B -> R St) l : forall bs s, mapR f l = Ok bs -> foldR (fun s i => do e <- f i ;; g s e) l s = foldR g bs s.
  Proof.
    induction l as [|a l IH]; intros bs s H; cbn in *; [injection H as <-; reflexivity|]. destruct (f a) as [b|]; [|discriminate]. cbn [bind] in *. destruct (mapR f l) as [bs'|] eqn:Em; [|discriminate]. injection H as <-. cbn [foldR].
    destruct (g s b); [|reflexivity]. cbn [bind]. apply IH. reflexivity.
  Qed.
  Definition file_of (el : elist E) (l : list (edge E)) : efile E := mkEF (el_m el) (el_n el) (el_nnz el) l true.
  Lemma write_bytes_eq el l : holds el l -> write_bytes w fm el = Ok (content w fm (file_of el l)).
  Proof.
    intros H. unfold write_bytes, content, file_of. cbn [ef_newline ef_m ef_n ef_count ef_edges]. rewrite forZ_foldR.
    rewrite (foldR_mapR (fun i => rde el i) (fun b e => Ok (b ++ line w fm e)) _ l) by (apply mapR_rde; auto).
    generalize (header_bytes fm (el_m el) (el_n el) (el_nnz el)). clear H. induction l as [|e l IH]; intros b; cbn [foldR map concat bind]; [rewrite app_nil_r; auto|]. rewrite IH, app_assoc. reflexivity.
  Qed.
  Lemma file_at_put (d : dirt) i b k : 0 <= i -> 0 <= k -> file_at (put_file d i b) k = if k =? i then Some b else file_at d k.
  Proof.
    intros Hi Hk. unfold put_file, file_at. set (d' := d ++ repeat None (Z.to_nat (i + 1 - zlen d))).
    assert (Z.to_nat i < length d')%nat as L by (subst d'; unfold zlen; rewrite app_length, repeat_length; lia).
    destruct (Z.eqb_spec k i) as [->|N]; [rewrite nth_error_upd_same by auto; reflexivity|]. rewrite nth_error_upd_other by lia. subst d'.
    destruct (Nat.lt_ge_cases (Z.to_nat k) (length d)) as [Lk|Lk]; [rewrite nth_error_app1 by auto; reflexivity|]. rewrite nth_error_app2 by auto. rewrite (proj2 (nth_error_None d (Z.to_nat k))) by auto.
    destruct (nth_error (repeat None (Z.to_nat (i + 1 - zlen d))) (Z.to_nat k - length d)) eqn:En; [|reflexivity]. apply nth_error_In, repeat_spec in En. auto.
  Qed.
  Lemma write_exact d els ls : Forall2 holds els ls ->
    exists d', write_edgelist w fm d els = Ok d' /\ forall i, 0 <= i ->
      file_at d' i = match rd els i, rd ls i with Ok el, Ok l => Some (content w fm (file_of el l)) | _, _ => file_at d i end.
  Proof.
    intros H. unfold write_edgelist.
    assert (forall k d, 0 <= k -> exists d', foldR (fun d (p : Z * elist E) => do b <- write_bytes w fm (snd p) ;; Ok (put_file d (fst p) b)) (combine (zrange k (k + zlen els)) els) d = Ok d' /\
      forall i, 0 <= i -> file_at d' i = match rd els (i - k), rd ls (i - k) with Ok el, Ok l => Some (content w fm (file_of el l)) | _, _ => file_at d i end) as G.
    { induction H as [|el l els ls Hh H IH]; intros k d0 Hk.
      - rewrite combine_nil. exists d0. split; [reflexivity|]. intros i Hi. unfold rd. destruct (i - k <? 0); [reflexivity|]. destruct (Z.to_nat (i - k)); reflexivity.
      - rewrite zlen_cons. pose proof (zlen_nonneg els). rewrite zrange_cons by lia. cbn [combine foldR fst snd]. rewrite (write_bytes_eq el l Hh). cbn [bind].
        destruct (IH (k + 1) (put_file d0 k (content w fm (file_of el l))) ltac:(lia)) as (d' & E1 & E2). replace (k + 1 + zlen els) with (k + (1 + zlen els)) in E1 by lia. exists d'. split; [exact E1|].
        intros i Hi. rewrite E2 by auto. rewrite file_at_put by auto. destruct (Z.eqb_spec i k) as [->|N].
        + replace (k - k) with 0 by lia. replace (k - (k + 1)) with (-1) by lia. reflexivity.
        + destruct (Z.ltb_spec i k) as [L|L].
          * unfold rd. destruct (Z.ltb_spec (i - (k + 1)) 0); [|lia]. destruct (Z.ltb_spec (i - k) 0); [reflexivity|lia].
          * unfold rd. destruct (Z.ltb_spec (i - (k + 1)) 0); [lia|]. destruct (Z.ltb_spec (i - k) 0); [lia|]. replace (Z.to_nat (i - k)) with (S (Z.to_nat (i - (k + 1)))) by lia. reflexivity. }
    destruct (G 0 d ltac:(lia)) as (d' & E1 & E2). rewrite Z.add_0_l in E1. exists d'. split; [exact E1|]. intros i Hi. rewrite E2 by auto. rewrite Z.sub_0_r. reflexivity.
  Qed.

  (** *** writing, then loading with another number of ranks *)
  Lemma maxl_perm l l' : Permutation l l' -> maxl l = maxl l'.
  Proof. unfold maxl. induction 1; cbn [fold_right]; lia. Qed.
  Lemma map_nth_all {A} (l : list A) d : map (fun i => nth (Z.to_nat i) l d) (zrange 0 (zlen l)) = l.
  Proof.
    unfold zrange, zseq, zlen. rewrite Z.sub_0_r, Nat2Z.id, map_map. induction l as [|x l IH] using rev_ind; [reflexivity|]. rewrite app_length. cbn [length]. rewrite Nat.add_1_r, seq_S, map_app. cbn [map]. rewrite Nat.add_0_l, Z.add_0_l, Nat2Z.id, nth_middle.
    f_equal. rewrite <- IH at 2. apply map_ext_in. intros k Ik. apply in_seq in Ik. rewrite Z.add_0_l, Nat2Z.id, app_nth1 by lia. reflexivity.
  Qed.
  Lemma classes_perm {A} (f : A -> Z) nr l : (forall a, In a l -> 0 <= f a < nr) ->
    Permutation (flat_map (fun r => filter (fun a => f a =? r) l) (zrange 0 nr)) l.
  Proof.
    induction l as [|a l IH]; intros H; [cbn; induction (zrange 0 nr); cbn; auto|]. specialize (IH (fun b I0 => H b (or_intror I0))). pose proof (H a (or_introl eq_refl)) as Ba.
    rewrite (zrange_app 0 (f a) nr), (zrange_cons (f a) nr) in * by lia. rewrite flat_map_app in *. cbn [flat_map] in *. cbn [filter]. rewrite Z.eqb_refl.
    assert (forall lo hi, (hi <= f a \/ f a < lo) -> flat_map (fun r => if f a =? r then a :: filter (fun x => f x =? r) l else filter (fun x => f x =? r) l) (zrange lo hi) = flat_map (fun r => filter (fun x => f x =? r) l) (zrange lo hi)) as Hf.
    { intros lo hi Hx. rewrite !flat_map_concat_map. f_equal. apply map_ext_in. intros r Ir. apply in_zrange in Ir. destruct (Z.eqb_spec (f a) r); [lia|reflexivity]. }
    rewrite !Hf by lia. cbn [app]. rewrite <- Permutation_middle. constructor. exact IH.
  Qed.
  Lemma share_eq nr r : 1 <= nr -> 0 <= r < nr -> forall j, share nr (Z.of_nat j) r = map (fun k => r + nr * k) (zrange 0 ((Z.of_nat j - r + nr - 1) / nr)).
  Proof.
    intros Hn Hr. induction j as [|j IH].
    - unfold share. rewrite zrange_nil by lia. rewrite zrange_nil; [reflexivity|]. apply Z.lt_succ_r. apply Z.div_lt_upper_bound; lia.
    - unfold share in *. rewrite Nat2Z.inj_succ. unfold Z.succ. rewrite zrange_snoc, filter_app, IH by lia. cbn [filter]. set (x := Z.of_nat j) in *. assert (0 <= x) as Hx by lia. clearbody x.
      destruct (Z.eqb_spec (x mod nr) r) as [Em|Em].
      + pose proof (Z.div_mod x nr ltac:(lia)) as Dx. rewrite Em in Dx. set (q := x / nr) in *.
        assert ((x - r + nr - 1) / nr = q) as -> by (symmetry; apply Z.div_unique with (r := nr - 1); lia).
        assert ((x + 1 - r + nr - 1) / nr = q + 1) as -> by (symmetry; apply Z.div_unique with (r := 0); lia).
        assert (0 <= q) by (apply Z.div_pos; lia). rewrite zrange_snoc, map_app by lia. cbn [map]. do 2 f_equal. lia.
      + rewrite app_nil_r. do 2 f_equal. pose proof (Z.div_mod x nr ltac:(lia)) as Dx. pose proof (Z.mod_pos_bound x nr ltac:(lia)) as Bm. set (q := x / nr) in *. set (m := x mod nr) in *.
        destruct (Z.lt_ge_cases m r) as [L|L].
        * transitivity q; [symmetry|]; [apply Z.div_unique with (r := m - r + nr - 1)|apply Z.div_unique with (r := m - r + nr)]; lia.
        * transitivity (q + 1); [symmetry|]; [apply Z.div_unique with (r := m - r - 1)|apply Z.div_unique with (r := m - r)]; lia.
  Qed.
  Lemma present_prefix d f j c : 0 <= c <= j -> (forall k, 0 <= k < c -> exists b, file_at d (f k) = Some b) -> (forall k, c <= k -> file_at d (f k) = None) ->
    present d (map f (zrange 0 j)) = map f (zrange 0 c).
  Proof.
    intros B H1 H2. rewrite (zrange_app 0 c j), map_app by lia.
    assert (present d (map f (zrange c j)) = []) as E0.
    { destruct (Z.lt_ge_cases c j) as [L|L]; [|rewrite zrange_nil by lia; reflexivity]. rewrite zrange_cons by lia. cbn [map present]. rewrite H2 by lia. reflexivity. }
    assert (forall l, (forall k, In k l -> 0 <= k < c) -> present d (map f l ++ map f (zrange c j)) = map f l) as G.
    { induction l as [|k l IH]; intros Hl; [exact E0|]. cbn [map app present]. destruct (H1 k (Hl k (or_introl eq_refl))) as (b & ->). rewrite IH; auto. intros; apply Hl; right; auto. }
    apply G. intros k Ik. apply in_zrange in Ik. lia.
  Qed.
  Lemma read_by_share d nr nw r : 1 <= nr -> 0 <= r < nr -> 0 <= nw -> (forall i, 0 <= i -> (exists b, file_at d i = Some b) <-> i < nw) ->
    read_by nr d r = share nr nw r.
  Proof.
    intros Hn Hr Hw Hd. rewrite <- (Z2Nat.id nw Hw), share_eq by auto. rewrite Z2Nat.id by auto. unfold read_by. set (c := (nw - r + nr - 1) / nr).
    assert (0 <= c) as Hc by (apply Z.div_pos; lia).
    assert (forall k, k < c <-> r + nr * k < nw) as Hk.
    { intros k. unfold c. pose proof (Z.div_mod (nw - r + nr - 1) nr ltac:(lia)) as D. pose proof (Z.mod_pos_bound (nw - r + nr - 1) nr ltac:(lia)) as Bm. split; intros H; [|apply Z.nle_gt; intros H']; nia. }
    apply present_prefix.
    - split; [auto|]. destruct (Z.lt_ge_cases (zlen d) c) as [L|L]; [|auto]. exfalso. pose proof (zlen_nonneg d). assert (r + nr * zlen d < nw) as Hx by (apply Hk; auto). destruct (proj2 (Hd (r + nr * zlen d) ltac:(nia)) Hx) as (b & Hb). rewrite file_at_out in Hb by nia. discriminate.
    - intros k Bk. apply Hd; [nia|]. apply Hk. lia.
    - intros k Bk. destruct (file_at d (r + nr * k)) as [b|] eqn:Eb; [|reflexivity]. exfalso. assert (r + nr * k < nw) as Hx by (apply Hd; [nia|eauto]). apply Hk in Hx. lia.
  Qed.
  Lemma kept_ended fs : Forall (fun F : efile E => ef_newline F = true) fs -> kept fs = concat (map (@ef_edges E) fs).
  Proof. induction 1 as [|F r Hf H IH]; [reflexivity|]. rewrite kept_cons, Hf, IH. reflexivity. Qed.

  Lemma dealt_perm nr (ls : list (list (edge E))) : 1 <= nr -> Permutation (concat (map (dealt nr ls) (zrange 0 nr))) (concat ls).
  Proof.
    intros Hn. unfold dealt. set (f := fun i => nth (Z.to_nat i) ls []).
    assert (concat ls = concat (map f (zrange 0 (zlen ls)))) as ->.
    { f_equal. symmetry. apply map_nth_all. }
    assert (concat (map (fun r => concat (map f (share nr (zlen ls) r))) (zrange 0 nr)) = concat (map f (flat_map (share nr (zlen ls)) (zrange 0 nr)))) as ->.
    { generalize (zrange 0 nr). induction l as [|r l IH]; [reflexivity|]. cbn [map concat flat_map]. rewrite IH, map_app, concat_app. reflexivity. }
    assert (forall a b : list Z, Permutation a b -> Permutation (concat (map f a)) (concat (map f b))) as Hp.
    { intros a b P. rewrite <- !flat_map_concat_map. apply Permutation_flat_map. auto. }
    apply Hp, classes_perm. intros i _. apply Z.mod_pos_bound. lia.
  Qed.

  Lemma round_trip d els ls nr : supported w fm -> Forall2 holds els ls ->
    (forall el, In el els -> is_int (el_m el) /\ is_int (el_n el)) -> edges_fit w fm (concat ls) -> zlen (concat ls) < 2 ^ 31 ->
    1 <= nr -> (forall i, zlen els <= i -> file_at d i = None) ->
    exists d', write_edgelist w fm d els = Ok d' /\ exists f0, forall fuel, (f0 <= fuel)%nat ->
      let m := if header fm then maxl (map (@el_m E) els) else maxl (map (@e_src E) (concat ls)) in
      let n := if header fm then maxl (map (@el_n E) els) else maxl (map (@e_dst E) (concat ls)) in
      load_edgelist w wide fuel fm nr d' = Ok (map (fun r => mkEL (map Some (map (back w fm) (dealt nr ls r))) m n (zlen (dealt nr ls r))) (zrange 0 nr)).
  Proof.
    intros Hs Hh Hdim Hfit Hlen Hn Habs. destruct (write_exact d els ls Hh) as (d' & Ew & Ed). exists d'. split; [exact Ew|]. pose proof (F2_length _ _ _ Hh) as Len.
    assert (zlen els = zlen ls) as Lz by (unfold zlen; lia).
    set (el0 := mkEL [] 0 0 0 : elist E). set (F := fun i => file_of (nth (Z.to_nat i) els el0) (nth (Z.to_nat i) ls [])).
    assert (forall i, 0 <= i -> file_at d' i = if i <? zlen ls then Some (content w fm (F i)) else None) as Hd'.
    { intros i Hi. rewrite Ed by auto. destruct (Z.ltb_spec i (zlen ls)) as [L|L].
      - destruct (rd_ok els i ltac:(lia)) as (el & Eel). destruct (rd_ok ls i ltac:(lia)) as (l & El). rewrite Eel, El. apply rd_nth in Eel as [_ Eel]. apply rd_nth in El as [_ El]. unfold F. rewrite (nth_error_nth _ _ _ Eel), (nth_error_nth _ _ _ El). reflexivity.
      - rewrite (rd_OOB wide els i) by lia. apply Habs. lia. }
    assert (forall i, 0 <= i < zlen ls -> In (nth (Z.to_nat i) els el0) els /\ In (nth (Z.to_nat i) ls []) ls /\ holds (nth (Z.to_nat i) els el0) (nth (Z.to_nat i) ls [])) as Hin.
    { intros i Bi. unfold zlen in *. split; [apply nth_In; lia|]. split; [apply nth_In; lia|]. assert (Z.to_nat i < length ls)%nat as B by lia. revert B. generalize (Z.to_nat i). clear - Hh. induction Hh as [|? ? ? ? H H' IH]; intros [|k] B; cbn [length nth] in *; [lia|lia|auto|apply IH; lia]. }
    assert (forall l, In l ls -> zlen l <= zlen (concat ls)) as Hll.
    { intros l Il. unfold zlen. apply in_split in Il as (l1 & l2 & ->). rewrite concat_app. cbn. rewrite !app_length. lia. }
    assert (holds_files w fm d' F) as HF.
    { intros i b Hi Eb. rewrite Hd' in Eb by auto. destruct (Z.ltb_spec i (zlen ls)) as [L|L]; [|discriminate]. injection Eb as <-. split; [reflexivity|]. destruct (Hin i ltac:(lia)) as (I1 & I2 & Hx). unfold fits, F, file_of. cbn [ef_m ef_n ef_count ef_newline ef_edges].
      destruct (Hdim _ I1) as [D1 D2]. split; [auto|]. split; [auto|]. split.
      - destruct Hx as [-> _]. pose proof (Hll _ I2). pose proof (zlen_nonneg (nth (Z.to_nat i) ls [])). unfold is_int. lia.
      - split; [auto|]. intros e Ie. apply Hfit. apply in_concat. eauto. }
    exists (S (length d' + length (concat ls)))%nat. intros fuel Hfu m n.
    assert (enough fuel d' F) as HE.
    { split; [lia|]. intros i Bi. unfold F, file_of. cbn [ef_edges]. destruct (Z.lt_ge_cases i (zlen ls)) as [L|L].
      - destruct (Hin i ltac:(lia)) as (_ & I2 & _). pose proof (Hll _ I2). unfold zlen in *. lia.
      - rewrite nth_overflow by (unfold zlen in L; lia). cbn. lia. }
    pose proof (load_exact fuel nr d' F Hs Hn HF HE) as EL. cbn zeta in EL.
    assert (forall r, 0 <= r < nr -> read_by nr d' r = share nr (zlen ls) r) as Hrb.
    { intros r Hr. apply read_by_share; auto; [apply zlen_nonneg|]. intros i Hi. rewrite Hd' by auto. destruct (Z.ltb_spec i (zlen ls)); split; intros; eauto; try lia; destruct H0; discriminate. }
    assert (forall r, kept (map F (share nr (zlen ls) r)) = dealt nr ls r) as Hk.
    { intros r. rewrite kept_ended; [|apply Forall_map, Forall_forall; reflexivity]. unfold dealt. rewrite map_map. reflexivity. }
    assert (forall r, 0 <= r < nr -> zlen (dealt nr ls r) <= zlen (concat ls)) as Hdl.
    { intros r Br. pose proof (dealt_perm nr ls Hn) as P. unfold zlen. rewrite <- (Permutation_length P). assert (In (dealt nr ls r) (map (dealt nr ls) (zrange 0 nr))) as I0 by (apply in_map, in_zrange; lia).
      apply in_split in I0 as (l1 & l2 & ->). rewrite concat_app. cbn. rewrite !app_length. lia. }
    assert (forall r, 0 <= r < nr -> count fm (map F (share nr (zlen ls) r)) = zlen (dealt nr ls r)) as Hc.
    { intros r Br. unfold count. rewrite map_map.
      assert (fold_right Z.add 0 (map (fun x => file_count fm (F x)) (share nr (zlen ls) r)) = zlen (dealt nr ls r)) as ->.
      { unfold dealt. assert (forall i, In i (share nr (zlen ls) r) -> file_count fm (F i) = zlen (nth (Z.to_nat i) ls [])) as Hi.
        { intros i Ii. apply filter_In in Ii as [Ii _]. apply in_zrange in Ii. destruct (Hin i Ii) as (_ & _ & [Hx _]). unfold file_count, F, ended, file_of. cbn [ef_count ef_newline ef_edges]. destruct (header fm); auto. }
        revert Hi. generalize (share nr (zlen ls) r). induction l as [|i l IH]; intros Hi; [reflexivity|]. cbn [map fold_right concat]. rewrite zlen_app, IH by (intros; apply Hi; right; auto). rewrite (Hi i) by (left; auto). reflexivity. }
      apply i32_id. pose proof (Hdl r Br). pose proof (zlen_nonneg (dealt nr ls r)). unfold is_int. lia. }
    rewrite EL. rewrite (proj2 (forallb_forall _ _)).
    2:{ intros r Ir. apply in_zrange in Ir. rewrite Hrb, Hk, Hc by lia. pose proof (zlen_nonneg (dealt nr ls r)). lia. }
    unfold loaded. f_equal. 
    assert (forall (g : efile E -> Z), maxl (concat (map (fun r => map g (map F (read_by nr d' r))) (zrange 0 nr))) = maxl (map (fun i => g (F i)) (zrange 0 (zlen ls)))) as Hmx.
    { intros g. assert (concat (map (fun r => map g (map F (read_by nr d' r))) (zrange 0 nr)) = map (fun i => g (F i)) (flat_map (share nr (zlen ls)) (zrange 0 nr))) as ->.
      { assert (forall l, (forall r, In r l -> 0 <= r < nr) -> concat (map (fun r => map g (map F (read_by nr d' r))) l) = map (fun i => g (F i)) (flat_map (share nr (zlen ls)) l)) as Hg.
        { induction l as [|r l IH]; intros Hl; [reflexivity|]. cbn [map concat flat_map]. rewrite IH, map_app by (intros; apply Hl; right; auto). rewrite Hrb, map_map by (apply Hl; left; auto). reflexivity. }
        apply Hg. intros r Ir. apply in_zrange in Ir. auto. }
      apply maxl_perm, Permutation_map, classes_perm. intros i _. apply Z.mod_pos_bound. lia. }
    rewrite !Hmx. apply map_ext_in. intros r Ir. apply in_zrange in Ir. rewrite Hrb, Hk, Hc by lia. rewrite Z.sub_diag. cbn [Z.to_nat repeat]. rewrite app_nil_r. 
    assert (forall (g : elist E -> Z), maxl (map (fun i => g (nth (Z.to_nat i) els el0)) (zrange 0 (zlen ls))) = maxl (map g els)) as Hel.
    { intros g. rewrite <- Lz. rewrite <- (map_nth_all els el0) at 2. rewrite map_map. reflexivity. }
    assert (forall (g : edge E -> Z), maxl (map (fun i => maxl (map g (nth (Z.to_nat i) ls []))) (zrange 0 (zlen ls))) = maxl (map g (concat ls))) as Hls.
    { intros g. rewrite concat_map, maxl_concat, map_map. rewrite <- (map_nth_all ls []) at 2. rewrite map_map. reflexivity. }
    unfold file_m, file_n, F, file_of, ended. cbn [ef_m ef_n ef_newline ef_edges]. subst m n. destruct (header fm); f_equal; auto; try apply Hel; apply Hls.
  Qed.
End FF.
