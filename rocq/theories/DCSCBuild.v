From Coq Require Import Sorting.Sorted.
From Verif Require Import BaseLemmas Bits BitsProofs Segment SegmentProofs Bucket BucketProofs VecProofs2 ListLemmas DCSC DCSCProofs.

Lemma SS_snoc {A} (P : A -> A -> Prop) l x : StronglySorted P l -> (forall c, In c l -> P c x) -> StronglySorted P (l ++ [x]).
Proof.
  induction 1 as [|a l S IH F]; intros H; simpl; [repeat constructor|]. constructor; [apply IH; intros; apply H; simpl; auto|].
  rewrite Forall_app. split; auto. constructor; auto. apply H; simpl; auto.
Qed.

Lemma SS_filter2 {A} (P : A -> A -> Prop) p l : StronglySorted P l -> StronglySorted (fun a b => P a b /\ p a = true /\ p b = true) (filter p l).
Proof.
  induction 1 as [|a l S IH F]; simpl; [constructor|]. destruct (p a) eqn:Ea; auto. constructor; auto.
  rewrite Forall_forall in *. intros x Hx. apply filter_In in Hx as [Hx Ex]. auto.
Qed.

Lemma map_flat_map {A B C} (g : B -> C) (f : A -> list B) l : map g (flat_map f l) = flat_map (fun a => map g (f a)) l.
Proof. induction l; simpl; auto. rewrite map_app. f_equal; auto. Qed.
Lemma class_keyed {A} p (items : list (Z * A)) : filter (fun it => fst it =? p) items = map (pair p) (keyed p items).
Proof. unfold keyed. induction items as [|[q e] l IH]; simpl; auto. destruct (Z.eqb_spec q p) as [->|N]; simpl; auto. f_equal; auto. Qed.

(** ** columns of one partition *)
(** a column: index and its (row, value) entries *)
Notation column E := (Z * list (Z * E))%type.
Section Cols.
  Context {E : Type}.
  Definition grp (cs : list (column E)) (e : edge E) : list (column E) :=
    match cs with
    | (d, es) :: tl => if d <? e_dst e then (e_dst e, [(e_src e, e_val e)]) :: cs else (d, es ++ [(e_src e, e_val e)]) :: tl
    | [] => [(e_dst e, [(e_src e, e_val e)])]
    end.
  Definition rcols (l : list (edge E)) : list (column E) := fold_left grp l [].
  Definition cols (l : list (edge E)) : list (column E) := rev (rcols l).
  Lemma rcols_snoc l e : rcols (l ++ [e]) = grp (rcols l) e.
  Proof. unfold rcols. rewrite fold_left_app. auto. Qed.
  Definition curcol (cs : list (column E)) : Z := match cs with (d, _) :: _ => d | [] => -1 end.
  Definition csizes (cs : list (column E)) : list Z := map (fun c => zlen (snd c)) cs.
  Definition centries (cs : list (column E)) : list (Z * E) := flat_map snd cs.
  Definition cedges (cs : list (column E)) : list (edge E) := flat_map (fun c => map (fun x => mkE (fst x) (fst c) (snd x)) (snd c)) cs.

  Lemma rcols_mono l l' : zlen (rcols l) <= zlen (rcols (l ++ l')).
  Proof.
    induction l' as [|e l' IH] using rev_ind; [rewrite app_nil_r; lia|]. rewrite app_assoc, rcols_snoc.
    unfold grp. destruct (rcols (l ++ l')) as [|[d es] tl]; [rewrite zlen_cons in *; unfold zlen at 2; simpl in *; znil; pose proof (zlen_nonneg (rcols l)); lia|].
    destruct (d <? e_dst e); rewrite !zlen_cons in *; lia.
  Qed.

  (** facts about sorted input *)
  Definition bydst : list (edge E) -> Prop := StronglySorted (fun a b => e_dst a <= e_dst b).
  Lemma bydst_app l e : bydst (l ++ [e]) -> bydst l /\ forall a, In a l -> e_dst a <= e_dst e.
  Proof.
    unfold bydst. induction l as [|b l IH]; intros S; simpl in *.
    - split; [constructor|tauto].
    - inversion S as [|? ? S' F]; subst. destruct (IH S') as [S1 F1]. rewrite Forall_forall in F. split.
      + constructor; auto. rewrite Forall_forall. intros x Hx. apply F. apply in_or_app; auto.
      + intros a [->|Ha]; auto. apply F. apply in_or_app; simpl; auto.
  Qed.

  Definition cwf (cs : list (column E)) : Prop := StronglySorted (fun a b => fst a < fst b) cs /\ forall c, In c cs -> snd c <> [].

  Lemma cols_spec l : bydst l -> (forall e, In e l -> 0 <= e_dst e) ->
    cedges (cols l) = l /\ cwf (cols l) /\ (forall c, In c (rcols l) -> exists e, In e l /\ e_dst e = fst c) /\ (forall c, In c (rcols l) -> fst c <= curcol (rcols l)) /\ (forall e, In e l -> e_dst e <= curcol (rcols l)).
  Proof.
    induction l as [|e l IH] using rev_ind; intros S H.
    - repeat split; simpl; try tauto. constructor.
    - destruct (bydst_app l e S) as [S1 F1]. destruct (IH S1) as (E1 & (W1 & N1) & D1 & M1 & K1); [intros; apply H; apply in_or_app; auto|].
      unfold cols in *. rewrite rcols_snoc. unfold grp. destruct (rcols l) as [|[d es] tl] eqn:Er.
      + assert (l = []) as -> by (simpl in E1; auto). simpl. destruct e as [a b c]; simpl. split; auto. split; [split|split; [|split]].
        * repeat constructor.
        * intros c0 [<-|[]]. discriminate.
        * intros c0 [<-|[]]. exists (mkE a b c). auto.
        * intros c0 [<-|[]]. simpl. lia.
        * intros x [<-|[]]. simpl. lia.
      + destruct (D1 (d, es) ltac:(simpl; auto)) as (x & Hx & Ex). pose proof (F1 x Hx) as Lx. simpl in Ex.
        assert (Forall (fun c => fst c <= d) (rev tl)) as Ft.
        { rewrite Forall_forall. intros c Hc. apply in_rev in Hc. apply (M1 c). simpl; auto. }
        destruct (Z.ltb_spec d (e_dst e)) as [L|L].
        * split; [|split; [split|split; [|split]]].
          -- cbn [rev] in *. unfold cedges in *. rewrite flat_map_app, E1. simpl. destruct e; auto.
          -- cbn [rev] in *. apply (SS_snoc _ _ _ W1). simpl. intros c Hc. apply in_app_iff in Hc as [Hc|[<-|[]]]; [|simpl; lia].
             rewrite Forall_forall in Ft. apply Ft in Hc. lia.
          -- cbn [rev]. intros c Hc. apply in_app_iff in Hc as [Hc|[<-|[]]]; [apply N1; auto|discriminate].
          -- intros c [<-|Hc]; [exists e; split; auto; apply in_or_app; simpl; auto|]. destruct (D1 c Hc) as (y & Hy & Ey). exists y. split; auto. apply in_or_app; auto.
          -- intros c [<-|Hc]; simpl; [lia|]. apply M1 in Hc. simpl in Hc. lia.
          -- simpl. intros y Hy. apply in_app_iff in Hy as [Hy|[<-|[]]]; [apply F1 in Hy; auto|lia].
        * assert (e_dst e = d) as Ed by lia. split; [|split; [split|split; [|split]]].
          -- cbn [rev] in *. unfold cedges in *. rewrite flat_map_app in *. simpl in *. rewrite !app_nil_r in *. rewrite map_app, app_assoc, E1. simpl. rewrite <- Ed. destruct e; auto.
          -- cbn [rev] in *. clear -W1. revert W1. generalize (rev tl) as q. induction q as [|c q IH]; simpl; intros W; inversion W as [|? ? W2 F]; subst; constructor; auto.
             rewrite Forall_app in *. destruct F as [F1 F2]. split; auto. inversion F2; subst. constructor; auto.
          -- cbn [rev] in *. intros c Hc. apply in_app_iff in Hc as [Hc|[<-|[]]].
             ++ apply N1. apply in_or_app; auto.
             ++ simpl. destruct es; discriminate.
          -- intros c [<-|Hc]; [exists e; split; [apply in_or_app; simpl; auto|auto]|]. destruct (D1 c ltac:(simpl; auto)) as (y & Hy & Ey). exists y. split; auto. apply in_or_app; auto.
          -- intros c [<-|Hc]; simpl; [lia|]. apply (M1 c). simpl; auto.
          -- simpl. intros y Hy. apply in_app_iff in Hy as [Hy|[<-|[]]]; [apply F1 in Hy; lia|lia].
  Qed.

  Lemma centries_cols l : forall e, centries (cols (l ++ [e])) = centries (cols l) ++ [(e_src e, e_val e)].
  Proof.
    intros e. unfold cols, centries. rewrite rcols_snoc. unfold grp. destruct (rcols l) as [|[d es] tl]; auto.
    destruct (d <? e_dst e); cbn [rev]; rewrite !flat_map_app; simpl; rewrite ?app_nil_r, ?app_assoc; auto.
  Qed.
  Lemma centries_map l : centries (cols l) = map (fun e => (e_src e, e_val e)) l.
  Proof. induction l as [|e l IH] using rev_ind; auto. rewrite centries_cols, IH, map_app. auto. Qed.
  Lemma csizes_sum cs : zsum (csizes cs) = zlen (centries cs).
  Proof. unfold centries, csizes. rewrite zlen_flat_map. auto. Qed.

  (** what a step does to the arrays *)
  Lemma cols_new l e : curcol (rcols l) < e_dst e -> cols (l ++ [e]) = cols l ++ [(e_dst e, [(e_src e, e_val e)])].
  Proof.
    intros H. unfold cols. rewrite rcols_snoc. unfold grp. destruct (rcols l) as [|[d es] tl]; auto. simpl in H. apply Z.ltb_lt in H. rewrite H. auto.
  Qed.
  Lemma cols_old l e : 0 <= e_dst e -> ~ curcol (rcols l) < e_dst e ->
    map fst (cols (l ++ [e])) = map fst (cols l) /\ pinit 0 (csizes (cols (l ++ [e]))) = pinit 0 (csizes (cols l)) /\ rcols (l ++ [e]) <> [] /\ curcol (rcols (l ++ [e])) = curcol (rcols l) /\ zlen (rcols (l ++ [e])) = zlen (rcols l).
  Proof.
    intros H0 H. unfold cols. rewrite rcols_snoc. unfold grp. destruct (rcols l) as [|[d es] tl]; [simpl in H; lia|]. simpl in H.
    destruct (Z.ltb_spec d (e_dst e)); [lia|]. cbn [rev]. unfold csizes. rewrite !map_app. simpl. rewrite !pinit_snoc. repeat split; auto. discriminate.
  Qed.
  Lemma zlen_cols l : zlen (cols l) = zlen (rcols l).
  Proof. unfold cols, zlen. rewrite rev_length. auto. Qed.
End Cols.

(** ** the layout of a finished tile *)
Section Encode.
  Context {E : Type}.
  Definition part_idx (n : Z) (cs : list (column E)) : list Z := map fst cs ++ [n + 1].
  Definition part_ptrs (cs : list (column E)) : list Z := prefix_sums 0 (csizes cs).
  Definition encode (rp : list Z) (m n : Z) (parts : list (list (column E))) : dcsc E :=
    mkT (zlen (flat_map centries parts)) m n (zlen (flat_map (part_idx n) parts)) (zlen parts)
      (flat_map (fun c => map snd (centries c)) parts) (flat_map (fun c => map fst (centries c)) parts) rp
      (prefix_sums 0 (map (fun c => zlen (centries c)) parts))
      (prefix_sums 0 (map (fun c => zlen c + 1) parts))
      (flat_map part_ptrs parts) (flat_map (part_idx n) parts).

  (** what every built tile satisfies *)
  Record tile_ok (rp : list Z) (m n : Z) (parts : list (list (column E))) : Prop := {
    to_rows : rows_ok rp m (zlen parts);
    to_np : 1 <= zlen parts;
    to_cols : forall p cs, rd parts p = Ok cs -> cwf cs /\ (forall c, In c cs -> 0 <= fst c < n) /\
                (forall x, In x (centries cs) -> row_in rp p (fst x)) }.
  (** all entries, 0-based *)
  Definition tile_edges (parts : list (list (column E))) : list (edge E) := flat_map cedges parts.

  Lemma zlen_part_idx n cs : zlen (part_idx n cs) = zlen cs + 1.
  Proof. unfold part_idx. rewrite zlen_app, zlen_map. f_equal. Qed.
  Lemma zlen_part_ptrs cs : zlen (part_ptrs cs) = zlen cs + 1.
  Proof. unfold part_ptrs, csizes. rewrite prefix_sums_len, zlen_map. auto. Qed.
  Lemma zlen_cedges (cs : list (column E)) : zlen (cedges cs) = zlen (centries cs).
  Proof. unfold cedges, centries. rewrite !zlen_flat_map. f_equal. apply map_ext. intros a. apply zlen_map. Qed.

  Variables (rp : list Z) (m n : Z) (parts : list (list (column E))).
  Notation t := (encode rp m n parts).
  Notation eoff p := (offs centries parts p).
  Notation coff p := (offs (part_idx n) parts p).

  Lemma enc_ep p : 0 <= p <= zlen parts -> rd (t_edge_ptrs t) p = Ok (eoff p).
  Proof. intros H. simpl. rewrite rd_psums by (rewrite zlen_map; lia). rewrite firstn_map. reflexivity. Qed.
  Lemma enc_cs p : 0 <= p <= zlen parts -> rd (t_col_starts t) p = Ok (coff p).
  Proof.
    intros H. simpl. rewrite rd_psums by (rewrite zlen_map; lia). rewrite firstn_map. unfold offs. do 2 f_equal. apply map_ext. intros; symmetry; apply zlen_part_idx.
  Qed.
  Lemma coff_ptrs p : coff p = offs part_ptrs parts p.
  Proof. unfold offs. f_equal. apply map_ext. intros. rewrite zlen_part_idx, zlen_part_ptrs. auto. Qed.
  Lemma eoff_rows p : eoff p = offs (fun c => map fst (centries c)) parts p.
  Proof. unfold offs. f_equal. apply map_ext. intros. rewrite zlen_map. auto. Qed.
  Lemma eoff_vals p : eoff p = offs (fun c => map snd (centries c)) parts p.
  Proof. unfold offs. f_equal. apply map_ext. intros. rewrite zlen_map. auto. Qed.
  Lemma coff_succ p cs : rd parts p = Ok cs -> coff (p + 1) = coff p + zlen cs + 1.
  Proof. intros H. rewrite (offs_succ _ _ _ _ H), zlen_part_idx. lia. Qed.
  Lemma enc_idx p cs j c : rd parts p = Ok cs -> rd cs j = Ok c -> rd (t_col_idx t) (coff p + j) = Ok (fst c).
  Proof.
    intros H Hj. pose proof (rd_bounds _ _ _ Hj). simpl. rewrite (rd_flat (part_idx n) parts p cs j H) by (rewrite zlen_part_idx; lia).
    unfold part_idx. rewrite rd_app1 by (rewrite zlen_map; lia). apply rd_map; auto.
  Qed.
  Definition cptr (cs : list (column E)) (j : Z) : Z := offs snd cs j.
  Lemma enc_ptrs p cs j : rd parts p = Ok cs -> 0 <= j <= zlen cs -> rd (t_col_ptrs t) (coff p + j) = Ok (cptr cs j).
  Proof.
    intros H Hj. simpl. rewrite coff_ptrs, (rd_flat part_ptrs parts p cs j H) by (rewrite zlen_part_ptrs; lia).
    unfold part_ptrs. rewrite rd_psums by (unfold csizes; rewrite zlen_map; lia). unfold csizes. rewrite firstn_map. reflexivity.
  Qed.
  Lemma enc_rows p cs i x : rd parts p = Ok cs -> rd (centries cs) i = Ok x -> rd (t_row_inds t) (eoff p + i) = Ok (fst x).
  Proof.
    intros H Hi. pose proof (rd_bounds _ _ _ Hi). simpl. rewrite eoff_rows, (rd_flat (fun c => map fst (centries c)) parts p cs i H) by (rewrite zlen_map; lia).
    apply rd_map; auto.
  Qed.
  Lemma enc_vals p cs i x : rd parts p = Ok cs -> rd (centries cs) i = Ok x -> rd (t_vals t) (eoff p + i) = Ok (snd x).
  Proof.
    intros H Hi. pose proof (rd_bounds _ _ _ Hi). simpl. rewrite eoff_vals, (rd_flat (fun c => map snd (centries c)) parts p cs i H) by (rewrite zlen_map; lia).
    apply rd_map; auto.
  Qed.
  Lemma cptr_succ cs j (c : column E) : rd cs j = Ok c -> cptr cs (j + 1) = cptr cs j + zlen (snd c).
  Proof. intros H. apply offs_succ; auto. Qed.
  Lemma centries_at cs j (c : column E) i : rd cs j = Ok c -> 0 <= i < zlen (snd c) -> rd (centries cs) (cptr cs j + i) = rd (snd c) i.
  Proof. intros H Hi. apply rd_flat; auto. Qed.

  (** exporting *)
  Lemma get_edges_encode room rs cs : zlen (flat_map centries parts) <= room ->
    dcsc_get_edges t room rs cs = Ok (map (fun e => mkE (rs + e_src e + 1) (cs + e_dst e + 1) (e_val e)) (tile_edges parts)).
  Proof.
    intros Room. unfold dcsc_get_edges. change (t_np t) with (zlen parts).
    set (f := fun e : edge E => mkE (rs + e_src e + 1) (cs + e_dst e + 1) (e_val e)).
    match goal with |- context [forZ 0 (zlen parts) ?b []] => destruct (forZ_inv (fun p out => out = map f (flat_map cedges (firstn (Z.to_nat p) parts))) 0 (zlen parts) b []) as (out & Eo & ->) end.
    - apply zlen_nonneg.
    - reflexivity.
    - intros p out Hp ->. destruct (rd_ok parts p) as [c Ec]; [lia|].
      rewrite enc_cs by lia. cbn [bind]. rewrite (enc_cs (p + 1)) by lia. cbn [bind]. rewrite (coff_succ p c Ec).
      replace (coff p + zlen c + 1 - coff p - 1) with (zlen c) by lia.
      set (base := flat_map cedges (firstn (Z.to_nat p) parts)).
      set (fe := fun col : column E => map (fun x => mkE (fst x) (fst col) (snd x)) (snd col)).
      match goal with |- context [forZ 0 (zlen c) ?b _] => destruct (forZ_inv (fun j out => out = map f (base ++ flat_map fe (firstn (Z.to_nat j) c))) 0 (zlen c) b (map f base)) as (out & Eo & ->) end.
      + apply zlen_nonneg.
      + simpl. rewrite app_nil_r. auto.
      + intros j out Hj ->. destruct (rd_ok c j) as [col Ecol]; [lia|]. rewrite (enc_idx p c j col Ec Ecol). cbn [bind].
        rewrite (enc_ptrs p c j Ec) by lia. cbn [bind]. rewrite <- Z.add_assoc. rewrite (enc_ptrs p c (j + 1) Ec) by lia. cbn [bind].
        rewrite (cptr_succ c j col Ecol).
        set (b2 := base ++ flat_map fe (firstn (Z.to_nat j) c)).
        match goal with |- context [forZ ?lo ?hi ?b _] => destruct (forZ_inv (fun k out => out = map f (b2 ++ map (fun x => mkE (fst x) (fst col) (snd x)) (firstn (Z.to_nat (k - lo)) (snd col)))) lo hi b (map f b2)) as (out & Eo & ->) end.
        * pose proof (zlen_nonneg (snd col)). lia.
        * rewrite Z.sub_diag. simpl. rewrite app_nil_r. auto.
        * intros k out Hk ->. rewrite enc_ep by lia. cbn [bind].
          destruct (rd_ok (snd col) (k - cptr c j)) as [x Ex]; [lia|].
          assert (rd (centries c) k = Ok x) as Ek by (rewrite <- Ex, <- (centries_at c j col (k - cptr c j) Ecol) by lia; f_equal; lia).
          rewrite (enc_rows p c k x Ec Ek). cbn [bind]. rewrite (enc_vals p c k x Ec Ek). cbn [bind].
          match goal with |- context [zlen ?l <? room] => assert (zlen l < room) as Lr end.
          { rewrite zlen_map. unfold b2. rewrite !zlen_app, zlen_map.
            assert (zlen base = eoff p) as ->.
            { unfold base. rewrite zlen_flat_map. unfold offs. f_equal. apply map_ext. intros; apply zlen_cedges. }
            assert (zlen (flat_map fe (firstn (Z.to_nat j) c)) = cptr c j) as ->.
            { rewrite zlen_flat_map. unfold cptr, offs. f_equal. apply map_ext. intros; unfold fe; apply zlen_map. }
            assert (zlen (firstn (Z.to_nat (k - cptr c j)) (snd col)) = k - cptr c j) as ->.
            { unfold zlen. rewrite firstn_length. unfold zlen in Hk. lia. }
            pose proof (flat_room centries parts p c Ec). pose proof (rd_bounds _ _ _ Ek). lia. }
          apply Z.ltb_lt in Lr. rewrite Lr. eexists. split; [reflexivity|].
          replace (k + 1 - cptr c j) with (k - cptr c j + 1) by lia. rewrite (firstn_snoc _ _ _ Ex). rewrite !map_app. simpl. rewrite !app_assoc. reflexivity.
        * rewrite Eo. eexists. split; [reflexivity|]. rewrite flat_map_firstn_snoc with (a := col) by auto. rewrite app_assoc. f_equal. unfold fe at 2. do 2 f_equal.
          replace (cptr c j + zlen (snd col) - cptr c j) with (zlen (snd col)) by lia. unfold zlen. rewrite Nat2Z.id. apply firstn_all.
      + rewrite Eo. eexists. split; [reflexivity|]. rewrite flat_map_firstn_snoc with (a := c) by auto. f_equal. f_equal.
        unfold zlen. rewrite Nat2Z.id, firstn_all. reflexivity.
    - rewrite Eo. cbn [bind]. replace (firstn (Z.to_nat (zlen parts)) parts) with parts by (unfold zlen; rewrite Nat2Z.id, firstn_all; auto). fold (tile_edges parts).
      assert (zlen (tile_edges parts) = zlen (flat_map centries parts)) as Ln.
      { unfold tile_edges. rewrite !zlen_flat_map. f_equal. apply map_ext. intros; apply zlen_cedges. }
      rewrite zlen_map, Ln. simpl t_nnz. rewrite Z.eqb_refl. reflexivity.
  Qed.
End Encode.

(** ** the constructor *)
Section Ctor.
  Context {E : Type}.
  Variables (rp : list Z) (m n np : Z) (sorted : list (tedge E)).
  Hypothesis Ro : rows_ok rp m np.
  Hypothesis Np : 1 <= np.
  Hypothesis Srt : StronglySorted (fun a b => compare_dcsc b a = false) sorted.
  Hypothesis Row : forall e, In e sorted -> row_in rp (fst e) (e_src (snd e)).
  Hypothesis Col : forall e, In e sorted -> 0 <= e_dst (snd e) < n.

  Definition part (p : Z) : list (edge E) := keyed p sorted.
  Definition parts_of : list (list (column E)) := map (fun p => cols (part p)) (zrange 0 np).

  Lemma sorted_split : sorted = flat_map (fun p => filter (fun it => fst it =? p) sorted) (zrange 0 np).
  Proof.
    apply sorted_classes.
    - revert Srt. apply SS_weaken. intros a b H. apply compare_dcsc_le in H. tauto.
    - intros a Ha. apply (row_in_range rp m np Ro) with (src := e_src (snd a)). auto.
  Qed.
  Lemma part_bydst p : bydst (part p).
  Proof.
    unfold part, keyed, bydst. apply SS_map.
    pose proof (SS_filter2 _ (fun it : tedge E => fst it =? p) sorted Srt) as S.
    revert S. apply SS_weaken. intros a b (H & Ha & Hb). apply Z.eqb_eq in Ha, Hb. apply compare_dcsc_le in H as [_ H]. apply H. congruence.
  Qed.
  Lemma class_part p : filter (fun it => fst it =? p) sorted = map (pair p) (part p).
  Proof. apply class_keyed. Qed.
  Lemma part_in p e : In e (part p) -> In (p, e) sorted.
  Proof. unfold part, keyed. intros H. apply in_map_iff in H as ([q x] & <- & H). apply filter_In in H as [H Eq]. simpl in *. apply Z.eqb_eq in Eq. subst; auto. Qed.
  Lemma rd_parts p : 0 <= p < np -> rd parts_of p = Ok (cols (part p)).
  Proof. intros H. unfold parts_of. apply (rd_map (fun p => cols (part p))). rewrite rd_zrange by lia. f_equal. Qed.
  Lemma zlen_parts : zlen parts_of = np.
  Proof. unfold parts_of. rewrite zlen_map, zlen_zrange by lia. lia. Qed.
  Lemma firstn_zrange p : 0 <= p <= np -> firstn (Z.to_nat p) (zrange 0 np) = zrange 0 p.
  Proof.
    intros H. rewrite (zrange_app 0 p np) by lia. rewrite firstn_app.
    assert (length (zrange 0 p) = Z.to_nat p) as L by (pose proof (zlen_zrange 0 p); unfold zlen in *; lia).
    rewrite L, Nat.sub_diag. simpl. rewrite app_nil_r. apply firstn_all2. lia.
  Qed.
  Lemma firstn_parts p : 0 <= p <= np -> firstn (Z.to_nat p) parts_of = map (fun p => cols (part p)) (zrange 0 p).
  Proof. intros H. unfold parts_of. rewrite firstn_map, firstn_zrange by lia. auto. Qed.
  Lemma zlen_centries_cols l : zlen (centries (cols (E:=E) l)) = zlen l.
  Proof. rewrite centries_map, zlen_map. auto. Qed.
  Lemma eoff_kstart p : 0 <= p <= np -> offs centries parts_of p = kstart sorted p.
  Proof. intros H. unfold offs, kstart. rewrite firstn_parts by lia. rewrite map_map. f_equal. apply map_ext. intros q. apply zlen_centries_cols. Qed.

  Lemma slice_of p : 0 <= p < np -> forall i, 0 <= i < zlen (map (pair p) (part p)) -> rd sorted (kstart sorted p + i) = rd (map (pair p) (part p)) i.
  Proof.
    intros H i Hi. pose proof sorted_split as Es.
    assert (kstart sorted p = offs (fun q => map (pair q) (part q)) (zrange 0 np) p) as ->.
    { unfold offs, kstart. rewrite firstn_zrange by lia. f_equal. apply map_ext. intros q. rewrite zlen_map. auto. }
    rewrite Es at 1. rewrite (flat_map_ext_in _ (fun q => map (pair q) (part q))) by (intros; apply class_part).
    apply (rd_flat (fun q => map (pair q) (part q)) (zrange 0 np) p p i); auto. rewrite rd_zrange by lia. f_equal.
  Qed.

  Lemma nnz_total : zlen sorted = zlen (flat_map centries parts_of).
  Proof.
    rewrite <- offs_all, zlen_parts, eoff_kstart by lia. symmetry. apply kstart_total; [lia|].
    intros it Hi. apply (row_in_range rp m np Ro) with (src := e_src (snd it)). auto.
  Qed.

  Lemma parts_ok : tile_ok rp m n parts_of.
  Proof.
    split.
    - rewrite zlen_parts. auto.
    - rewrite zlen_parts. auto.
    - intros p c Hc. pose proof (rd_bounds _ _ _ Hc) as B. rewrite zlen_parts in B. rewrite rd_parts in Hc by lia. injection Hc as <-.
      destruct (cols_spec (part p)) as (_ & W & D & _).
      + apply part_bydst.
      + intros e He. apply part_in in He. apply Col in He. simpl in He. lia.
      + split; auto. split.
        * intros c Hc. unfold cols in Hc. apply in_rev in Hc. destruct (D c Hc) as (e & He & <-). apply part_in in He. apply Col in He. auto.
        * intros x Hx. rewrite centries_map in Hx. apply in_map_iff in Hx as (e & <- & He). apply part_in in He. apply Row in He. auto.
  Qed.

  Lemma parts_edges : tile_edges parts_of = map snd sorted.
  Proof.
    unfold tile_edges, parts_of. rewrite flat_map_concat_map, map_map, <- flat_map_concat_map. transitivity (map snd (flat_map (fun p => filter (fun it : tedge E => fst it =? p) sorted) (zrange 0 np))); [|rewrite <- sorted_split; auto].
    rewrite map_flat_map. apply flat_map_ext_in. intros p Hp.
    destruct (cols_spec (part p)) as (-> & _).
    - apply part_bydst.
    - intros e He. apply part_in in He. apply Col in He. simpl in He. lia.
    - rewrite class_part, map_map. simpl. rewrite map_id. auto.
  Qed.

  Variable ep : list Z.
  Hypothesis Ep : forall q, 0 <= q <= np -> rd ep q = Ok (kstart sorted q).

  Lemma count_columns_spec p : 0 <= p < np -> count_columns sorted ep p = Ok (zlen (cols (part p))).
  Proof.
    intros H. unfold count_columns. rewrite !Ep by lia. cbn [bind]. rewrite kstart_succ by lia. fold (part p).
    replace (zlen (part p)) with (zlen (map (pair p) (part p))) by apply zlen_map.
    match goal with |- context [forZ ?a _ ?b ?s] => destruct (for_slice (fun pre st => st = (curcol (rcols (map snd pre)), zlen (rcols (map snd pre)))) sorted a (map (pair p) (part p)) b s) as (st & -> & ->) end.
    - apply slice_of; auto.
    - reflexivity.
    - intros pre x post st El Er ->. rewrite Er. cbn [bind fst snd]. rewrite map_app. simpl map. rewrite rcols_snoc. unfold grp.
      destruct (rcols (map snd pre)) as [|[d es] tl] eqn:Ec; simpl curcol.
      + destruct (Z.ltb_spec (-1) (e_dst (snd x))) as [L|L]; [eexists; split; [reflexivity|]; f_equal|].
        exfalso. assert (In x (map (pair p) (part p))) as Hx by (rewrite El; apply in_or_app; simpl; auto).
        apply in_map_iff in Hx as (e & <- & He). apply part_in in He. apply Col in He. simpl in *. lia.
      + destruct (d <? e_dst (snd x)); eexists; (split; [reflexivity|]); simpl curcol; rewrite !zlen_cons; apply (f_equal2 pair); lia.
    - cbn [bind snd]. rewrite map_map. simpl. rewrite map_id. rewrite zlen_cols. auto.
  Qed.

  Variable cs : list Z.
  Hypothesis Cs : forall q, 0 <= q <= np -> rd cs q = Ok (offs (part_idx n) parts_of q).
  Notation total := (zlen (flat_map (part_idx n) parts_of)).
  Notation nnz := (zlen sorted).
  Definition ar_ok (parts : list (list (column E))) (ar : arrays E) : Prop :=
    filled nnz (a_vals ar) (flat_map (fun c => map snd (centries c)) parts) /\
    filled nnz (a_rows ar) (flat_map (fun c => map fst (centries c)) parts) /\
    filled total (a_idx ar) (flat_map (part_idx n) parts) /\
    filled total (a_ptrs ar) (flat_map part_ptrs parts).

  Lemma build_partition_spec p ar : 0 <= p < np -> ar_ok (firstn (Z.to_nat p) parts_of) ar ->
    exists ar', build_partition sorted ep cs n p ar = Ok ar' /\ ar_ok (firstn (Z.to_nat (p + 1)) parts_of) ar'.
  Proof.
    intros Hp Ha. unfold build_partition. rewrite !Ep by lia. cbn [bind]. rewrite !Cs by lia. cbn [bind]. rewrite kstart_succ by lia. fold (part p).
    pose proof (rd_parts p Hp) as Rp. rewrite (coff_succ n parts_of p _ Rp).
    set (c := offs (part_idx n) parts_of p). set (a := kstart sorted p).
    replace (c + zlen (cols (part p)) + 1 - c - 1) with (zlen (cols (part p))) by lia. replace (a + zlen (part p) - a) with (zlen (part p)) by lia.
    set (V0 := flat_map (fun c => map snd (centries c)) (firstn (Z.to_nat p) parts_of)).
    set (R0 := flat_map (fun c => map fst (centries c)) (firstn (Z.to_nat p) parts_of)).
    set (I0 := flat_map (part_idx n) (firstn (Z.to_nat p) parts_of)).
    set (P0 := flat_map part_ptrs (firstn (Z.to_nat p) parts_of)).
    assert (zlen V0 = a) as LV.
    { unfold V0, a. rewrite zlen_flat_firstn, <- eoff_kstart by lia. unfold offs. f_equal. apply map_ext. intros; apply zlen_map. }
    assert (zlen R0 = a) as LR.
    { unfold R0, a. rewrite zlen_flat_firstn, <- eoff_kstart by lia. unfold offs. f_equal. apply map_ext. intros; apply zlen_map. }
    assert (zlen I0 = c) as LI by (unfold I0, c; apply zlen_flat_firstn).
    assert (zlen P0 = c) as LP by (unfold P0, c; rewrite zlen_flat_firstn, coff_ptrs; auto).
    assert (a + zlen (part p) <= nnz) as RV.
    { rewrite nnz_total. unfold a. rewrite <- eoff_kstart by lia. rewrite <- (zlen_centries_cols (part p)). apply flat_room; auto. }
    assert (c + zlen (cols (part p)) + 1 <= total) as RI.
    { pose proof (flat_room (part_idx n) parts_of p _ Rp) as F. rewrite zlen_part_idx in F. fold c in F. lia. }
    replace (a + zlen (part p)) with (a + zlen (map (pair p) (part p))) by (rewrite zlen_map; auto).
    match goal with |- context [forZ a _ ?b ?s] => destruct (for_slice (fun pre st =>
        let l := map snd pre in let '(ar, cur, num) := st in
        filled nnz (a_vals ar) (V0 ++ map e_val l) /\ filled nnz (a_rows ar) (R0 ++ map e_src l) /\
        filled total (a_idx ar) (I0 ++ map fst (cols l)) /\ filled total (a_ptrs ar) (P0 ++ pinit 0 (csizes (cols l))) /\
        cur = curcol (rcols l) /\ num = zlen (rcols l) - 1) sorted a (map (pair p) (part p)) b s) as ([[ar' cur] num] & -> & I) end.
    - apply slice_of; auto.
    - simpl. rewrite !app_nil_r. destruct Ha as (? & ? & ? & ?). split; [auto|]; split; [auto|]; split; [auto|]; split; [auto|]; split; reflexivity.
    - intros pre x post [[ar' cur] num] El Er (FV & FR & FI & FP & -> & ->). rewrite Er. cbn [bind]. cbv zeta.
      assert (part p = map snd pre ++ snd x :: map snd post) as Epart.
      { transitivity (map snd (map (pair p) (part p))); [rewrite map_map; simpl; rewrite map_id; auto|]. rewrite El, map_app. auto. }
      assert (zlen pre < zlen (part p)) as Lpre by (rewrite Epart, zlen_app, zlen_cons, zlen_map; pose proof (zlen_nonneg (map snd post)); lia).
      assert (In (p, snd x) sorted) as Hx by (apply part_in; rewrite Epart; apply in_or_app; simpl; auto). pose proof (Col _ Hx) as Bx. simpl in Bx.
      replace (a + (a + zlen pre - a)) with (a + zlen pre) by lia. replace (a + zlen pre - a) with (zlen pre) by lia.
      assert (zlen (map snd pre) = zlen pre) as Lm by apply zlen_map.
      destruct (filled_wr nnz (a_vals ar') _ (a + zlen pre) (e_val (snd x)) FV) as (vals & -> & FV'); [rewrite zlen_app, zlen_map; lia|rewrite zlen_app, zlen_map; lia|]. cbn [bind].
      destruct (filled_wr nnz (a_rows ar') _ (a + zlen pre) (e_src (snd x)) FR) as (rows & -> & FR'); [rewrite zlen_app, zlen_map; lia|rewrite zlen_app, zlen_map; lia|]. cbn [bind].
      rewrite <- app_assoc in FV', FR'. rewrite map_app. simpl map. set (l := map snd pre) in *.
      replace (map e_val l ++ [e_val (snd x)]) with (map e_val (l ++ [snd x])) in FV' by (rewrite map_app; auto).
      replace (map e_src l ++ [e_src (snd x)]) with (map e_src (l ++ [snd x])) in FR' by (rewrite map_app; auto).
      destruct (Z.ltb_spec (curcol (rcols l)) (e_dst (snd x))) as [L|L].
      + assert (zlen (cols l) + 1 <= zlen (cols (part p))) as Lc.
        { pose proof (cols_new l (snd x) L) as Ecn. rewrite !zlen_cols. replace (part p) with ((l ++ [snd x]) ++ map snd post) by (rewrite <- app_assoc; auto).
          pose proof (rcols_mono (l ++ [snd x]) (map snd post)). rewrite <- (zlen_cols (l ++ [snd x])), Ecn, zlen_app, zlen_cols, zlen_cons in H. change (zlen []) with 0 in H. lia. }
        replace (c + (zlen (rcols l) - 1 + 1)) with (c + zlen (cols l)) by (rewrite zlen_cols; lia).
        destruct (filled_wr total (a_idx ar') _ (c + zlen (cols l)) (e_dst (snd x)) FI) as (idx & -> & FI'); [rewrite zlen_app, zlen_map; lia|rewrite zlen_app, zlen_map; lia|]. cbn [bind].
        destruct (filled_wr total (a_ptrs ar') _ (c + zlen (cols l)) (zlen pre) FP) as (ptrs & -> & FP'); [unfold csizes; rewrite zlen_app, zlen_pinit, zlen_map; lia|unfold csizes; rewrite zlen_app, zlen_pinit, zlen_map; lia|]. cbn [bind].
        eexists. split; [reflexivity|]. simpl. split; [auto|]. split; [auto|]. rewrite (cols_new l (snd x) L). rewrite <- app_assoc in FI', FP'.
        split; [rewrite map_app; auto|]. split; [|split].
        * unfold csizes in *. rewrite map_app. simpl. rewrite pinit_snoc. simpl. replace (zsum (map (fun c => zlen (snd c)) (cols l))) with (zlen pre); auto.
          change (zlen pre = zsum (csizes (cols l))). rewrite csizes_sum, zlen_centries_cols. auto.
        * rewrite rcols_snoc. unfold grp. destruct (rcols l) as [|[d es] tl]; auto. simpl in L. apply Z.ltb_lt in L. rewrite L. auto.
        * rewrite rcols_snoc. unfold grp. destruct (rcols l) as [|[d es] tl]; auto. simpl in L. apply Z.ltb_lt in L. rewrite L. rewrite !zlen_cons. lia.
      + destruct (cols_old l (snd x)) as (Q1 & Q2 & Q3 & Q4 & Q5); try lia.
        eexists. split; [reflexivity|]. cbn [a_vals a_rows a_idx a_ptrs]. rewrite Q1, Q2, Q4, Q5. split; [exact FV'|]; split; [exact FR'|]; split; [exact FI|]; split; [exact FP|]; auto.
    - cbv zeta in I. assert (map snd (map (pair p) (part p)) = part p) as Em by (rewrite map_map; simpl; apply map_id). rewrite Em in I. destruct I as (FV & FR & FI & FP & _ & _). cbn [bind fst].
      destruct (filled_wr total (a_ptrs ar') _ (c + zlen (cols (part p))) (zlen (part p)) FP) as (ptrs & -> & FP'); [unfold csizes; rewrite zlen_app, zlen_pinit, zlen_map; lia|unfold csizes; rewrite zlen_app, zlen_pinit, zlen_map; lia|]. cbn [bind].
      destruct (filled_wr total (a_idx ar') _ (c + zlen (cols (part p))) (n + 1) FI) as (idx & -> & FI'); [rewrite zlen_app, zlen_map; lia|rewrite zlen_app, zlen_map; lia|]. cbn [bind].
      eexists. split; [reflexivity|]. unfold ar_ok. cbn [a_vals a_rows a_idx a_ptrs]. rewrite !flat_map_firstn_snoc with (a := cols (part p)) by auto.
      fold V0 R0 I0 P0. rewrite !centries_map, !map_map. simpl. split; [auto|]. split; [auto|]. rewrite <- app_assoc in FI', FP'. split; [auto|].
      unfold part_ptrs. rewrite prefix_sums_pinit. simpl. rewrite csizes_sum, zlen_centries_cols. auto.
  Qed.

End Ctor.

Section New.
  Context {E : Type}.
  Variable srt : list (tedge E) -> list (tedge E).
  Hypothesis Srt : is_sort srt.

  (** entries relative to the tile, 0-based *)
  Definition rel (rs cs : Z) (e : edge E) : edge E := mkE (e_src e - 1 - rs) (e_dst e - 1 - cs) (e_val e).

  Lemma mapR_total {A B} (f : A -> R B) (Q : A -> B -> Prop) l : (forall a, In a l -> exists b, f a = Ok b /\ Q a b) -> exists l', mapR f l = Ok l' /\ Forall2 Q l l'.
  Proof.
    induction l as [|a l IH]; intros H; [exists []; split; [auto|constructor]|]. destruct (H a ltac:(simpl; auto)) as (b & Eb & Qb).
    destruct IH as (l' & El & F); [intros; apply H; simpl; auto|]. exists (b :: l'). simpl. rewrite Eb. cbn [bind]. rewrite El. split; auto.
  Qed.

  Theorem dcsc_new_spec threads (edges : list (edge E)) m n rs cs junk : 1 <= threads -> 0 < zlen edges ->
    (forall e, In e edges -> rs + 1 <= e_src e <= rs + m /\ cs + 1 <= e_dst e <= cs + n) ->
    exists rp parts, dcsc_new srt threads edges m n rs cs junk = Ok (encode rp m n parts) /\ tile_ok rp m n parts /\ zlen parts = 16 * threads /\
      Permutation (map (rel rs cs) edges) (tile_edges parts) /\ zlen (flat_map centries parts) = zlen edges.
  Proof.
    intros Ht Hz Hin. unfold dcsc_new. assert (0 <? zlen edges = true) as -> by (apply Z.ltb_lt; lia).
    assert (0 <= m) as Hm. { destruct edges as [|e l]; [unfold zlen in Hz; simpl in Hz; lia|]. pose proof (Hin e ltac:(simpl; auto)). lia. }
    set (np := threads * 16). assert (1 <= np) as Hnp by lia.
    destruct (static_partition_spec m np Hm Hnp) as (rp & -> & Ro). cbn [bind].
    match goal with |- context [mapR ?f edges] => destruct (mapR_total f (fun e x => snd x = rel rs cs e /\ row_in rp (fst x) (e_src (snd x)) /\ 0 <= e_src (snd x) < m /\ 0 <= e_dst (snd x) < n) edges) as (pe & -> & F) end.
    { intros e He. pose proof (Hin e He) as B. destruct (find_partition_ok rp m np Ro Hnp (e_src e - 1 - rs)) as (p & Ep & Rp); [lia|].
      cbv zeta. rewrite Ep. cbn [bind]. pose proof (row_in_range rp m np Ro p _ Rp). assert (0 <=? p = true) as -> by (apply Z.leb_le; lia).
      cbn [bind assertb]. eexists. split; [reflexivity|]. simpl. repeat split; auto; lia. }
    cbn [bind].
    assert (forall x, In x pe -> row_in rp (fst x) (e_src (snd x)) /\ 0 <= e_src (snd x) < m /\ 0 <= e_dst (snd x) < n) as Hpe.
    { clear -F. induction F as [|e x l l' Q F IH]; simpl; [tauto|]. intros y [<-|Hy]; auto. tauto. }
    assert (map snd pe = map (rel rs cs) edges) as Epe.
    { clear -F. induction F as [|e x l l' Q F IH]; simpl; auto. f_equal; auto. tauto. }
    assert (zlen pe = zlen edges) as Lpe by (rewrite <- (zlen_map snd), Epe, zlen_map; auto).
    match goal with |- context [mapR ?f pe] => destruct (mapR_total f (fun _ _ => True) pe) as (u & -> & _) end.
    { intros x Hx. destruct (Hpe x Hx) as (_ & B & B'). exists tt. split; auto.
      destruct (Z.leb_spec 0 (e_src (snd x))); [|lia]. destruct (Z.leb_spec 0 (e_dst (snd x))); [|lia]. destruct (Z.ltb_spec (e_src (snd x)) m); [|lia]. destruct (Z.ltb_spec (e_dst (snd x)) n); [|lia]. auto. }
    cbn [bind]. cbv zeta. destruct (Srt pe) as [Pm Ss]. set (sorted := srt pe) in *.
    assert (zlen sorted = zlen edges) as Ls by (rewrite <- Lpe; unfold zlen; rewrite (Permutation_length Pm); auto).
    assert (forall e, In e sorted -> row_in rp (fst e) (e_src (snd e))) as Hrow by (intros e He; apply Hpe; eapply Permutation_in; [symmetry; eauto|auto]).
    assert (forall e, In e sorted -> 0 <= e_dst (snd e) < n) as Hcol by (intros e He; apply Hpe; eapply Permutation_in; [symmetry; eauto|auto]).
    rewrite <- Ls.
    destruct (set_edge_pointers_spec rp m np Ro Hnp sorted) as (ep & -> & Lep & Eep).
    { revert Ss. apply SS_weaken. intros a b H. apply compare_dcsc_le in H. tauto. }
    { auto. }
    cbn [bind]. set (parts := parts_of np sorted).
    assert (mapR (count_columns sorted ep) (zrange 0 np) = Ok (map zlen parts)) as ->.
    { unfold parts, parts_of. rewrite map_map. apply mapR_map. intros p Hp. apply in_zrange in Hp. apply (count_columns_spec rp m n np sorted Ro Ss Hrow Hcol ep Eep p Hp). }
    cbn [bind]. rewrite map_map.
    assert (zlen parts = np) as Lp by (apply zlen_parts; auto).
    assert (forall q, 0 <= q <= np -> rd (prefix_sums 0 (map (fun c => zlen c + 1) parts)) q = Ok (offs (part_idx n) parts q)) as Ecs.
    { intros q Hq. apply (enc_cs rp m n parts q). lia. }
    rewrite (Ecs np) by lia. cbn [bind].
    assert (offs (part_idx n) parts np = zlen (flat_map (part_idx n) parts)) as -> by (rewrite <- Lp; apply offs_all).
    match goal with |- context [forZ 0 np ?b ?s] => destruct (forZ_inv (fun p ar => ar_ok n np sorted (firstn (Z.to_nat p) parts) ar) 0 np b s) as (ar & -> & (FV & FR & FI & FP)) end.
    - lia.
    - simpl. repeat (split; [apply filled_start; apply zlen_nonneg|]). apply filled_start. apply zlen_nonneg.
    - intros p ar Hp Ha. apply (build_partition_spec rp m n np sorted Ro Hnp Ss Hrow Hcol ep Eep _ Ecs p ar Hp Ha).
    - assert (firstn (Z.to_nat np) parts = parts) as Ef by (rewrite <- Lp; unfold zlen; rewrite Nat2Z.id; apply firstn_all). rewrite Ef in *.
      pose proof (nnz_total rp m np sorted Ro Hnp Hrow) as Nt. fold parts in Nt.
      cbn [bind]. rewrite (filled_end _ _ _ FV); [|rewrite Nt, !zlen_flat_map; f_equal; apply map_ext; intros; apply zlen_map].
      cbn [bind]. rewrite (filled_end _ _ _ FR); [|rewrite Nt, !zlen_flat_map; f_equal; apply map_ext; intros; apply zlen_map].
      cbn [bind]. rewrite (filled_end _ _ _ FI); [|reflexivity].
      cbn [bind]. rewrite (filled_end _ _ _ FP); [|fold parts; rewrite !zlen_flat_map; f_equal; apply map_ext; intros; rewrite zlen_part_ptrs, zlen_part_idx; auto].
      cbn [bind]. exists rp, parts. split.
      + unfold encode. rewrite Nt, Lp. do 2 f_equal.
        apply rd_ext; [rewrite prefix_sums_len, zlen_map; lia|]. intros i Hi. rewrite Eep by lia.
        change (prefix_sums 0 (map (fun c : list (column E) => zlen (centries c)) parts)) with (t_edge_ptrs (encode rp m n parts)).
        rewrite enc_ep by lia. f_equal. symmetry. apply eoff_kstart; auto. lia.
      + split; [apply parts_ok; auto|]. split; [lia|]. split; [|lia].
        unfold parts. rewrite (parts_edges rp m n np sorted Ro Ss Hrow Hcol). rewrite <- Epe. apply Permutation_map. auto.
  Qed.
End New.
