From Coq Require Import Sorting.Sorted.
From Verif Require Import BaseLemmas Layout Reduce ReduceProofs DCSC MatSpec Segment Vec SpMat GraphVert Graph Runtime RunSpec RuntimeProofs GraphOps GraphHist GraphHistProofs Apps AppSpec AppBase DegreeProofs.

Definition sorts_ints (srt : list Z -> list Z) : Prop := forall l, Permutation l (srt l) /\ Sorted Z.le (srt l).

(** *** the intersection of two sorted vectors *)
Definition inb (x : Z) (l : list Z) : bool := existsb (Z.eqb x) l.
Lemma inb_In x l : inb x l = true <-> In x l.
Proof. unfold inb. rewrite existsb_exists. split; [intros (y & Hy & E); apply Z.eqb_eq in E; subst; auto|]. intros H. exists x. split; auto. apply Z.eqb_refl. Qed.
Lemma sorted_strict l : Sorted Z.le l -> NoDup l -> StronglySorted Z.lt l.
Proof.
  intros Hs. apply Sorted_StronglySorted in Hs; [|intros a b c; lia]. induction Hs as [|a l Hs IH F]; intros Nd; constructor; inversion Nd as [|? ? Na Nd']; subst.
  - apply IH; auto.
  - rewrite Forall_forall in *. intros x Hx. specialize (F x Hx). destruct (Z.eq_dec a x) as [->|]; [contradiction|]. lia.
Qed.
Lemma common_spec l1 : StronglySorted Z.lt l1 -> forall l2, StronglySorted Z.lt l2 -> common l1 l2 = zlen (filter (fun x => inb x l2) l1).
Proof.
  induction 1 as [|a r1 S1 IH F1]; [intros [|b l2] _; reflexivity|]. rewrite Forall_forall in F1.
  induction 1 as [|b r2 S2 IH2 F2].
  - cbn [common]. rewrite (filter_ext _ (fun _ => false)) by reflexivity. clear. induction (a :: r1); auto.
  - rewrite Forall_forall in F2. assert (common (a :: r1) (b :: r2) = if a =? b then 1 + common r1 r2 else if a <? b then common r1 (b :: r2) else common (a :: r1) r2) as -> by reflexivity.
    destruct (Z.eqb_spec a b) as [->|Ne].
    + rewrite (IH r2 S2). cbn [filter]. assert (inb b (b :: r2) = true) as -> by (apply inb_In; simpl; auto). rewrite zlen_cons. replace (filter (fun x => inb x (b :: r2)) r1) with (filter (fun x => inb x r2) r1); [lia|].
      apply filter_ext_in. intros x Hx. specialize (F1 x Hx). apply Bool.eq_true_iff_eq. rewrite !inb_In. simpl. split; auto. intros [<-|H]; auto. lia.
    + destruct (Z.ltb_spec a b).
      * rewrite (IH (b :: r2)) by (constructor; auto; apply Forall_forall; auto). cbn [filter]. destruct (inb a (b :: r2)) eqn:Ea; [|reflexivity]. apply inb_In in Ea as [<-|Ea]; [lia|]. specialize (F2 a Ea). lia.
      * rewrite IH2. f_equal. apply filter_ext_in. intros x Hx. apply Bool.eq_true_iff_eq. rewrite !inb_In. simpl. split; auto. intros [<-|Hb]; auto. destruct Hx as [<-|Hx]; [lia|]. specialize (F1 b Hx). lia.
Qed.

(** *** sums over vertices and over edges *)
Lemma sum_plus {A} (f g : A -> Z) l : sum (map (fun x => f x + g x) l) = sum (map f l) + sum (map g l).
Proof. induction l as [|x l IH]; cbn [map sum]; [reflexivity|]. lia. Qed.
Lemma sum_ext {A} (f g : A -> Z) l : (forall x, In x l -> f x = g x) -> sum (map f l) = sum (map g l).
Proof. intros H. rewrite (map_ext_in f g) by auto. reflexivity. Qed.
Lemma sum_one y c l : NoDup l -> In y l -> sum (map (fun v => if y =? v then c else 0) l) = c.
Proof.
  induction 1 as [|x l Nx Nd IH]; intros Hy; [destruct Hy|]. cbn [map sum]. destruct Hy as [->|Hy].
  - rewrite Z.eqb_refl. rewrite (sum_ext _ (fun _ => 0)); [rewrite sum_zeros; lia|]. intros v Hv. destruct (Z.eqb_spec y v) as [->|]; [contradiction|reflexivity].
  - rewrite IH by auto. destruct (Z.eqb_spec y x) as [->|]; [contradiction|]. lia.
Qed.
Lemma sum_by_dst {E} (c : edge E -> Z) n es : (forall e, In e es -> 1 <= e_dst e <= n) -> sum (map (fun v => sum (map c (filter (fun e => e_dst e =? v) es))) (zrange 1 (n + 1))) = sum (map c es).
Proof.
  induction es as [|e es IH]; intros H; [apply sum_zeros|]. cbn [map sum]. rewrite <- IH by (intros; apply H; simpl; auto).
  rewrite (sum_ext _ (fun v => (if e_dst e =? v then c e else 0) + sum (map c (filter (fun e => e_dst e =? v) es)))).
  - rewrite sum_plus. rewrite (sum_one (e_dst e) (c e)); [reflexivity|apply NoDup_zrange|]. apply in_zrange. specialize (H e ltac:(simpl; auto)). lia.
  - intros v _. cbn [filter]. destruct (e_dst e =? v); reflexivity.
Qed.
Lemma sum_nonneg l : (forall x, In x l -> 0 <= x) -> 0 <= sum l.
Proof. induction l as [|x l IH]; intros H; cbn [sum]; [lia|]. specialize (IH ltac:(intros; apply H; simpl; auto)). specialize (H x ltac:(simpl; auto)). lia. Qed.
Lemma sum_member l x : (forall y, In y l -> 0 <= y) -> In x l -> x <= sum l.
Proof.
  induction l as [|y l IH]; intros H Hx; [destruct Hx|]. cbn [sum]. pose proof (H y ltac:(simpl; auto)). pose proof (sum_nonneg l ltac:(intros; apply H; simpl; auto)).
  destruct Hx as [->|Hx]; [lia|]. specialize (IH ltac:(intros; apply H; simpl; auto) Hx). lia.
Qed.
Lemma sum_filter_le {A} (c : A -> Z) (b : A -> bool) l : (forall x, 0 <= c x) -> sum (map c (filter b l)) <= sum (map c l).
Proof. intros H. induction l as [|x l IH]; cbn [filter map sum]; [lia|]. specialize (H x). destruct (b x); cbn [map sum]; lia. Qed.
Lemma zlen_flat_map {A B} (f : A -> list B) l : zlen (flat_map f l) = sum (map (fun x => zlen (f x)) l).
Proof. induction l as [|x l IH]; [reflexivity|]. cbn [flat_map map sum]. rewrite zlen_app, IH. reflexivity. Qed.

(** *** the triangles *)
Section List.
  Variable es : list (edge Z).
  Definition outs (x : Z) : list Z := map e_dst (filter (fun e => e_src e =? x) es).
  Definition closing (e : edge Z) : list Z := filter (fun w => inb w (outs (e_dst e))) (outs (e_src e)).
  Definition all_triangles : list (Z * Z * Z) := flat_map (fun e => map (fun w => (e_src e, e_dst e, w)) (closing e)) es.
  Lemma in_outs x w : In w (outs x) <-> has_edge es x w.
  Proof.
    unfold outs, has_edge. rewrite in_map_iff. split.
    - intros (e & <- & He). apply filter_In in He as [He Ex]. apply Z.eqb_eq in Ex. exists e. auto.
    - intros (e & He & Es & Ed). exists e. split; auto. apply filter_In. split; auto. apply Z.eqb_eq. auto.
  Qed.
  Lemma outs_nodup x : simple_edges es -> NoDup (outs x).
  Proof.
    unfold simple_edges, outs. induction es as [|e l IH]; intros H; [constructor|]. cbn [map filter] in *. inversion H as [|? ? Hn Hd]; subst. destruct (Z.eqb_spec (e_src e) x) as [<-|]; [|auto]. cbn [map]. constructor; auto.
    intros Hi. apply in_map_iff in Hi as (e' & Ed & He'). apply filter_In in He' as [He' Es]. apply Z.eqb_eq in Es. apply Hn. apply in_map_iff. exists e'. split; auto. congruence.
  Qed.
  Lemma nodup_flat_map {A B} (f : A -> list B) l : NoDup l -> (forall x, In x l -> NoDup (f x)) -> (forall x y b, In x l -> In y l -> In b (f x) -> In b (f y) -> x = y) -> NoDup (flat_map f l).
  Proof.
    induction 1 as [|x l Nx Nd IH]; intros H1 H2; [constructor|]. cbn [flat_map].
    assert (forall l1 l2 : list B, NoDup l1 -> NoDup l2 -> (forall b, In b l1 -> In b l2 -> False) -> NoDup (l1 ++ l2)) as Happ.
    { clear. induction 1 as [|a l1 Na Nd IH]; intros N2 Hd; [auto|]. cbn [app]. constructor.
      - rewrite in_app_iff. intros [Hi|Hi]; [auto|]. apply (Hd a); simpl; auto.
      - apply IH; auto. intros b Hb. apply Hd. simpl; auto. }
    apply Happ.
    - apply H1. simpl; auto.
    - apply IH; [intros; apply H1; simpl; auto|]. intros a b c Ha Hb. apply H2; simpl; auto.
    - intros b Hb Hl. apply in_flat_map in Hl as (y & Hy & Hb'). assert (x = y) by (eapply H2; simpl; eauto). congruence.
  Qed.
  Lemma all_triangles_ok : simple_edges es -> triangles es all_triangles.
  Proof.
    intros Hs. split.
    - apply nodup_flat_map.
      + apply NoDup_map_inv in Hs. exact Hs.
      + intros e _. apply FinFun.Injective_map_NoDup; [intros a b E; congruence|]. apply NoDup_filter, outs_nodup, Hs.
      + intros e e' b He He' Hb Hb'. apply in_map_iff in Hb as (w & <- & _). apply in_map_iff in Hb' as (w' & Ew & _). injection Ew as E1 E2 _.
        clear -Hs He He' E1 E2. unfold simple_edges in Hs. induction es as [|x l IH]; [destruct He|]. cbn [map] in Hs. inversion Hs as [|? ? Hn Hd]; subst.
        destruct He as [->|He], He' as [->|He']; auto; exfalso; apply Hn; apply in_map_iff; [exists e'|exists e]; split; auto; congruence.
    - intros a b c. unfold all_triangles. rewrite in_flat_map. split.
      + intros (e & He & Ht). apply in_map_iff in Ht as (w & Ew & Hw). injection Ew as <- <- <-. apply filter_In in Hw as [H1 H2]. apply in_outs in H1. apply inb_In, in_outs in H2. split; [exists e; auto|]. auto.
      + intros ((e & He & <- & <-) & H2 & H3). exists e. split; auto. apply in_map_iff. exists c. split; auto. apply filter_In. split; [apply in_outs; auto|apply inb_In, in_outs; auto].
  Qed.
  Lemma all_triangles_len : zlen all_triangles = sum (map (fun e => zlen (closing e)) es).
  Proof. unfold all_triangles. rewrite zlen_flat_map. apply sum_ext. intros e _. unfold zlen. rewrite map_length. reflexivity. Qed.
End List.
Lemma triangles_unique es l l' : triangles es l -> triangles es l' -> zlen l = zlen l'.
Proof.
  intros [N H] [N' H']. unfold zlen. f_equal. apply Permutation_length. apply NoDup_Permutation; auto. intros [[a b] c]. rewrite H, H'. reflexivity.
Qed.

Lemma concat_single {A B} (f : A -> B) l : concat (map (fun x => [f x]) l) = map f l.
Proof. induction l as [|x l IH]; [reflexivity|]. cbn [map concat app]. rewrite IH. reflexivity. Qed.
(** *** concatenation and 64-bit addition *)
Lemma combination_app {A} (l : list (list A)) u : combination (fun a b => a ++ b) l u -> Permutation (concat l) u.
Proof.
  induction 1 as [a|l l1 l2 a b H1 IH1 H2 IH2 Hp]; [cbn; rewrite app_nil_r; auto|].
  assert (forall x y : list (list A), Permutation x y -> Permutation (concat x) (concat y)) as Hc.
  { induction 1; cbn [concat]; auto; [apply Permutation_app_head; auto|rewrite !app_assoc; apply Permutation_app_tail, Permutation_app_comm|eapply Permutation_trans; eauto]. }
  rewrite (Hc _ _ Hp), concat_app. apply Permutation_app; auto.
Qed.
Lemma u64_comm : commutative u64_add.
Proof. intros a b. unfold u64_add. f_equal. lia. Qed.
Lemma u64_assoc : associative u64_add.
Proof. intros a b c. unfold u64_add. rewrite Z.add_mod_idemp_l, Z.add_mod_idemp_r by lia. f_equal. lia. Qed.
Lemma red_u64 l : (forall x, In x l -> 0 <= x) -> l <> [] -> sum l < 2 ^ 64 -> red u64_add l = Some (sum l).
Proof.
  destruct l as [|x l]; [congruence|]. intros H _. cbn [red sum]. intros B. f_equal. pose proof (H x ltac:(simpl; auto)) as Px.
  assert (forall y, In y l -> 0 <= y) as H' by (intros; apply H; simpl; auto). clear H. revert x Px B. induction l as [|y l IH]; intros x Px B; cbn [fold_left sum] in *; [lia|].
  pose proof (H' y ltac:(simpl; auto)). pose proof (sum_nonneg l ltac:(intros; apply H'; simpl; auto)).
  unfold u64_add at 2. rewrite Z.mod_small by lia. rewrite IH; [lia|intros; apply H'; simpl; auto|lia|lia].
Qed.

Section RunTriangles.
  Context {byte : Type}.
  Variable srt : list Z -> list Z.
  Hypothesis Hsrt : sorts_ints srt.
  Variable m : machine tc_vertex Z byte.
  Variables (n : Z) (blobs : list (list (edge Z))).
  Hypothesis Hset : setting m n blobs.
  Notation es := (concat blobs).
  Hypothesis Hsimple : simple_edges es.
  Variables (th : Z) (fr1 : frame Z (list Z) byte) (fr2 : frame tc_vertex Z byte) (dt1 : Z) (dt2 dv : tc_vertex) (junk : Z).
  Hypothesis Ht : threads_ok m (m_serv m) th.
  Hypothesis Hfr1 : frame_ok m th fr1.
  Hypothesis Hfr2 : frame_ok m th fr2.
  Notation nr := (m_nr m).
  Let Hm : machine_ok m. Proof. apply Hset. Qed.
  Let Hn0 : 0 <= n. Proof. apply Hset. Qed.
  Let Hr : 1 <= nr. Proof. apply Hm. Qed.

  Lemma run_triangles_spec : zlen (all_triangles es) < 2 ^ 31 ->
    exists g P, run_triangles srt m th fr1 fr2 dt1 dt2 dv junk n blobs = Ok (g, map (fun _ => zlen (all_triangles es)) (zrange 0 nr)) /\
      shows_properties n m g P /\
      forall v, 1 <= v <= n -> tc_id (P v) = v /\ StronglySorted Z.lt (tc_neighbors (P v)) /\ (forall w, In w (tc_neighbors (P v)) <-> has_edge es v w) /\
        tc_triangles (P v) = zlen (filter (fun t => snd (fst t) =? v) (all_triangles es)).
  Proof.
    intros Hlt. pose proof Hset as (_ & _ & Lb & Hin). unfold run_triangles. destruct (load_is m Hm n Hn0 (mkTC junk 0 []) blobs Lb Hin) as (g0 & -> & H0). cbn [bind].
    destruct (init_is m Hm n Hn0 th fr1 dt1 g0 _ Hfr1 H0) as (xy & -> & Hxy). cbn [bind].
    destruct (init_is m Hm n Hn0 th fr2 dt2 g0 _ Hfr2 H0) as (xy2 & -> & Hxy2). cbn [bind].
    destruct (each_is m Hm n Hn0 (fun i g => modify_owned m th i (mkTC junk 0 []) (fun p => mkTC i (tc_triangles p) (tc_neighbors p)) g) (fun i p => mkTC i (tc_triangles p) (tc_neighbors p)) g0 _ H0) as (g1 & -> & H1).
    { intros i g q Bi Hg. apply (modify_owned_is tc_neq m Hm n Hn0 th i (mkTC junk 0 []) (fun p => mkTC i (tc_triangles p) (tc_neighbors p)) g q Ht Bi Hg). }
    cbn [bind].
    destruct (run_once tc_neq m Hm n Hn0 th (get_neighbors srt) tt dt1 dv 1 fr1 (Some xy) (fun _ => dt1) g1 _ Ht Hfr1 H1 Hxy ltac:(lia)) as (Y1 & r1 & -> & HY1 & H2 & _). cbn [bind fst].
    cbn [gs_es gs_P gs_A loaded tc_triangles tc_neighbors] in *.
    match type of H2 with is _ _ _ (mkGS _ ?P _) => set (P1 := P) in * end.
    assert (forall v, 1 <= v <= n -> exists N, P1 v = mkTC v 0 N /\ StronglySorted Z.lt N /\ forall w, In w N <-> In w (outs es v)) as HP1.
    { intros v Bv. specialize (HY1 v Bv). unfold P1, updated_with. cbn [v_P begin v_s].
      rewrite (received_all_in (get_neighbors srt) _ dv _ (fun x => x)) in HY1; [|reflexivity|reflexivity]. cbn [pr_process get_neighbors pr_reduce] in HY1.
      destruct (Y1 v) as [u|]; cbn [combined_of] in HY1.
      - apply combination_app in HY1. assert (concat (map (fun e : edge Z => [e_dst e]) (filter (fun e => e_src e =? v) es)) = outs es v) as Eo.
        { apply concat_single. }
        rewrite Eo in HY1. exists (srt u). split; [reflexivity|]. destruct (Hsrt u) as [Hp Hs]. split.
        + apply sorted_strict; auto. eapply Permutation_NoDup; [exact Hp|]. eapply Permutation_NoDup; [exact HY1|]. apply outs_nodup, Hsimple.
        + intros w. split; intros Hw.
          * eapply Permutation_in; [symmetry; exact HY1|]. eapply Permutation_in; [symmetry; exact Hp|]. exact Hw.
          * eapply Permutation_in; [exact Hp|]. eapply Permutation_in; [exact HY1|]. exact Hw.
      - exists []. split; [reflexivity|]. split; [constructor|]. unfold outs. intros w. destruct (filter _ es); [reflexivity|discriminate]. }
    destruct (run_once tc_neq m Hm n Hn0 th count_triangles tt dt2 dv 1 fr2 (Some xy2) (fun _ => dt2) (r_g r1) _ Ht Hfr2 H2 Hxy2 ltac:(lia)) as (Y2 & r2 & -> & HY2 & H3 & _). cbn [bind fst].
    cbn [gs_es gs_P gs_A] in *.
    match type of H3 with is _ _ _ (mkGS _ ?P _) => set (P2 := P) in * end.
    set (c := fun e => zlen (closing es e)).
    assert (forall e, 0 <= c e) as Pc by (intros; apply zlen_nonneg).
    assert (forall v, 0 <= sum (map c (filter (fun e => e_dst e =? v) es)) <= zlen (all_triangles es)) as Bc.
    { intros v. split; [apply sum_nonneg; intros x Hx; apply in_map_iff in Hx as (e & <- & _); auto|]. rewrite all_triangles_len. fold c.
      apply sum_filter_le. exact Pc. }
    assert (forall v, 1 <= v <= n -> exists N, P2 v = mkTC v (sum (map c (filter (fun e => e_dst e =? v) es))) N /\ P1 v = mkTC v 0 N) as HP2.
    { intros v Bv. specialize (HY2 v Bv). destruct (HP1 v Bv) as (N & EN & SN & MN). exists N. split; [|exact EN]. unfold P2, updated_with. cbn [v_P begin v_s]. rewrite EN.
      rewrite (received_all_out count_triangles _ dv _ P1) in HY2; [|reflexivity|reflexivity]. cbn [pr_process count_triangles pr_reduce] in HY2.
      unfold seen in HY2. cbn [pr_reqv count_triangles v_P begin] in HY2. rewrite EN in HY2. cbn [tc_neighbors] in HY2.
      rewrite (map_ext_in _ c) in HY2.
      2:{ intros e He. apply filter_In in He as [He Ed]. apply Z.eqb_eq in Ed. destruct (Hin e He) as [Bs _]. destruct (HP1 _ Bs) as (N' & EN' & SN' & MN'). rewrite EN'. cbn [tc_neighbors]. rewrite common_spec by auto.
          assert (zlen (filter (fun x => inb x N) N') = c e) as ->.
          { unfold c, closing. unfold zlen. f_equal. apply Permutation_length. apply NoDup_Permutation.
            - apply NoDup_filter. clear -SN'. induction SN' as [|a l S IH F]; constructor; auto. intros Hi. rewrite Forall_forall in F. specialize (F a Hi). lia.
            - apply NoDup_filter, outs_nodup, Hsimple.
            - intros w. rewrite !filter_In, !inb_In, MN', MN, Ed. reflexivity. }
          apply i32_id. pose proof (sum_member (map c (filter (fun e => e_dst e =? v) es)) (c e)) as B. specialize (B ltac:(intros y Hy; apply in_map_iff in Hy as (e' & <- & _); auto)).
          specialize (B ltac:(apply in_map; apply filter_In; split; [auto|apply Z.eqb_eq; auto])). specialize (Bc v). specialize (Pc e). lia. }
      specialize (Bc v). destruct (Y2 v) as [u|]; cbn [combined_of] in HY2.
      - cbn [pr_apply count_triangles tc_id tc_triangles tc_neighbors]. f_equal. apply combination_i32 in HY2.
        + rewrite HY2. unfold i32_add. rewrite Z.add_0_l. rewrite (i32_id (sum _)) by lia. apply i32_id. lia.
        + intros x Hx. pose proof (sum_member (map c (filter (fun e => e_dst e =? v) es)) x ltac:(intros y Hy; apply in_map_iff in Hy as (e1 & <- & _); apply Pc) Hx). apply in_map_iff in Hx as (e & <- & _). specialize (Pc e). lia.
      - rewrite HY2. reflexivity. }
    destruct (reduce_op m Hm n Hn0 th return_triangles u64_add (fun _ => 0) (r_g r2) _ Ht u64_assoc H3) as (g4 & k & -> & H4 & Hk). specialize (Hk u64_comm). cbn [gs_P gs_es gs_A] in *.
    rewrite red_u64 in Hk.
    - injection Hk as ->. exists g4. eexists. split.
      + f_equal. f_equal. apply map_ext. intros _. rewrite sum_app, sum_zeros, Z.add_0_l. rewrite all_triangles_len. fold c. rewrite <- (sum_by_dst c n es) by (intros e He; apply Hin; auto).
        apply sum_ext. intros v Bv. apply in_zrange in Bv. destruct (HP2 v ltac:(lia)) as (N & -> & _). cbn [return_triangles snd tc_triangles]. apply Z.mod_small. specialize (Bc v). lia.
      + split; [apply (is_properties tc_neq m Hm n Hn0 _ _ H4)|]. intros v Bv. cbn [gs_P return_triangles fst]. destruct (HP2 v Bv) as (N & -> & EN). destruct (HP1 v Bv) as (N' & EN' & SN & MN). rewrite EN in EN'. injection EN' as <-.
        cbn [tc_id tc_neighbors tc_triangles]. split; auto. split; auto. split; [intros w; rewrite MN; apply in_outs|].
        unfold all_triangles. clear. unfold c. generalize es at 2 4. induction l as [|e l IH]; [reflexivity|]. cbn [filter flat_map]. rewrite filter_app, zlen_app, <- IH.
        assert (forall ws, zlen (filter (fun t : Z * Z * Z => snd (fst t) =? v) (map (fun w => (e_src e, e_dst e, w)) ws)) = if e_dst e =? v then zlen ws else 0) as ->.
        { induction ws as [|w ws IHw]; cbn [map filter fst snd]; [destruct (e_dst e =? v); reflexivity|]. destruct (e_dst e =? v); rewrite ?zlen_cons; lia. }
        destruct (e_dst e =? v); cbn [map sum]; lia.
    - intros x Hx. apply in_app_iff in Hx as [Hx|Hx]; apply in_map_iff in Hx as (y & <- & _); [lia|]. cbn. apply Z.mod_pos_bound. lia.
    - rewrite zrange_cons by lia. discriminate.
    - rewrite sum_app, sum_zeros, Z.add_0_l. rewrite (sum_ext _ (fun v => sum (map c (filter (fun e => e_dst e =? v) es)))).
      + rewrite sum_by_dst by (intros e He; apply Hin; auto). unfold c. rewrite <- all_triangles_len. lia.
      + intros v Bv. apply in_zrange in Bv. destruct (HP2 v ltac:(lia)) as (N & -> & _). cbn [return_triangles snd tc_triangles]. apply Z.mod_small. specialize (Bc v). lia.
  Qed.
End RunTriangles.
