From Verif Require Import BaseLemmas Layout LayoutProofs Reduce ReduceProofs Bits Segment SegmentProofs SegHistory Bucket Vec VecProofs VecProofs2 GraphVertProofs ListLemmas DCSC DCSCProofs Kernel MatSpec SpMat SpMatProofs SpMSpV DistProofs GraphVert Graph GraphProofs Runtime RunSpec HeldProofs RuntimeProofs GraphOps GraphOpsProofs GraphHist GraphHistProofs RunFinal Apps AppSpec.

Lemma mapR_pair {A B C} (f : A -> R (B * C)) f1 f2 l : forall la lb, mapR f1 l = Ok la -> mapR f2 l = Ok lb ->
  (forall r a b, In r l -> f1 r = Ok a -> f2 r = Ok b -> f r = Ok (a, b)) -> exists lr, mapR f l = Ok lr /\ map fst lr = la /\ map snd lr = lb.
Proof.
  induction l as [|x l IH]; intros la lb H1 H2 H; cbn [mapR] in *.
  - injection H1 as <-. injection H2 as <-. exists []. auto.
  - apply bind_Ok in H1 as (a & E1 & H1). apply bind_Ok in H1 as (ra & R1 & H1). injection H1 as <-.
    apply bind_Ok in H2 as (b & E2 & H2). apply bind_Ok in H2 as (rb & R2 & H2). injection H2 as <-.
    rewrite (H x a b) by (simpl; auto). cbn [bind]. destruct (IH ra rb R1 R2) as (lr & -> & <- & <-); [intros; apply H; simpl; auto|].
    cbn [bind]. eexists. split; [reflexivity|]. auto.
Qed.
Lemma mapR_rd_self {A} (l : list A) : mapR (rd l) (zrange 0 (zlen l)) = Ok l.
Proof.
  induction l as [|x l IH] using rev_ind; [reflexivity|]. rewrite zlen_app. change (zlen [x]) with 1.
  rewrite zrange_snoc by (pose proof (zlen_nonneg l); lia). rewrite mapR_app.
  rewrite (mapR_ext _ (rd l)); [rewrite IH; cbn [bind mapR]|].
  - rewrite rd_app2 by lia. rewrite Z.sub_diag. reflexivity.
  - intros r Hr. apply in_zrange in Hr. apply rd_app1. lia.
Qed.

(** *** int arithmetic *)
Lemma i32_id x : - 2 ^ 31 <= x < 2 ^ 31 -> i32 x = x.
Proof. intros H. unfold i32. rewrite Z.mod_small by lia. lia. Qed.
Lemma i32_mod x y : x mod 2 ^ 32 = y mod 2 ^ 32 -> i32 x = i32 y.
Proof. intros H. unfold i32. rewrite <- (Z.add_mod_idemp_l x), <- (Z.add_mod_idemp_l y) by lia. rewrite H. reflexivity. Qed.
Lemma i32_cong x : i32 x mod 2 ^ 32 = x mod 2 ^ 32.
Proof. unfold i32. rewrite Zminus_mod_idemp_l. f_equal. lia. Qed.
Lemma i32_plus_l x y : i32 (i32 x + y) = i32 (x + y).
Proof. apply i32_mod. rewrite <- Z.add_mod_idemp_l, i32_cong, Z.add_mod_idemp_l by lia. reflexivity. Qed.
Lemma i32_plus_r x y : i32 (x + i32 y) = i32 (x + y).
Proof. rewrite Z.add_comm, i32_plus_l, Z.add_comm. reflexivity. Qed.
Lemma i32_comm : commutative i32_add.
Proof. intros a b. unfold i32_add. f_equal. lia. Qed.
Lemma i32_assoc : associative i32_add.
Proof. intros a b c. unfold i32_add. rewrite i32_plus_l, i32_plus_r. f_equal. lia. Qed.
Fixpoint sum (l : list Z) : Z := match l with [] => 0 | x :: l => x + sum l end.
Lemma sum_app l l' : sum (l ++ l') = sum l + sum l'.
Proof. induction l as [|x l IH]; cbn [app sum]; [reflexivity|]. lia. Qed.
Lemma sum_perm l l' : Permutation l l' -> sum l = sum l'.
Proof. induction 1; cbn [sum] in *; lia. Qed.
Lemma fold_i32 l : forall a, fold_left i32_add l a = if is_nil l then a else i32 (a + sum l).
Proof.
  induction l as [|x l IH]; intros a; cbn [fold_left is_nil]; auto. rewrite IH. cbn [sum]. destruct l as [|y l]; cbn [is_nil].
  - unfold i32_add. f_equal. cbn. lia.
  - unfold i32_add at 1. rewrite i32_plus_l. f_equal. lia.
Qed.
Lemma red_i32 l : (forall x, In x l -> - 2 ^ 31 <= x < 2 ^ 31) -> l <> [] -> red i32_add l = Some (i32 (sum l)).
Proof.
  destruct l as [|x l]; [congruence|]. intros H _. cbn [red sum]. f_equal. rewrite fold_i32. destruct l as [|y l]; cbn [is_nil]; auto.
  cbn. rewrite Z.add_0_r, i32_id; auto. apply H. simpl; auto.
Qed.
Lemma combination_i32 l u : combination i32_add l u -> (forall x, In x l -> - 2 ^ 31 <= x < 2 ^ 31) -> u = i32 (sum l).
Proof.
  induction 1 as [a|l l1 l2 a b H1 IH1 H2 IH2 Hp]; intros H.
  - cbn. rewrite Z.add_0_r, i32_id; auto. apply H. simpl; auto.
  - assert (forall x, In x (l1 ++ l2) -> - 2 ^ 31 <= x < 2 ^ 31) as H' by (intros x Hx; apply H; eapply Permutation_in; [symmetry; exact Hp|exact Hx]).
    rewrite IH1, IH2 by (intros; apply H'; apply in_app_iff; auto). unfold i32_add. rewrite i32_plus_l, i32_plus_r. rewrite (sum_perm _ _ Hp), sum_app. reflexivity.
Qed.
Lemma sum_zeros {A} (l : list A) : sum (map (fun _ => 0) l) = 0.
Proof. induction l; cbn [map sum]; auto. Qed.
Lemma sum_bits {A} (b : A -> bool) l : sum (map (fun x => if b x then 1 else 0) l) = zlen (filter b l).
Proof.
  induction l as [|x l IH]; cbn [map sum filter]; [reflexivity|]. rewrite IH.
  destruct (b x); rewrite ?zlen_cons; lia.
Qed.
Lemma zlen_filter_le {A} (b : A -> bool) l : zlen (filter b l) <= zlen l.
Proof. induction l as [|x l IH]; cbn [filter]; [lia|]. destruct (b x); rewrite ?zlen_cons; lia. Qed.

Section Base.
  Context {V E byte : Type}.
  Variable neq : V -> V -> bool.
  Variable m : machine V E byte.
  Hypothesis Hm : machine_ok m.
  Variable n : Z.
  Hypothesis Hn : 0 <= n.
  Notation gr := (graph V E byte).
  Notation nr := (m_nr m).
  Notation nt := (m_nt m).
  Notation is := (is m n).
  Let Hr : 1 <= nr. Proof. apply Hm. Qed.
  Let Hnt : 1 <= nt. Proof. apply Hm. Qed.

  Lemma is_ext (g : gr) q q' : gs_es q = gs_es q' -> (forall v, 1 <= v <= n -> gs_P q v = gs_P q' v /\ gs_A q v = gs_A q' v) -> is g q -> is g q'.
  Proof.
    intros He Hq (Hin & H1 & Hv & Lv & Ha & La). rewrite He in *. split; [exact Hin|]. split; [exact H1|]. split; [|split; [exact Lv|split; [|exact La]]].
    - eapply held_ext; [auto|auto| |exact Hv]. intros id Hi. rewrite !native_in by auto. f_equal. apply Hq. apply (n2v_ok nt nr n id Hnt Hr Hi).
    - eapply held_ext; [auto|auto| |exact Ha]. intros id Hi. rewrite !nativeo_in by auto. apply Hq. apply (n2v_ok nt nr n id Hnt Hr Hi).
  Qed.
  Lemma is_n (g : gr) q : is g q -> g_n g = n.
  Proof. intros (_ & (Gn & _) & _). exact Gn. Qed.

  (** *** reading and writing one property *)
  Lemma get_is (g : gr) q r v d segs : is g q -> rd (g_vp g) r = Ok segs -> 1 <= v <= n -> 0 <= r < nr ->
    g_getVertexproperty n nr nt r v d segs = Ok (Some (if owner n nr nt v =? r then gs_P q v else d)).
  Proof.
    intros (_ & _ & Hv & Lv & _) Es Bv Br. destruct (held_gall m n _ _ _ Hv Lv) as [L G]. apply get_spec; auto.
  Qed.
  Lemma set_other th r v a b (segs : list (seg V byte)) : 1 <= v <= n -> owner n nr nt v <> r -> g_setVertexproperty n nr nt th r v a segs = g_setVertexproperty n nr nt th r v b segs.
  Proof.
    intros Bv Hne. unfold g_setVertexproperty. destruct (v2n_ok nt nr n v Hnt Hr Bv) as [-> B]. cbn [bind]. unfold vec_set, at_owner.
    rewrite vpart_ok by auto. cbn [bind]. destruct (assertb _); auto. cbn [bind]. destruct (vown nr nr _) as [o|] eqn:Eo; auto. cbn [bind].
    destruct (Z.eqb_spec o r) as [->|]; auto. exfalso. apply Hne. unfold owner.
    pose proof (vpart_range n nr (v2n nt nr n v) Hn Hr B) as [B1 B2]. rewrite (vown_ok nr nr Hr) in Eo by lia. injection Eo as Eo. exact Eo.
  Qed.
  Lemma is_rows (g : gr) q : is g q -> zlen (g_vp g) = nr /\ zlen (g_act g) = nr.
  Proof.
    intros (_ & _ & Hv & _ & Ha & _). split; [apply Hv|apply Ha].
  Qed.

  Lemma modify_is th v d f (g : gr) q : threads_ok m (m_serv m) th -> 1 <= v <= n -> is g q ->
    exists g', modify m th v d f g = Ok g' /\ is g' (mkGS (gs_es q) (fun u => if u =? v then f (gs_P q v) else gs_P q u) (gs_A q)).
  Proof.
    intros Ht Bv Hg. destruct (vp_op neq m Hm n Hn th (GSet v (f (gs_P q v))) g q Ht Bv Hg) as (g' & E' & Hg'). exists g'. split; [|exact Hg'].
    rewrite <- E'. unfold modify, g_vp_all. pose proof Hg as (_ & (Gn & Gt & _) & _). rewrite Gn, Gt. f_equal. unfold on_ranks. apply mapR_ext. intros r Br. apply in_zrange in Br.
    destruct (rd (g_vp g) r) as [segs|] eqn:Es; auto. cbn [bind]. rewrite (get_is g q r v d segs Hg Es Bv Br). cbn [bind need run_gop].
    destruct (Z.eqb_spec (owner n nr nt v) r) as [|Ne]; auto. apply set_other; auto.
  Qed.
  Lemma modify_owned_is th v d f (g : gr) q : threads_ok m (m_serv m) th -> 1 <= v <= n -> is g q ->
    exists g', modify_owned m th v d f g = Ok g' /\ is g' (mkGS (gs_es q) (fun u => if u =? v then f (gs_P q v) else gs_P q u) (gs_A q)).
  Proof.
    intros Ht Bv Hg. destruct (vp_op neq m Hm n Hn th (GSet v (f (gs_P q v))) g q Ht Bv Hg) as (g' & E' & Hg'). exists g'. split; [|exact Hg'].
    rewrite <- E'. unfold modify_owned, g_vp_all. pose proof Hg as (_ & (Gn & Gt & _) & _). rewrite Gn, Gt. f_equal. unfold on_ranks. apply mapR_ext. intros r Br. apply in_zrange in Br.
    destruct (rd (g_vp g) r) as [segs|] eqn:Es; auto. cbn [bind]. rewrite (owner_spec n nr nt Hn Hr Hnt) by auto. cbn [bind run_gop]. fold (owner n nr nt v).
    rewrite (get_is g q r v d segs Hg Es Bv Br). destruct (Z.eqb_spec (owner n nr nt v) r) as [Eo|Ne]; cbn [bind need]; auto.
    symmetry. unfold g_setVertexproperty. destruct (v2n_ok nt nr n v Hnt Hr Bv) as [-> B]. cbn [bind]. unfold vec_set, at_owner.
    rewrite vpart_ok by auto. cbn [bind]. pose proof (vpart_range n nr (v2n nt nr n v) Hn Hr B) as [B1 B2]. destruct (Z.leb_spec 0 (vpart n nr (v2n nt nr n v))); [|lia]. cbn [assertb bind].
    rewrite (vown_ok nr nr Hr) by lia. cbn [bind]. destruct (Z.eqb_spec (ow nr (vpart n nr (v2n nt nr n v))) r); [contradiction|]. reflexivity.
  Qed.

  (** *** the loops of the applications *)
  Lemma each_is step f (g : gr) q : is g q ->
    (forall i g q, 1 <= i <= n -> is g q -> exists g', step i g = Ok g' /\ is g' (mkGS (gs_es q) (fun u => if u =? i then f i (gs_P q i) else gs_P q u) (gs_A q))) ->
    exists g', forZ 1 (n + 1) step g = Ok g' /\ is g' (mkGS (gs_es q) (fun u => f u (gs_P q u)) (gs_A q)).
  Proof.
    intros Hg Hs. destruct (forZ_inv (fun i g => is g (mkGS (gs_es q) (fun u => if u <? i then f u (gs_P q u) else gs_P q u) (gs_A q))) 1 (n + 1) step g) as (g' & E' & Hg').
    - lia.
    - eapply is_ext; [| |exact Hg]; auto. intros v Hv. cbn [gs_P gs_A]. destruct (Z.ltb_spec v 1); [lia|]. auto.
    - intros i g1 Hi Hg1. destruct (Hs i g1 _ ltac:(lia) Hg1) as (g2 & E2 & Hg2). exists g2. split; [exact E2|]. eapply is_ext; [| |exact Hg2]; auto.
      intros v Hv. cbn [gs_P gs_A]. split; [|reflexivity]. destruct (Z.eqb_spec v i) as [->|Ne]; destruct (Z.ltb_spec i i); try lia; destruct (Z.ltb_spec i (i + 1)); try lia; auto.
      + destruct (Z.ltb_spec v i), (Z.ltb_spec v (i + 1)); auto; lia.
    - exists g'. split; [exact E'|]. eapply is_ext; [| |exact Hg']; auto. intros v Hv. cbn [gs_P gs_A]. destruct (Z.ltb_spec v (n + 1)); [|lia]. auto.
  Qed.
  Lemma forZ_shift {S} (body : Z -> S -> R S) k : forall lo s, forN k lo (fun i => body (i + 1)) s = forN k (lo + 1) body s.
  Proof. induction k as [|k IH]; intros lo s; cbn [forN]; auto. destruct (body (lo + 1) s); cbn [bind]; auto. Qed.

  (** *** runs with temporaries *)
  Lemma init_is {T U} th (fr : frame T U byte) dt (g : gr) q : frame_ok m th fr -> is g q ->
    exists xy, program_init m th fr dt g = Ok xy /\ trep (f_sert fr) (f_seru fr) n nr nt (fst xy) (snd xy) (fun _ => dt).
  Proof.
    intros (Ft & Fu & _) Hg. unfold program_init. rewrite (is_n g q Hg).
    destruct (@new_temps_spec T U unit byte (f_sert fr) (f_seru fr) n nr nt th Hn Hr Ft Fu (f_tjunk fr) (f_ujunk fr) (f_tfresh fr) (f_ufresh fr) dt (f_du fr) tt (fun _ _ => true)) as (x & y & Ex & Hx).
    exists (x, y). auto.
  Qed.

  (** a property of the states of a run *)
  Lemma job_inv {S T U} (jb : job S T U V E) Y C q K (I : nat -> @vstate S T V -> Prop) : job_reduces neq n jb Y C q K ->
    I O (job_after_with neq jb Y C q O) ->
    (forall k, (k < K)%nat -> I k (job_after_with neq jb Y C q k) ->
       (forall v, 1 <= v <= n -> combined_of (pr_reduce (j_pg jb) (v_s (job_after_with neq jb Y C q k))) (job_received neq jb Y C q k v) (Y k v)) ->
       I (Datatypes.S k) (job_after_with neq jb Y C q (Datatypes.S k))) ->
    forall k, (k <= K)%nat -> I k (job_after_with neq jb Y C q k).
  Proof.
    intros Hred H0 HS. induction k as [|k IH]; intros Hk; auto. apply HS; [lia|apply IH; lia|]. intros v Hv. apply Hred; auto; lia.
  Qed.
  Lemma not_converged {S T U} (pg : program S T U V E) Y st : converged_with n pg neq Y st <> true -> exists v, 1 <= v <= n /\ changed_with pg neq Y st v = true.
  Proof.
    intros H. unfold converged_with in H. destruct (forallb _ _) eqn:F; [congruence|]. clear H.
    assert (forall l, forallb (fun v => negb (changed_with pg neq Y st v)) l = false -> exists v, In v l /\ changed_with pg neq Y st v = true) as G.
    { induction l as [|x l IH]; cbn [forallb]; [discriminate|]. intros Hl. destruct (changed_with pg neq Y st x) eqn:Ex; [exists x; simpl; auto|].
      cbn [negb andb] in Hl. destruct (IH Hl) as (v & Hv & Ev). exists v. simpl; auto. }
    destruct (G _ F) as (v & Hv & Ev). apply in_zrange in Hv. exists v. split; [lia|auto].
  Qed.
  Lemma converged_changed {S T U} (pg : program S T U V E) Y st v : converged_with n pg neq Y st = true -> 1 <= v <= n -> changed_with pg neq Y st v = false.
  Proof.
    intros H Hv. unfold converged_with in H. rewrite forallb_forall in H. specialize (H v). rewrite in_zrange in H. specialize (H ltac:(lia)). apply negb_true_iff. exact H.
  Qed.
  Lemma received_out {S T U} (pg : program S T U V E) es dv st v u : pr_order pg = OUT_EDGES ->
    In u (received es pg dv st v) <-> exists e t, In e es /\ e_dst e = v /\ message pg st (e_src e) = Some t /\ u = pr_process pg (v_s st) t (e_val e) (seen pg dv st v).
  Proof.
    intros Ho. unfold received. rewrite Ho. unfold arriving. rewrite in_flat_map. cbn [along fst snd]. split.
    - intros (e & He & Hu). destruct (Z.eqb_spec (e_dst e) v) as [Ev|]; [|destruct Hu]. destruct (message pg st (e_src e)) as [t|] eqn:Et; [|destruct Hu].
      destruct Hu as [Hu|[]]. exists e, t. auto.
    - intros (e & t & He & Ev & Et & ->). exists e. split; auto. destruct (Z.eqb_spec (e_dst e) v); [|contradiction]. rewrite Et. simpl; auto.
  Qed.

  (** *** counting vertices *)
  Lemma count_is th (mp : V -> V * Z) b p (g : gr) q : threads_ok m (m_serv m) th -> n < 2 ^ 31 -> is g q ->
    (forall v, 1 <= v <= n -> mp (gs_P q v) = (gs_P q v, if b v : bool then 1 else 0)) -> (forall v, 1 <= v <= n -> (b v = true <-> p v)) ->
    exists g' k, g_applyReduceAllVertices nr th mp i32_add (fun _ => 0) g = Ok (g', map (fun _ => k) (zrange 0 nr)) /\ is g' q /\ counts n p k.
  Proof.
    intros Ht Bn Hg Hmp Hb. destruct (reduce_op m Hm n Hn th mp i32_add (fun _ => 0) g q Ht i32_assoc Hg) as (g' & k & Eg & Hg' & Hk).
    exists g', k. split; [exact Eg|]. split.
    - eapply is_ext; [| |exact Hg']; auto. intros v Hv. cbn [gs_P gs_A]. rewrite Hmp by auto. auto.
    - exists (filter b (zrange 1 (n + 1))). split; [apply NoDup_filter, NoDup_zrange|]. split.
      + intros v. rewrite filter_In, in_zrange. split; intros [B H]; (split; [lia|]); apply Hb; auto; lia.
      + specialize (Hk i32_comm). rewrite (map_ext_in (fun v => snd (mp (gs_P q v))) (fun v => if b v then 1 else 0)) in Hk by (intros v Hv; apply in_zrange in Hv; rewrite Hmp by lia; reflexivity).
        rewrite (red_i32 _) in Hk.
        * injection Hk as ->. rewrite sum_app, sum_zeros, sum_bits. rewrite Z.add_0_l. apply i32_id.
          pose proof (zlen_nonneg (filter b (zrange 1 (n + 1)))). pose proof (zlen_filter_le b (zrange 1 (n + 1))). rewrite zlen_zrange in * by lia. lia.
        * intros x Hx. apply in_app_iff in Hx as [Hx|Hx]; apply in_map_iff in Hx as (y & <- & _); [lia|]. destruct (b y); lia.
        * rewrite zrange_cons by lia. discriminate.
  Qed.
End Base.

(** *** distinct levels *)
Lemma levels_bound (f : nat -> Z -> Prop) n K : 0 <= n -> (forall i j v, f i v -> f j v -> i = j) -> (forall i, (i < K)%nat -> exists v, 1 <= v <= n /\ f i v) -> Z.of_nat K <= n.
Proof.
  intros Hn Hf Hex. assert (exists l, NoDup l /\ length l = K /\ forall v, In v l -> 1 <= v <= n /\ exists i, (i < K)%nat /\ f i v) as (l & Nd & Ll & Hl).
  { induction K as [|K IH]; [exists []; split; [constructor|split; [reflexivity|intros v []]]|].
    destruct IH as (l & Nd & Ll & Hl); [intros i Hi; apply Hex; lia|]. destruct (Hex K ltac:(lia)) as (x & Bx & Fx). exists (x :: l). split; [|split].
    - constructor; auto. intros Hx. destruct (Hl x Hx) as (_ & i & Hi & Fi). pose proof (Hf _ _ _ Fi Fx). lia.
    - cbn [length]. lia.
    - intros v [<-|Hv]; [split; auto; exists K; split; [lia|auto]|]. destruct (Hl v Hv) as (B & i & Hi & Fi). split; auto. exists i. split; [lia|auto]. }
  assert (length l <= length (zrange 1 (n + 1)))%nat as B.
  { apply NoDup_incl_length; auto. intros v Hv. apply in_zrange. destruct (Hl v Hv). lia. }
  pose proof (zlen_zrange 1 (n + 1)) as Z0. unfold zlen in Z0. lia.
Qed.
