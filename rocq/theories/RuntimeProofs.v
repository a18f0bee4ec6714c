(** Running a vertex program: the model refines RunSpec. *)
From Verif Require Import BaseLemmas Layout LayoutProofs Reduce ReduceProofs Bits BitsProofs Segment SegmentProofs TransferProofs SegHistory SegHistoryProofs SegFinal Bucket BucketProofs Vec VecProofs VecProofs2 GraphVertProofs ListLemmas DCSC MatSpec TileProofs SpMat SpMatProofs SpMSpV DistProofs MultProofs GraphVert Graph GraphProofs Runtime RunSegProofs RunSpec HeldProofs Tree TreeProofs OrderSpec.

Lemma rd2_map {A B} (f : A -> B) t r j b : rd2 (map (map f) t) r j = Ok b <-> exists a, rd2 t r j = Ok a /\ b = f a.
Proof.
  unfold rd2. rewrite rd_map_list. destruct (rd t r) as [row|]; cbn [bind]; [|split; [discriminate|intros (a & H & _); discriminate]].
  rewrite rd_map_list. destruct (rd row j) as [a|]; [|split; [discriminate|intros (a & H & _); discriminate]].
  split; [intros H; injection H as <-; eauto|intros (a0 & H & ->); injection H as <-; auto].
Qed.
Lemma dims_map {A B} (f : A -> B) nr ns t : dims nr ns t -> dims nr ns (map (map f) t).
Proof.
  intros [L D]. split; [rewrite zlen_map; auto|]. intros r row Er. rewrite rd_map_list in Er. destruct (rd t r) as [row0|] eqn:E0; [|discriminate]. injection Er as <-. rewrite zlen_map. eauto.
Qed.
Lemma flat_map_one {A B} (g : A -> list B) l : forall r a, rd l r = Ok a -> (forall j b, rd l j = Ok b -> j <> r -> g b = []) -> flat_map g l = g a.
Proof.
  induction l as [|x l IH]; intros r a Hr H; [apply rd_bounds in Hr; unfold zlen in Hr; simpl in Hr; lia|]. cbn [flat_map]. pose proof (rd_bounds _ _ _ Hr) as Br.
  destruct (Z.eq_dec r 0) as [->|N].
  - rewrite rd_cons0 in Hr. injection Hr as <-. assert (flat_map g l = []) as ->; [|apply app_nil_r].
    clear IH. assert (forall j b, rd l j = Ok b -> g b = []) as H'. { intros j b Hb. pose proof (rd_bounds _ _ _ Hb). apply (H (j + 1) b); [|lia]. rewrite rd_consS by lia. replace (j + 1 - 1) with j by lia. auto. }
    clear H Br. induction l as [|y l IH]; auto. cbn [flat_map]. rewrite (H' 0 y) by apply rd_cons0. apply IH. intros j b Hb. apply (H' (j + 1) b). pose proof (rd_bounds _ _ _ Hb). rewrite rd_consS by lia. replace (j + 1 - 1) with j by lia. auto.
  - rewrite rd_consS in Hr by lia. rewrite (H 0 x (rd_cons0 _ _)) by lia. apply (IH (r - 1) a Hr). intros j b Hb Nj. pose proof (rd_bounds _ _ _ Hb). apply (H (j + 1) b); [|lia]. rewrite rd_consS by lia. replace (j + 1 - 1) with j by lia. auto.
Qed.
Lemma row_events {A} (g : A -> list event) nr t r a : dims nr nr t -> (forall r j b, rd2 t r j = Ok b -> r <> j -> g b = []) -> rd2 t r r = Ok a ->
  rd (map (fun row => concat (map g row)) t) r = Ok (g a).
Proof.
  intros D H E. apply rd2_inv in E as (row & Er & Ea). rewrite rd_map_list, Er. cbn [bind]. f_equal. rewrite <- flat_map_concat_map. eapply flat_map_one; eauto.
  intros j b Hb N. apply (H r j b); auto. eapply rd2_ok; eauto.
Qed.
Lemma forallb2_iff {A} (c : A -> bool) nr ns t : dims nr ns t -> forallb (forallb c) t = true <-> forall r j a, rd2 t r j = Ok a -> c a = true.
Proof.
  intros D. rewrite forallb_forall. split.
  - intros H r j a E. apply rd2_inv in E as (row & Er & Ea). apply rd_In in Er. apply rd_In in Ea. specialize (H row Er). rewrite forallb_forall in H. auto.
  - intros H row Hr. apply forallb_forall. intros a Ha. apply In_rd in Hr as (r & _ & Er). apply In_rd in Ha as (j & _ & Ej). apply (H r j a). eapply rd2_ok; eauto.
Qed.

Lemma flat_map_filter_map {A B C} (g : A -> B) (f : B -> C) (c : B -> bool) l : flat_map (fun k => if c (g k) then [f (g k)] else []) l = map f (filter c (map g l)).
Proof. induction l as [|k l IH]; auto. cbn [flat_map map filter]. destruct (c (g k)); cbn [map app]; rewrite IH; reflexivity. Qed.

Lemma forallb_ext_in {A} (f g : A -> bool) l : (forall a, In a l -> f a = g a) -> forallb f l = forallb g l.
Proof. induction l as [|a l IH]; intros H; auto. cbn [forallb]. rewrite H by (simpl; auto). rewrite IH; auto. intros; apply H; simpl; auto. Qed.

Lemma rd_combine {A B} (l : list A) (l' : list B) : forall k a b, rd l k = Ok a -> rd l' k = Ok b -> rd (combine l l') k = Ok (a, b).
Proof.
  revert l'. induction l as [|x l IH]; intros l' k a b Ha Hb; [apply rd_bounds in Ha; unfold zlen in Ha; simpl in Ha; lia|].
  destruct l' as [|y l']; [apply rd_bounds in Hb; unfold zlen in Hb; simpl in Hb; lia|].
  cbn [combine]. pose proof (rd_bounds _ _ _ Ha). destruct (Z.eq_dec k 0) as [->|N]; [rewrite rd_cons0 in Ha; rewrite rd_cons0 in Hb; injection Ha as <-; injection Hb as <-; reflexivity|]. rewrite rd_consS in Ha by lia; rewrite rd_consS in Hb by lia. rewrite rd_consS by lia. auto.
Qed.

Section RunProofs.
  Context {S T U V E byte : Type}.
  Variables (sert serv seru : bool).
  Variables (enct : list (Z * T) -> list byte) (dect : list byte -> Z -> R (list (Z * T))).
  Variables (encv : list (Z * V) -> list byte) (decv : list byte -> Z -> R (list (Z * V))).
  Variables (encu : list (Z * U) -> list byte) (decu : list byte -> Z -> R (list (Z * U))).
  Hypothesis DEt : forall l, dect (enct l) (zlen l) = Ok l.
  Hypothesis DEv : forall l, decv (encv l) (zlen l) = Ok l.
  Hypothesis DEu : forall l, decu (encu l) (zlen l) = Ok l.
  Variables (n nr nt threads : Z).
  Hypothesis Hn : 0 <= n.
  Hypothesis Hr : 1 <= nr.
  Hypothesis Hnt : 1 <= nt.
  Hypothesis Tt : thok sert nt threads.
  Hypothesis Tv : thok serv nt threads.
  Hypothesis Tu : thok seru nt threads.
  Variables (tjunk ujunk : Z -> Z) (tfresh : option T) (ufresh : option U) (dt : T) (du : U) (dv : V).
  Variable neq : V -> V -> bool.
  Variable pg : program S T U V E.
  Variable es : list (edge E).
  Hypothesis Hes : forall e, In e es -> 1 <= e_src e <= n /\ 1 <= e_dst e <= n.
  Notation vec A := (list (list (seg A byte))).
  Notation gr := (graph V E byte).
  Notation pi := (v2n nt nr n). Notation po := (n2v nt nr n).
  Notation vst := (@vstate S T V).

  Definition nativeo {A} (M : Z -> option A) (id : Z) : option A := if (1 <=? id) && (id <=? n) then M (po id) else None.
  Definition owner (v : Z) : Z := ow nr (vpart n nr (pi v)).
  Definition rank_ids (r : Z) : list Z := zrange (st n nr r + 1) (st n nr (r + 1) + 1).

  Lemma nativeo_at {A} (M : Z -> option A) v : 1 <= v <= n -> nativeo M (pi v) = M v.
  Proof.
    intros H. destruct (v2n_ok nt nr n v Hnt Hr H) as [_ B]. unfold nativeo. destruct (Z.leb_spec 1 (pi v)); [|lia]. destruct (Z.leb_spec (pi v) n); [|lia]. cbn [andb]. rewrite n2v_v2n; auto.
  Qed.
  Lemma nativeo_in {A} (M : Z -> option A) id : 1 <= id <= n -> nativeo M id = M (po id).
  Proof. intros H. unfold nativeo. destruct (Z.leb_spec 1 id); [|lia]. destruct (Z.leb_spec id n); [|lia]. reflexivity. Qed.
  Lemma native_in {A} (M : Z -> A) id : 1 <= id <= n -> native n nr nt M id = Some (M (po id)).
  Proof. intros H. unfold native. destruct (Z.leb_spec 1 id); [|lia]. destruct (Z.leb_spec id n); [|lia]. reflexivity. Qed.
  Lemma native_nativeo {A} (M : Z -> A) : native n nr nt M = nativeo (fun v => Some (M v)).
  Proof. reflexivity. Qed.
  Lemma Ta : thok false nt threads.
  Proof. split; [apply Tt|discriminate]. Qed.
  Lemma rank_ids_in r id : 0 <= r < nr -> In id (rank_ids r) <-> 1 <= id <= n /\ vpart n nr id = r.
  Proof. intros H. unfold rank_ids. rewrite in_zrange. rewrite (seg_ids n nr Hn Hr r id H). unfold cap. lia. Qed.
  Lemma seg_in_range j k : 0 <= j < nr -> 1 <= k <= cap n nr j -> 1 <= st n nr j + k <= n.
  Proof. intros Hj Hk. unfold VecProofs.cap in *. pose proof (st_bounds n nr Hn Hr j ltac:(lia)). pose proof (st_bounds n nr Hn Hr (j+1) ltac:(lia)). lia. Qed.
  Lemma owner_rank v : 1 <= v <= n -> owner v = vpart n nr (pi v).
  Proof.
    intros H. destruct (v2n_ok nt nr n v Hnt Hr H) as [_ B]. destruct (vpart_range n nr (pi v) Hn Hr B) as [B1 _]. unfold owner, ow. apply Z.mod_small. lia.
  Qed.

  (** a filtered list of rank [r]'s positions, turned into vertices *)
  Lemma rank_vertices r (c : Z -> bool) : 0 <= r < nr ->
    let vs := map po (filter (fun id => c (po id)) (rank_ids r)) in
    NoDup vs /\ (forall v, In v vs <-> 1 <= v <= n /\ owner v = r /\ c v = true) /\ map pi vs = filter (fun id => c (po id)) (rank_ids r).
  Proof.
    intros Hr0. cbv zeta. assert (forall l, (forall x, In x l -> 1 <= x <= n) -> map pi (map po l) = l) as M.
    { induction l as [|x l IH]; intros H; cbn [map]; auto. rewrite v2n_n2v by (auto; apply H; simpl; auto). rewrite IH; auto. intros; apply H; simpl; auto. }
    assert (forall x, In x (filter (fun id => c (po id)) (rank_ids r)) -> 1 <= x <= n /\ vpart n nr x = r /\ c (po x) = true) as In0.
    { intros x Hx. apply filter_In in Hx as [Hx Cx]. apply rank_ids_in in Hx; auto. tauto. }
    split; [|split].
    - apply (NoDup_map_inv pi). rewrite M by (intros x Hx; apply In0; auto). apply NoDup_filter, NoDup_zrange.
    - intros v. rewrite in_map_iff. split.
      + intros (x & <- & Hx). destruct (In0 x Hx) as (B & P & C). destruct (n2v_ok nt nr n x Hnt Hr B) as [_ B']. split; auto. split; auto. rewrite owner_rank by auto. rewrite v2n_n2v; auto.
      + intros (B & O & C). destruct (v2n_ok nt nr n v Hnt Hr B) as [_ B']. exists (pi v). split; [apply n2v_v2n; auto|]. apply filter_In. rewrite n2v_v2n by auto. split; auto.
        apply rank_ids_in; auto. split; auto. rewrite owner_rank in O; auto.
    - apply M. intros x Hx; apply In0; auto.
  Qed.

  (** what a graph state means *)
  Definition grep (g : gr) (P : Z -> V) (A : Z -> option bool) : Prop :=
    edges_held nr nt g n es /\
    held serv nt n nr nr (g_vp g) (native n nr nt P) /\ hlive nr (g_vp g) /\
    held false nt n nr nr (g_act g) (nativeo A) /\ hlive nr (g_act g).
  Definition trep (x : vec T) (y : vec U) (C : Z -> T) : Prop :=
    (exists X0, held sert nt n nr nr x X0) /\ hcells n nr nr x (fun id => C (po id)) /\ (exists Y0, held seru nt n nr nr y Y0).
  Definition rep (q : vst) (r : @rstate S T U V E byte) : Prop :=
    r_s r = v_s q /\ grep (r_g r) (v_P q) (v_A q) /\ trep (r_x r) (r_y r) (v_C q).

  Lemma send_phase_spec (q : vst) (g : gr) x :
    g_n g = n -> held serv nt n nr nr (g_vp g) (native n nr nt (v_P q)) -> hlive nr (g_vp g) ->
    held false nt n nr nr (g_act g) (nativeo (v_A q)) -> hlive nr (g_act g) ->
    held sert nt n nr nr x (fun _ => None) -> hcells n nr nr x (fun id => v_C q (po id)) ->
    exists x' ev, send_phase nr threads pg (v_s q) g x = Ok (x', ev) /\
      held sert nt n nr nr x' (nativeo (message pg q)) /\ hlive nr x' /\
      hcells n nr nr x' (fun id => match message pg q (po id) with Some t => t | None => v_C q (po id) end) /\
      zlen ev = nr /\ forall r, 0 <= r < nr -> rd ev r = Ok (map Sent (filter (fun id => match v_A q (po id) with Some true => true | _ => false end) (rank_ids r))).
  Proof.
    intros Gn [Dv Fv] Lv [Da Fa] La [Dx Fx] Cx. unfold send_phase.
    tabs (fun r j (a : seg T byte * list event) => fine sert nt n nr j (fst a) (if ow nr j =? r then restr n nr (nativeo (message pg q)) j else fun _ => None) /\
       (r = j -> live (fst a) /\ (exists b, s_prop (fst a) = Some b /\ forall k, 0 <= k < cap n nr j -> rd (b_value b) k = Ok (Some (match message pg q (po (st n nr j + k + 1)) with Some t => t | None => v_C q (po (st n nr j + k + 1)) end))) /\
                 snd a = map Sent (filter (fun id => match v_A q (po id) with Some true => true | _ => false end) (rank_ids r))) /\
       (r <> j -> snd a = [])) as t Et D I0.
    { intros r j Br Bj. rewrite vown_ok by lia. cbn [bind]. destruct (dims_rd2 _ _ _ r j Dx Br Bj) as [sx Ex]. rewrite Ex. cbn [bind].
      assert (ow nr j = j) as Oj by (unfold ow; apply Z.mod_small; lia).
      destruct (Fx r j sx Ex) as (Wx & Cpx & Qx & Ax). rewrite Oj in *. destruct (Z.eqb_spec j r) as [->|N].
      - destruct (dims_rd2 _ _ _ r r Da Br Bj) as [sa Ea]. rewrite Ea. cbn [bind]. destruct (dims_rd2 _ _ _ r r Dv Br Bj) as [sv Ev]. rewrite Ev. cbn [bind].
        rewrite Gn. rewrite (rd_st n nr) by lia. cbn [bind].
        destruct (Fa r r sa Ea) as (Wa & Cpa & Qa & Aa). rewrite Oj, Z.eqb_refl in Aa. destruct (Fv r r sv Ev) as (Wv & Cpv & Qv & Av). rewrite Oj, Z.eqb_refl in Av.
        assert (live sa) as Lsa by (apply (La r); rewrite Oj; auto). assert (live sv) as Lsv by (apply (Lv r); rewrite Oj; auto).
        destruct (Cx r sx) as (b3 & Eb3 & Hb3); [rewrite Oj; auto|].
        destruct (intersect_segment_spec false serv sert nt threads (send_op pg (v_s q) (st n nr r)) Tt (cap n nr r) sa sv sx (restr n nr (nativeo (v_A q)) r) (restr n nr (native n nr nt (v_P q)) r)
           (fun k => v_C q (po (st n nr r + k + 1))) b3 Wa Lsa Cpa Aa Wv Lsv Cpv Av Wx Cpx Qx Eb3 Hb3) as (s' & Es & Ws & Ls & Cs & Qs & As & Bs).
        rewrite Es. eexists. split; [reflexivity|]. cbn [fst snd].
        assert (forall k, 0 <= k < cap n nr r -> both (send_op pg (v_s q) (st n nr r)) (restr n nr (nativeo (v_A q)) r) (restr n nr (native n nr nt (v_P q)) r) (fun k => v_C q (po (st n nr r + k + 1))) k =
           match v_A q (po (st n nr r + k + 1)) with None => None | Some a => Some (send_op pg (v_s q) (st n nr r) k a (v_P q (po (st n nr r + k + 1))) (v_C q (po (st n nr r + k + 1)))) end) as HB.
        { intros k Hk. unfold both, restr. destruct (Z.leb_spec 1 (k + 1)); [|lia]. destruct (Z.leb_spec (k + 1) (cap n nr r)); [|lia]. cbn [andb].
          pose proof (seg_in_range r (k + 1) Bj ltac:(lia)). rewrite nativeo_in, native_in by auto. rewrite !Z.add_assoc. destruct (v_A q _); reflexivity. }
        assert (forall k, 0 <= k < cap n nr r -> option_map fst (both (send_op pg (v_s q) (st n nr r)) (restr n nr (nativeo (v_A q)) r) (restr n nr (native n nr nt (v_P q)) r) (fun k => v_C q (po (st n nr r + k + 1))) k) =
           message pg q (po (st n nr r + k + 1))) as HM.
        { intros k Hk. rewrite HB by auto. unfold message, send_op. destruct (v_A q _) as [[|]|]; reflexivity. }
        split; [|split].
        + split; [auto|]. split; [auto|]. split; [auto|]. rewrite ?Z.eqb_refl. eapply segM_ext; [|exact As]. intros k. cbv beta. unfold restr at 3.
          destruct (Z.leb_spec 1 k), (Z.leb_spec k (cap n nr r)); cbn [andb].
          * rewrite HM by lia. rewrite nativeo_in by (apply seg_in_range; auto). f_equal. f_equal. lia.
          * unfold both, restr. destruct (Z.leb_spec 1 (k - 1 + 1)); [|lia]. destruct (Z.leb_spec (k - 1 + 1) (cap n nr r)); [lia|]. reflexivity.
          * unfold both, restr. destruct (Z.leb_spec 1 (k - 1 + 1)); [lia|]. reflexivity.
          * unfold both, restr. destruct (Z.leb_spec 1 (k - 1 + 1)); [lia|]. reflexivity.
        + intros _. split; [auto|]. split.
          * destruct Bs as (b' & Eb' & Hb'). exists b'. split; auto. intros k Hk. rewrite Hb' by auto. pose proof (HM k Hk) as HM'. destruct (both _ _ _ _ k) as [[]|]; cbn [option_map fst] in *; rewrite <- HM'; reflexivity.
          * unfold rank_ids. replace (st n nr (r + 1) + 1) with (st n nr r + 1 + cap n nr r) by (unfold cap; lia). rewrite zrange_shift.
            rewrite (flat_map_ext_in _ (fun k => if match v_A q (po (st n nr r + 1 + k)) with Some true => true | _ => false end then [Sent (st n nr r + 1 + k)] else [])).
            2: { intros k Hk. apply in_zrange in Hk. rewrite HB by auto. replace (st n nr r + 1 + k) with (st n nr r + k + 1) by lia. unfold send_op. destruct (v_A q _) as [[|]|]; reflexivity. }
            apply (flat_map_filter_map (fun k => st n nr r + 1 + k) Sent (fun id => match v_A q (po id) with Some true => true | _ => false end)).
        + intros N; lia.
      - eexists. split; [reflexivity|]. cbn [fst snd]. split; [|split]; [|intros; lia|auto].
        split; [auto|]. split; [auto|]. split; [auto|]. destruct (Z.eqb_spec j r); [lia|]. auto. }
    rewrite Et. cbn [bind]. eexists _, _. split; [reflexivity|].
    split; [split; [apply dims_map; auto|]|].
    { intros r j s Es. apply rd2_map in Es as (a & Ea & ->). apply (I0 r j a Ea). }
    assert (forall j s, rd2 (map (map fst) t) (ow nr j) j = Ok s -> 0 <= j < nr /\ exists a, rd2 t j j = Ok a /\ s = fst a) as G.
    { intros j s Es. apply rd2_map in Es as (a & Ea & ->). pose proof (dims_bounds _ _ _ _ _ _ D Ea) as [_ Bj]. assert (ow nr j = j) as Oj by (unfold ow; apply Z.mod_small; lia). rewrite Oj in Ea. eauto. }
    split; [|split; [|split]].
    - intros j s Es. destruct (G j s Es) as (Bj & a & Ea & ->). apply (I0 j j a Ea); auto.
    - intros j s Es. destruct (G j s Es) as (Bj & a & Ea & ->). apply (I0 j j a Ea); auto.
    - rewrite zlen_map. apply D.
    - intros r Br. destruct (dims_rd2 _ _ _ r r D Br Br) as [a Ea]. rewrite (row_events snd nr t r a D); auto.
      + f_equal. apply (I0 r r a Ea); auto.
      + intros r' j b Eb N. apply (I0 r' j b Eb); auto.
  Qed.

  (** what one product adds for an entry of the matrix *)
  Definition gen (q : vst) (e : edge E) : option U :=
    if pr_reqv pg then prod3 (fun e t v => pr_process pg (v_s q) t e v) (nativeo (message pg q)) (native n nr nt (v_P q)) e
    else option_map (fun t => pr_process pg (v_s q) t (e_val e) dv) (nativeo (message pg q) (e_dst e)).

  Lemma row_arriving (q : vst) (f : edge E -> Z * Z) (h : edge E -> edge E) id : 1 <= id <= n ->
    (forall e, In e es -> 1 <= fst (f e) <= n /\ 1 <= snd (f e) <= n) ->
    (forall e, e_src (h e) = pi (snd (f e)) /\ e_dst (h e) = pi (fst (f e)) /\ e_val (h e) = e_val e) ->
    row_products (gen q) (map h es) id = arriving es pg dv q f (po id).
  Proof.
    intros Hi Hf Hh. unfold row_products, arriving. rewrite map_map, <- flat_map_concat_map. apply flat_map_ext_in. intros e He. destruct (Hf e He) as [B1 B2]. destruct (Hh e) as (E1 & E2 & E3).
    rewrite E1. assert ((pi (snd (f e)) =? id) = (snd (f e) =? po id)) as ->.
    { apply eq_true_iff_eq. rewrite !Z.eqb_eq. split; [intros <-; symmetry; apply n2v_v2n; auto|intros ->; apply v2n_n2v; auto]. }
    destruct (Z.eqb_spec (snd (f e)) (po id)) as [Eq|]; auto. unfold gen, prod3. rewrite E1, E2, E3. rewrite nativeo_at by auto. rewrite native_at by auto. unfold seen. rewrite Eq.
    destruct (pr_reqv pg), (message pg q (fst (f e))); reflexivity.
  Qed.

  (** the order in which the entries of the two matrices are combined for position [id], and for a
      vertex *)
  Definition cell (a : spmat E) (t0 : list (tree (edge E))) (id : Z) : tree (edge E) := cell_tree nr n n nr nr (mt_ids a) a t0 id.
  Definition native_order (A AT : spmat E) (d : direction) (id : Z) : tree (edge E) :=
    match d with OUT_EDGES => cell AT [] id | IN_EDGES => cell A [] id | ALL_EDGES => cell A [cell AT [] id] id end.
  Definition vert (e : edge E) : edge E := mkE (po (e_dst e)) (po (e_src e)) (e_val e).
  Definition matrix_order (A AT : spmat E) : order E := fun d v => tmap vert (native_order A AT d (pi v)).
  (** the reductions follow the matrices *)
  Definition ordered (A AT : spmat E) (q : vst) (Y : Z -> option U) : Prop :=
    forall v, 1 <= v <= n -> Y v = reduced_in pg dv (matrix_order A AT) q v.

  Lemma gen_delivered (q : vst) e : 1 <= e_src e <= n -> 1 <= e_dst e <= n -> gen q e = delivered pg dv q (vert e).
  Proof.
    intros B1 B2. unfold gen, delivered, vert, prod3, seen. cbn [e_src e_dst e_val]. rewrite nativeo_in, native_in by auto. destruct (pr_reqv pg), (message pg q (po (e_dst e))); reflexivity.
  Qed.
  Lemma vert_filter (h k : edge E -> edge E) l v : 1 <= v <= n ->
    (forall e, In e l -> 1 <= e_dst (k e) <= n /\ vert (h e) = k e /\ e_src (h e) = pi (e_dst (k e))) ->
    map vert (filter (fun e => e_src e =? pi v) (map h l)) = filter (fun a => e_dst a =? v) (map k l).
  Proof.
    intros Bv. induction l as [|e l IH]; intros H; [reflexivity|]. destruct (H e (or_introl eq_refl)) as (B & E1 & E2). cbn [map filter]. rewrite E2.
    assert ((pi (e_dst (k e)) =? pi v) = (e_dst (k e) =? v)) as ->.
    { apply eq_true_iff_eq. rewrite !Z.eqb_eq. split; [|intros ->; reflexivity]. intros Q. rewrite <- (n2v_v2n nt nr n (e_dst (k e)) Hnt Hr B), Q. apply n2v_v2n; auto. }
    destruct (e_dst (k e) =? v); cbn [map]; rewrite ?E1, IH; auto; intros; apply H; simpl; auto.
  Qed.
  Lemma cell_leaves ids a es' t0 id : mat_holds nr n n nr nr ids a es' -> 1 <= id <= n ->
    Permutation (leaves (cell a t0 id)) (flat_map leaves t0 ++ filter (fun e => e_src e =? id) es').
  Proof.
    intros Ha Bi. unfold cell. rewrite (mh_ids _ _ _ _ _ _ _ _ Ha). apply (cell_tree_leaves nr n n nr nr Hr Hn Hn Hr Hr ids a es' Ha t0 id Bi).
  Qed.
  Lemma matrix_order_of (g : gr) : edges_held nr nt g n es -> order_of n es (matrix_order (g_A g) (g_AT g)).
  Proof.
    intros (_ & _ & ids & _ & HA & HT) d v Bv. destruct (v2n_ok nt nr n v Hnt Hr Bv) as [_ B]. unfold matrix_order. rewrite leaves_tmap.
    assert (map vert (filter (fun e => e_src e =? pi v) (map (ren pi) es)) = filter (fun a => e_dst a =? v) (map reversed es)) as QA.
    { apply vert_filter; auto. intros e He. destruct (Hes e He) as [B1 B2]. unfold vert, ren, reversed. cbn [e_src e_dst e_val]. rewrite !n2v_v2n by auto. auto. }
    assert (map vert (filter (fun e => e_src e =? pi v) (map swap_ends (map (ren pi) es))) = filter (fun a => e_dst a =? v) es) as QT.
    { rewrite map_map. rewrite <- (map_id es) at 2. apply vert_filter; auto. intros e He. destruct (Hes e He) as [B1 B2]. unfold vert, ren, swap_ends. cbn [e_src e_dst e_val]. rewrite !n2v_v2n by auto. destruct e; auto. }
    destruct d; cbn [native_order arrivals].
    - rewrite <- QT. apply Permutation_map. exact (cell_leaves _ _ _ [] _ HT B).
    - rewrite <- QA. apply Permutation_map. exact (cell_leaves _ _ _ [] _ HA B).
    - rewrite filter_app, <- QT, <- QA, <- map_app. apply Permutation_map. rewrite (cell_leaves _ _ _ _ _ HA B). cbn [flat_map]. rewrite app_nil_r. apply Permutation_app_tail. exact (cell_leaves _ _ _ [] _ HT B).
  Qed.
  Lemma matrix_order_in (q : vst) (g : gr) v : edges_held nr nt g n es -> 1 <= v <= n ->
    eval (pr_reduce pg (v_s q)) (gen q) (native_order (g_A g) (g_AT g) (pr_order pg) (pi v)) = reduced_in pg dv (matrix_order (g_A g) (g_AT g)) q v.
  Proof.
    intros He Bv. unfold reduced_in, matrix_order. rewrite eval_tmap. apply eval_ext. intros e Hin. apply gen_delivered.
    all: destruct He as (_ & _ & ids & _ & HA & HT); destruct (v2n_ok nt nr n v Hnt Hr Bv) as [_ B].
    all: assert (In e (map (ren pi) es) \/ In e (map swap_ends (map (ren pi) es))) as Q by (destruct (pr_order pg); cbn [native_order] in Hin;
      [apply (Permutation_in _ (cell_leaves _ _ _ [] _ HT B)) in Hin; apply filter_In in Hin; tauto
      |apply (Permutation_in _ (cell_leaves _ _ _ [] _ HA B)) in Hin; apply filter_In in Hin; tauto
      |apply (Permutation_in _ (cell_leaves _ _ _ _ _ HA B)) in Hin; cbn [flat_map] in Hin; rewrite app_nil_r, in_app_iff in Hin; destruct Hin as [Hin|Hin];
        [apply (Permutation_in _ (cell_leaves _ _ _ [] _ HT B)) in Hin|]; apply filter_In in Hin; tauto]).
    all: destruct Q as [Q|Q]; [|rewrite map_map in Q]; apply in_map_iff in Q as (e0 & <- & H0); destruct (Hes e0 H0) as [B1 B2]; cbn [ren swap_ends e_src e_dst]; apply (v2n_ok nt nr n); auto.
  Qed.

  Lemma product_spec (q : vst) ids a es' x vp y Y : mat_holds nr n n nr nr ids a es' ->
    held sert nt n nr nr x (nativeo (message pg q)) -> hlive nr x -> held seru nt n nr nr y Y ->
    held serv nt n nr nr vp (native n nr nt (v_P q)) -> hlive nr vp ->
    exists x' vp' y', product sert serv seru enct dect encv decv encu decu nr threads dv pg (v_s q) a x vp y = Ok (x', vp', y') /\
      held sert nt n nr nr x' (nativeo (message pg q)) /\ hlive nr x' /\ (forall C, hcells n nr nr x C -> hcells n nr nr x' C) /\
      held serv nt n nr nr vp' (native n nr nt (v_P q)) /\ hlive nr vp' /\
      exists Y', held seru nt n nr nr y' Y' /\ hlive nr y' /\ (forall id, 1 <= id <= n -> combined_of (pr_reduce pg (v_s q)) (olist (Y id) ++ row_products (gen q) es' id) (Y' id)) /\
        forall t0 id, 1 <= id <= n -> Y id = red (pr_reduce pg (v_s q)) (flat_map (fun t => olist (eval (pr_reduce pg (v_s q)) (gen q) t)) t0) -> Y' id = eval (pr_reduce pg (v_s q)) (gen q) (cell a t0 id).
  Proof.
    intros Ha Hx Lx Hy Hv Lv. unfold product, gen, cell. rewrite (mh_ids _ _ _ _ _ _ _ _ Ha). destruct (pr_reqv pg).
    - apply (spmspv3_spec nr n n nr nr Hr Hn Hn Hr Hr ids a es' Ha sert serv seru enct dect encv decv encu decu DEt DEv DEu nt threads Tt Tv Tu (pr_reduce pg (v_s q))
        (fun e t v => pr_process pg (v_s q) t e v) x vp y (nativeo (message pg q)) (native n nr nt (v_P q)) Y Hx Lx Hy Hv Lv).
      intros id Hi. rewrite native_in by auto. discriminate.
    - destruct (spmspv_spec nr n n nr nr Hr Hn Hn Hr Hr ids a es' Ha sert seru enct dect encu decu DEt DEu nt threads Tt Tu (pr_reduce pg (v_s q))
        (fun e t => pr_process pg (v_s q) t e dv) x y (nativeo (message pg q)) Y Hx Lx Hy) as (x' & y' & Ep & H1 & H2 & H3 & H4).
      rewrite Ep. cbn [bind fst snd]. exists x', vp, y'. split; [reflexivity|]. auto 10.
  Qed.

  (** turning a map over positions into one over vertices *)
  Definition at_vertex {A} (M : Z -> A) (v : Z) : A := M (pi v).
  Lemma at_vertex_po {A} (M : Z -> option A) id : 1 <= id <= n -> nativeo (at_vertex M) id = M id.
  Proof. intros H. rewrite nativeo_in by auto. unfold at_vertex. rewrite v2n_n2v; auto. Qed.

  Lemma products_spec (q : vst) (g : gr) x y : edges_held nr nt g n es ->
    held sert nt n nr nr x (nativeo (message pg q)) -> hlive nr x -> held seru nt n nr nr y (fun _ => None) ->
    held serv nt n nr nr (g_vp g) (native n nr nt (v_P q)) -> hlive nr (g_vp g) ->
    exists x' vp' y', products sert serv seru enct dect encv decv encu decu nr threads dv pg (v_s q) g x y = Ok (x', vp', y') /\
      held sert nt n nr nr x' (nativeo (message pg q)) /\ (forall C, hcells n nr nr x C -> hcells n nr nr x' C) /\
      held serv nt n nr nr vp' (native n nr nt (v_P q)) /\ hlive nr vp' /\
      exists Y, held seru nt n nr nr y' (nativeo Y) /\ hlive nr y' /\ outcome n es pg dv q Y /\ ordered (g_A g) (g_AT g) q Y.
  Proof.
    intros Heh Hx Lx Hy Hv Lv. pose proof Heh as (_ & _ & ids & _ & HA & HT). unfold products.
    assert (forall v, 1 <= v <= n -> row_products (gen q) (map swap_ends (map (ren pi) es)) (pi v) = arriving es pg dv q along v) as RA.
    { intros v Hi. destruct (v2n_ok nt nr n v Hnt Hr Hi) as [_ B]. rewrite map_map. rewrite (row_arriving q along); auto. rewrite n2v_v2n; auto. }
    assert (forall v, 1 <= v <= n -> row_products (gen q) (map (ren pi) es) (pi v) = arriving es pg dv q against v) as RB.
    { intros v Hi. destruct (v2n_ok nt nr n v Hnt Hr Hi) as [_ B]. rewrite (row_arriving q against); auto; [rewrite n2v_v2n; auto|]. intros e He. destruct (Hes e He). split; auto. }
    unfold outcome, ordered, received. pose proof (fun v => matrix_order_in q g v Heh) as Mo. unfold native_order in Mo. destruct (pr_order pg) eqn:Ord.
    - destruct (product_spec q ids (g_AT g) _ x (g_vp g) y _ HT Hx Lx Hy Hv Lv) as (x' & vp' & y' & Ep & H1 & H2 & H3 & H4 & H5 & Y' & H6 & H7 & H8 & H9). exists x', vp', y'. rewrite Ep. split; [reflexivity|].
      split; [auto|]. split; [auto|]. split; [auto|]. split; [auto|]. exists (at_vertex Y'). split; [|split; [auto|split]].
      + eapply held_ext; [auto|auto| |exact H6]. intros id Hi. symmetry. apply at_vertex_po; auto.
      + intros v Hi. destruct (v2n_ok nt nr n v Hnt Hr Hi) as [_ B]. specialize (H8 (pi v) B). cbn [olist app] in H8. rewrite RA in H8 by auto. exact H8.
      + intros v Hi. destruct (v2n_ok nt nr n v Hnt Hr Hi) as [_ B]. rewrite <- Mo by auto. apply (H9 [] _ B eq_refl).
    - destruct (product_spec q ids (g_A g) _ x (g_vp g) y _ HA Hx Lx Hy Hv Lv) as (x' & vp' & y' & Ep & H1 & H2 & H3 & H4 & H5 & Y' & H6 & H7 & H8 & H9). exists x', vp', y'. rewrite Ep. split; [reflexivity|].
      split; [auto|]. split; [auto|]. split; [auto|]. split; [auto|]. exists (at_vertex Y'). split; [|split; [auto|split]].
      + eapply held_ext; [auto|auto| |exact H6]. intros id Hi. symmetry. apply at_vertex_po; auto.
      + intros v Hi. destruct (v2n_ok nt nr n v Hnt Hr Hi) as [_ B]. specialize (H8 (pi v) B). cbn [olist app] in H8. rewrite RB in H8 by auto. exact H8.
      + intros v Hi. destruct (v2n_ok nt nr n v Hnt Hr Hi) as [_ B]. rewrite <- Mo by auto. apply (H9 [] _ B eq_refl).
    - destruct (product_spec q ids (g_AT g) _ x (g_vp g) y _ HT Hx Lx Hy Hv Lv) as (x' & vp' & y' & Ep & H1 & H2 & H3 & H4 & H5 & Y' & H6 & H7 & H8 & H9). rewrite Ep. cbn [bind fst snd].
      destruct (product_spec q ids (g_A g) _ x' vp' y' _ HA H1 H2 H6 H4 H5) as (x2 & vp2 & y2 & Ep2 & I1 & I2 & I3 & I4 & I5 & Y2 & I6 & I7 & I8 & I9). rewrite Ep2. exists x2, vp2, y2. split; [reflexivity|].
      split; [auto|]. split; [auto|]. split; [auto|]. split; [auto|]. exists (at_vertex Y2). split; [|split; [auto|split]].
      + eapply held_ext; [auto|auto| |exact I6]. intros id Hi. symmetry. apply at_vertex_po; auto.
      + intros v Hi. destruct (v2n_ok nt nr n v Hnt Hr Hi) as [_ B]. specialize (H8 (pi v) B). specialize (I8 (pi v) B). cbn [olist app] in H8. rewrite RA in H8 by auto. rewrite RB in I8 by auto.
        eapply combined_of_join; eauto.
      + intros v Hi. destruct (v2n_ok nt nr n v Hnt Hr Hi) as [_ B]. rewrite <- Mo by auto. apply (I9 [cell (g_AT g) [] (pi v)] _ B). cbn [flat_map]. rewrite app_nil_r. unfold at_vertex.
        rewrite (H9 [] _ B eq_refl). destruct (eval _ _ (cell (g_AT g) [] (pi v))); reflexivity.
  Qed.

  Lemma apply_phase_spec (q : vst) (Y : Z -> option U) (g : gr) y : g_n g = n ->
    held serv nt n nr nr (g_vp g) (native n nr nt (v_P q)) -> hlive nr (g_vp g) ->
    held false nt n nr nr (g_act g) (fun _ => None) -> hlive nr (g_act g) ->
    held seru nt n nr nr y (nativeo Y) -> hlive nr y ->
    exists vp act ev, apply_phase nr neq pg (v_s q) g y = Ok (vp, act, converged_with n pg neq Y q, ev) /\
      held serv nt n nr nr vp (native n nr nt (updated_with pg Y q)) /\ hlive nr vp /\
      held false nt n nr nr act (nativeo (fun v => if changed_with pg neq Y q v then Some true else None)) /\ hlive nr act /\
      zlen ev = nr /\ forall r, 0 <= r < nr -> rd ev r = Ok (map Applied (filter (fun id => is_some (Y (po id))) (rank_ids r))).
  Proof.
    intros Gn [Dv Fv] Lv [Da Fa] La [Dy Fy] Ly. unfold apply_phase.
    tabs (fun r j (a : seg V byte * seg bool byte * bool * list event) =>
       fine serv nt n nr j (fst (fst (fst a))) (if ow nr j =? r then restr n nr (native n nr nt (updated_with pg Y q)) j else fun _ => None) /\
       fine false nt n nr j (snd (fst (fst a))) (if ow nr j =? r then restr n nr (nativeo (fun v => if changed_with pg neq Y q v then Some true else None)) j else fun _ => None) /\
       (r = j -> live (fst (fst (fst a))) /\ live (snd (fst (fst a))) /\ snd (fst a) = forallb (fun k => negb (changed_with pg neq Y q (po (st n nr r + k)))) (zrange 1 (cap n nr r + 1)) /\
                 snd a = map Applied (filter (fun id => is_some (Y (po id))) (rank_ids r))) /\
       (r <> j -> snd (fst a) = true /\ snd a = [])) as t Et D I0.
    { intros r j Br Bj. rewrite vown_ok by lia. cbn [bind]. destruct (dims_rd2 _ _ _ r j Dv Br Bj) as [sv Ev]. rewrite Ev. cbn [bind]. destruct (dims_rd2 _ _ _ r j Da Br Bj) as [sa Ea]. rewrite Ea. cbn [bind].
      assert (ow nr j = j) as Oj by (unfold ow; apply Z.mod_small; lia). rewrite Oj.
      destruct (Fa r j sa Ea) as (Wa & Cpa & Qa & Aa). destruct (Fv r j sv Ev) as (Wv & Cpv & Qv & Av). rewrite Oj in *. destruct (Z.eqb_spec j r) as [->|N].
      - destruct (dims_rd2 _ _ _ r r Dy Br Bj) as [sy Ey]. rewrite Ey. cbn [bind]. rewrite Gn. rewrite (rd_st n nr) by lia. cbn [bind].
        destruct (Fy r r sy Ey) as (Wy & Cpy & Qy & Ay). rewrite Oj, Z.eqb_refl in Ay.
        assert (live sa) as Lsa by (apply (La r); rewrite Oj; auto). assert (live sv) as Lsv by (apply (Lv r); rewrite Oj; auto). assert (live sy) as Lsy by (apply (Ly r); rewrite Oj; auto).
        destruct (apply_segment_spec seru serv false nt (pr_apply pg (v_s q)) neq (cap n nr r) (st n nr r) sy sv sa (restr n nr (nativeo Y) r) (fun k => v_P q (po (st n nr r + k)))
           (restr n nr (native n nr nt (v_P q)) r)) as (sv' & sa' & Es & W1 & L1 & C1 & Q1 & A1 & W2 & L2 & C2 & Q2 & A2); auto.
        { intros k Hk. unfold restr. destruct (Z.leb_spec 1 k); [|lia]. destruct (Z.leb_spec k (cap n nr r)); [|lia]. cbn [andb]. apply native_in. apply seg_in_range; auto. }
        { intros k Hk. unfold restr. destruct (Z.leb_spec 1 k), (Z.leb_spec k (cap n nr r)); auto; lia. }
        { eapply segM_ext; [|exact Aa]. intros k. unfold restr. destruct (_ && _); auto. }
        rewrite Es. eexists. split; [reflexivity|]. cbn [fst snd].
        assert (forall k, 1 <= k <= cap n nr r -> restr n nr (nativeo Y) r k = Y (po (st n nr r + k))) as HY.
        { intros k Hk. unfold restr. destruct (Z.leb_spec 1 k); [|lia]. destruct (Z.leb_spec k (cap n nr r)); [|lia]. cbn [andb]. apply nativeo_in. apply seg_in_range; auto. }
        split; [|split; [|split]].
        + split; [auto|]. split; [auto|]. split; [auto|]. rewrite ?Z.eqb_refl. eapply segM_ext; [|exact A1]. intros k. cbv beta. unfold restr at 2.
          destruct (Z.leb_spec 1 k), (Z.leb_spec k (cap n nr r)); cbn [andb]; auto. rewrite native_in by (apply seg_in_range; auto). rewrite HY by auto. reflexivity.
        + split; [auto|]. split; [auto|]. split; [auto|]. rewrite ?Z.eqb_refl. eapply segM_ext; [|exact A2]. intros k. cbv beta. unfold restr at 2.
          destruct (Z.leb_spec 1 k), (Z.leb_spec k (cap n nr r)); cbn [andb]; auto. rewrite nativeo_in by (apply seg_in_range; auto). rewrite HY by auto. reflexivity.
        + intros _. split; [auto|]. split; [auto|]. split.
          * apply forallb_ext_in. intros k Hk. apply in_zrange in Hk. rewrite HY by lia. reflexivity.
          * unfold rank_ids, members. replace (st n nr (r + 1) + 1) with (st n nr r + 1 + cap n nr r) by (unfold cap; lia). rewrite zrange_shift.
            replace (cap n nr r + 1) with (1 + cap n nr r) by lia. rewrite zrange_shift.
            rewrite <- (flat_map_filter_map (fun k => st n nr r + 1 + k) Applied (fun id => is_some (Y (po id)))).
            rewrite <- (flat_map_filter_map (fun b => 1 + b) (fun k => Applied (st n nr r + k)) (fun id => is_some (restr n nr (nativeo Y) r id))).
            apply flat_map_ext_in. intros k Hk. apply in_zrange in Hk. rewrite HY by lia. replace (st n nr r + 1 + k) with (st n nr r + (1 + k)) by lia. reflexivity.
        + intros N; lia.
      - eexists. split; [reflexivity|]. cbn [fst snd]. split; [|split; [|split]]; [| |intros; lia|auto].
        + split; [auto|]. split; [auto|]. split; [auto|]. destruct (Z.eqb_spec j r); [lia|]. auto.
        + split; [auto|]. split; [auto|]. split; [auto|]. destruct (Z.eqb_spec j r); [lia|]. auto. }
    rewrite Et. cbn [bind]. eexists _, _, _. split.
    { f_equal. f_equal. f_equal. apply eq_true_iff_eq. rewrite (forallb2_iff _ nr nr t D). unfold converged_with. rewrite forallb_forall. split.
      - intros H v Hv. apply in_zrange in Hv. assert (1 <= v <= n) as Bv by lia. destruct (v2n_ok nt nr n v Hnt Hr Bv) as [_ B]. destruct (vpart_range n nr (pi v) Hn Hr B) as [B1 _].
        set (r := vpart n nr (pi v)) in *. destruct (dims_rd2 _ _ _ r r D B1 B1) as [a Ea]. pose proof (H r r a Ea) as Ha. destruct (I0 r r a Ea) as (_ & _ & Hc & _). destruct (Hc eq_refl) as (_ & _ & Hcv & _).
        rewrite Ha in Hcv. symmetry in Hcv. rewrite forallb_forall in Hcv. specialize (Hcv (pi v - st n nr r)).
        replace (st n nr r + (pi v - st n nr r)) with (pi v) in Hcv by lia. rewrite n2v_v2n in Hcv by auto. apply Hcv. apply in_zrange.
        pose proof (proj1 (seg_ids n nr Hn Hr r (pi v) B1) (conj B eq_refl)). lia.
      - intros H r j a Ea. pose proof (dims_bounds _ _ _ _ _ _ D Ea) as [Br Bj]. destruct (I0 r j a Ea) as (_ & _ & Hc & Hd). destruct (Z.eq_dec r j) as [->|N]; [|apply Hd; auto].
        destruct (Hc eq_refl) as (_ & _ & -> & _). apply forallb_forall. intros k Hk. apply in_zrange in Hk. apply H. pose proof (seg_in_range j k Bj ltac:(lia)) as B. destruct (n2v_ok nt nr n _ Hnt Hr B). apply in_zrange. lia. }
    assert (forall {A} (f : seg V byte * seg bool byte * bool * list event -> A) j s, rd2 (map (map f) t) (ow nr j) j = Ok s -> 0 <= j < nr /\ exists a, rd2 t j j = Ok a /\ s = f a) as G.
    { intros A f j s Es. apply rd2_map in Es as (a & Ea & ->). pose proof (dims_bounds _ _ _ _ _ _ D Ea) as [_ Bj]. assert (ow nr j = j) as Oj by (unfold ow; apply Z.mod_small; lia). rewrite Oj in Ea. eauto. }
    split; [split; [apply dims_map; auto|]|].
    { intros r j s Es. apply rd2_map in Es as (a & Ea & ->). apply (I0 r j a Ea). }
    split. { intros j s Es. destruct (G _ _ j s Es) as (Bj & a & Ea & ->). apply (I0 j j a Ea); auto. }
    split; [split; [apply dims_map; auto|]|].
    { intros r j s Es. apply rd2_map in Es as (a & Ea & ->). apply (I0 r j a Ea). }
    split. { intros j s Es. destruct (G _ _ j s Es) as (Bj & a & Ea & ->). apply (I0 j j a Ea); auto. }
    split. { rewrite zlen_map. apply D. }
    intros r Br. destruct (dims_rd2 _ _ _ r r D Br Br) as [a Ea]. rewrite (row_events snd nr t r a D); auto.
    + f_equal. apply (I0 r r a Ea); auto.
    + intros r' j b Eb N. apply (I0 r' j b Eb); auto.
  Qed.

  Lemma all_active_spec (g : gr) P A : grep g P A -> exists g', all_active nr threads g = Ok g' /\ grep g' P (fun _ => Some true).
  Proof.
    intros (He & Hv & Lv & Ha & La). unfold all_active. destruct (held_vop false nt n nr nr Hn Hr Hr threads (g_act g) _ (OSetAll true) Ta Ha I) as (act & Ea & Hact & Lact).
    cbn [run_vop] in Ea. rewrite Ea. cbn [bind]. eexists. split; [reflexivity|]. split; [exact He|]. cbn [set_act g_vp g_act]. auto 10.
  Qed.
  Lemma all_inactive_spec (g : gr) P A : grep g P A -> exists g', all_inactive nr threads g = Ok g' /\ grep g' P (fun _ => None).
  Proof.
    intros (He & Hv & Lv & Ha & La). unfold all_inactive. destruct (held_vop false nt n nr nr Hn Hr Hr threads (g_act g) _ (OSetInactive false) Ta Ha I) as (act & Ea & Hact & Lact).
    cbn [run_vop] in Ea. rewrite Ea. cbn [bind]. eexists. split; [reflexivity|]. split; [exact He|]. cbn [set_act g_vp g_act]. repeat (split; [auto; fail|]). split; [|auto].
    eapply held_ext; [auto|auto| |exact Hact]. intros id Hi. cbn [spec_sop]. rewrite nativeo_in by auto. reflexivity.
  Qed.

  Definition same_edges (g g' : gr) : Prop := g_A g' = g_A g /\ g_AT g' = g_AT g.
  Lemma all_active_same (g g' : gr) : all_active nr threads g = Ok g' -> same_edges g g'.
  Proof. unfold all_active. intros H. apply bind_Ok in H as (act & _ & H). injection H as <-. split; reflexivity. Qed.
  Lemma all_inactive_same (g g' : gr) : all_inactive nr threads g = Ok g' -> same_edges g g'.
  Proof. unfold all_inactive. intros H. apply bind_Ok in H as (act & _ & H). injection H as <-. split; reflexivity. Qed.

  Section Oracle.
  (** which outcomes of a reduction we are told about *)
  Variable allowed : vst -> (Z -> option U) -> Prop.
  Variable g0 : gr.
  Hypothesis Hal : forall q Y, outcome n es pg dv q Y -> ordered (g_A g0) (g_AT g0) q Y -> exists Y', (forall v, 1 <= v <= n -> Y' v = Y v) /\ allowed q Y'.

  Lemma superstep_with it (q : vst) r : rep q r -> same_edges g0 (r_g r) -> zlen (r_log r) = nr ->
    exists Y r', allowed q Y /\ superstep sert serv seru enct dect encv decv encu decu nr threads dv neq pg it r = Ok (r', converged_with n pg neq Y q) /\
      rep (step_with pg neq Y it q) r' /\ zlen (r_log r') = nr /\ same_edges g0 (r_g r') /\
      forall k, 0 <= k < nr -> exists l l', rd (r_log r) k = Ok l /\ rd (r_log r') k = Ok (l ++ l') /\ calls n es pg dv pi owner k it q l'.
  Proof.
    intros (Rs & Rg & (X0 & Hx) & Cx & Y0 & Hy) [SA ST] Ll. pose proof Rg as (He & Hv & Lv & Ha & La). unfold superstep. rewrite Rs.
    destruct (held_clear sert nt n nr nr Hn Hr Hr threads (r_x r) X0 Tt Hx) as (x1 & Ex1 & Hx1 & Cx1). rewrite Ex1. cbn [bind].
    destruct (held_clear seru nt n nr nr Hn Hr Hr threads (r_y r) Y0 Tu Hy) as (y1 & Ey1 & Hy1 & _). rewrite Ey1. cbn [bind].
    destruct (send_phase_spec q (r_g r) x1) as (x2 & ev & Es & Hx2 & Lx2 & Cx2 & Zev & Iev); auto; [apply He|]. rewrite Es. cbn [bind fst snd].
    destruct (products_spec q (r_g r) x2 y1 He Hx2 Lx2 Hy1 Hv Lv) as (x3 & vp3 & y3 & Ep & Hx3 & Cx3 & Hv3 & Lv3 & Y1 & Hy3' & Ly3 & Out & Ordd). rewrite Ep. cbn [bind fst snd].
    rewrite SA, ST in Ordd. destruct (Hal q Y1 Out Ordd) as (Y & EY & HY). exists Y.
    assert (held seru nt n nr nr y3 (nativeo Y)) as Hy3.
    { eapply held_ext; [auto|auto| |exact Hy3']. intros id Hi. rewrite !nativeo_in by auto. symmetry. apply EY. apply (n2v_ok nt nr n id Hnt Hr Hi). }
    destruct (all_inactive_spec (set_vp vp3 (r_g r)) (v_P q) (v_A q)) as (g4 & E4 & R4). { split; [exact He|]. cbn [set_vp g_vp g_act]. auto. } rewrite E4. cbn [bind].
    pose proof R4 as (He4 & Hv4 & Lv4 & Ha4 & La4).
    destruct (apply_phase_spec q Y g4 y3) as (vp5 & act5 & ev5 & Ea & Hv5 & Lv5 & Ha5 & La5 & Zev5 & Iev5); auto. { apply He4. }
    { eapply held_ext; [auto|auto| |exact Ha4]. intros id Hi. rewrite nativeo_in; auto. }
    rewrite Ea. cbn [bind].
    assert (exists g6, (if pr_all_vertices pg then all_active nr threads (set_act act5 (set_vp vp5 g4)) else Ok (set_act act5 (set_vp vp5 g4))) = Ok g6 /\ grep g6 (updated_with pg Y q) (v_A (step_with pg neq Y it q))) as (g6 & E6 & R6).
    { assert (grep (set_act act5 (set_vp vp5 g4)) (updated_with pg Y q) (fun v => if changed_with pg neq Y q v then Some true else None)) as R5. { split; [exact He4|]. cbn [set_vp set_act g_vp g_act]. auto. }
      unfold step_with. cbn [v_A]. destruct (pr_all_vertices pg); cbn [orb]; [|eauto]. apply (all_active_spec _ _ _ R5). }
    rewrite E6. cbn [bind]. eexists. split; [exact HY|]. split; [reflexivity|]. split; [|split; [|split]].
    - split; [reflexivity|]. split; [exact R6|]. cbn [r_x r_y]. split; [eauto|]. split; [|eauto]. cbn [v_C step_with]. auto.
    - cbn [r_log]. rewrite zlen_map. unfold zlen in *. rewrite !combine_length. lia.
    - cbn [r_g]. pose proof (all_inactive_same _ _ E4) as [S1 S2]. cbn [set_vp g_A g_AT] in S1, S2.
      assert (same_edges g4 g6) as [S3 S4]. { destruct (pr_all_vertices pg); [exact (all_active_same _ _ E6)|]. injection E6 as <-. split; reflexivity. }
      split; congruence.
    - intros k Hk. destruct (rd_ok (r_log r) k) as [l El]; [lia|]. eexists l, _. split; [auto|]. split.
      + cbn [r_log]. rewrite (rd_map _ _ _ _ (rd_combine _ _ k _ _ (rd_combine _ _ k _ _ El (Iev k Hk)) (Iev5 k Hk))). cbn [fst snd]. reflexivity.
      + cbn [fst snd]. destruct (rank_vertices k (fun v => match v_A q v with Some true => true | _ => false end) Hk) as (N1 & M1 & P1). cbv zeta in *.
        destruct (rank_vertices k (fun v => is_some (Y v)) Hk) as (N2 & M2 & P2).
        eexists _, _. split; [|split; [exact N1|split; [|split; [exact N2|]]]].
        * rewrite <- (map_map pi Sent), <- (map_map pi Applied), P1, P2. reflexivity.
        * intros v. rewrite M1. split; intros (A1 & A2 & A3); (split; [auto|split; [auto|]]); destruct (v_A q v) as [[|]|]; auto; discriminate.
        * intros v. rewrite M2. split; intros (A1 & A2 & A3); (split; [auto|split; [auto|]]); specialize (Out v A1); rewrite (EY v A1) in *; destruct (Y1 v) as [u|]; cbn [combined_of is_some] in *; auto; try discriminate; try congruence.
          intros Z0. rewrite Z0 in Out. destruct (combination_nil _ _ Out).
  Qed.

  (** the calls of [k] supersteps from the states [sts 0], [sts 1], ... *)
  Definition logged_of (sts : nat -> vst) (k : nat) (log : list (list event)) : Prop :=
    zlen log = nr /\ forall r, 0 <= r < nr -> exists ls, rd log r = Ok (concat ls) /\ length ls = k /\
      forall i, (i < k)%nat -> exists l, nth_error ls i = Some l /\ calls n es pg dv pi owner r (Z.of_nat i) (sts i) l.
  Lemma logged_of_ext sts sts' k log : (forall i, (i < k)%nat -> sts i = sts' i) -> logged_of sts k log -> logged_of sts' k log.
  Proof.
    intros H [L1 L2]. split; auto. intros r Br. destruct (L2 r Br) as (ls & E1 & E2 & E3). exists ls. split; auto. split; auto. intros i Hi. rewrite <- (H i Hi). auto.
  Qed.

  Notation oracle := (nat -> Z -> option U).
  Definition extend (Y : oracle) (k : nat) (y : Z -> option U) : oracle := fun i => if (i =? k)%nat then y else Y i.
  Lemma extend_lt Y k y i : (i < k)%nat -> extend Y k y i = Y i.
  Proof. intros H. unfold extend. destruct (Nat.eqb_spec i k); [lia|auto]. Qed.
  Lemma extend_eq Y k y : extend Y k y k = y.
  Proof. unfold extend. rewrite Nat.eqb_refl. auto. Qed.
  Lemma after_with_ext (Y Y' : oracle) q0 k : (forall i, (i < k)%nat -> Y i = Y' i) -> after_with pg neq Y k q0 = after_with pg neq Y' k q0.
  Proof. induction k as [|k IH]; intros H; cbn [after_with]; auto. rewrite (H k) by lia. rewrite IH by (intros; apply H; lia). auto. Qed.
  Lemma ends_with_ext (Y Y' : oracle) it q0 k : (0 < k)%nat -> (forall i, (i < k)%nat -> Y i = Y' i) -> ends_with n pg neq Y it q0 k -> ends_with n pg neq Y' it q0 k.
  Proof. intros Hk H. unfold ends_with. rewrite (H (k - 1)%nat) by lia. rewrite (after_with_ext Y Y' q0 (k - 1)) by (intros; apply H; lia). auto. Qed.

  Lemma run_loop_with iterations (q0 : vst) : forall fuel k r Y0, (forall i, (i < k)%nat -> allowed (after_with pg neq Y0 i q0) (Y0 i)) ->
    rep (after_with pg neq Y0 k q0) r -> same_edges g0 (r_g r) -> logged_of (fun i => after_with pg neq Y0 i q0) k (r_log r) ->
    exists Y, (forall i, (i < k)%nat -> Y i = Y0 i) /\
    ((exists K r', (k < K <= k + fuel)%nat /\ (forall i, (i < K)%nat -> allowed (after_with pg neq Y i q0) (Y i)) /\
       ends_with n pg neq Y iterations q0 K /\ (forall j, (k < j < K)%nat -> ~ ends_with n pg neq Y iterations q0 j) /\
       run_loop sert serv seru enct dect encv decv encu decu nr threads dv neq pg fuel iterations (Z.of_nat k) r = Ok (r', Z.of_nat K) /\
       rep (after_with pg neq Y K q0) r' /\ same_edges g0 (r_g r') /\ logged_of (fun i => after_with pg neq Y i q0) K (r_log r')) \/
    ((forall i, (i < k + fuel)%nat -> allowed (after_with pg neq Y i q0) (Y i)) /\
       (forall j, (k < j <= k + fuel)%nat -> ~ ends_with n pg neq Y iterations q0 j) /\
       run_loop sert serv seru enct dect encv decv encu decu nr threads dv neq pg fuel iterations (Z.of_nat k) r = Err NoFuel)).
  Proof.
    induction fuel as [|fuel IH]; intros k r Y0 Al Rp Sm Lg.
    { exists Y0. split; auto. right. split; [intros i Hi; apply Al; lia|]. split; [intros; lia|reflexivity]. }
    cbn [run_loop].
    destruct (superstep_with (Z.of_nat k) _ r Rp Sm (proj1 Lg)) as (y & r1 & Hy & E1 & R1 & L1 & S1 & C1). rewrite E1. cbn [bind fst snd].
    set (Y1 := extend Y0 k y). assert (forall i, (i < k)%nat -> Y1 i = Y0 i) as X1 by (intros; apply extend_lt; auto).
    assert (forall i, (i <= k)%nat -> after_with pg neq Y1 i q0 = after_with pg neq Y0 i q0) as X2 by (intros i Hi; apply after_with_ext; intros; apply X1; lia).
    assert (Y1 k = y) as X3 by apply extend_eq.
    assert (rep (after_with pg neq Y1 (Datatypes.S k) q0) r1) as R1'. { cbn [after_with]. rewrite X3, X2 by lia. exact R1. }
    assert (forall i, (i < Datatypes.S k)%nat -> allowed (after_with pg neq Y1 i q0) (Y1 i)) as Al1.
    { intros i Hi. rewrite X2 by lia. destruct (Nat.eq_dec i k) as [->|N]; [rewrite X3; auto|]. rewrite X1 by lia. apply Al. lia. }
    assert (logged_of (fun i => after_with pg neq Y1 i q0) (Datatypes.S k) (r_log r1)) as Lg1.
    { split; auto. intros rk Hrk. destruct Lg as [_ Lg]. destruct (Lg rk Hrk) as (ls & Els & Lls & Ils). destruct (C1 rk Hrk) as (l & l' & El & El' & Cl). rewrite Els in El. injection El as <-.
      exists (ls ++ [l']). rewrite concat_app. cbn [concat]. rewrite app_nil_r. split; auto. split; [rewrite app_length; cbn [length]; lia|]. intros i Hi. rewrite X2 by lia.
      destruct (Nat.eq_dec i k) as [->|Ni].
      - exists l'. rewrite nth_error_app2, Lls, Nat.sub_diag by lia. auto.
      - destruct (Ils i ltac:(lia)) as (li & Eli & Cli). exists li. rewrite nth_error_app1 by lia. auto. }
    assert (Z.of_nat k + 1 = Z.of_nat (Datatypes.S k)) as Ek by lia. rewrite Ek.
    assert (forall Y, (forall i, (i < Datatypes.S k)%nat -> Y i = Y1 i) -> ends_with n pg neq Y iterations q0 (Datatypes.S k) <-> (Z.of_nat (Datatypes.S k) =? iterations) || ((iterations <=? 0) && converged_with n pg neq y (after_with pg neq Y0 k q0)) = true) as Ends.
    { intros Y HY. unfold ends_with. replace (Datatypes.S k - 1)%nat with k by lia. rewrite (HY k), X3 by lia. rewrite (after_with_ext Y Y1) by (intros; apply HY; lia). rewrite X2 by lia.
      rewrite orb_true_iff, andb_true_iff, Z.eqb_eq, Z.leb_le. tauto. }
    destruct (_ || _) eqn:En in Ends.
    - exists Y1. split; [auto|]. left. exists (Datatypes.S k), r1. split; [lia|]. split; [auto|]. split; [apply Ends; auto|]. split; [intros; lia|]. split; [|auto]. apply orb_true_iff in En as [-> | ->]; [auto|destruct (_ =? _); auto].
    - apply orb_false_iff in En as [-> ->]. destruct (IH (Datatypes.S k) r1 Y1 Al1 R1' S1 Lg1) as (Y & EY & [(K & r' & B & HA & HE & HN & Er & Rr & Sr & Lr)|(HA & HN & Er)]).
      + exists Y. split; [intros i Hi; rewrite EY by lia; auto|]. left. exists K, r'. split; [lia|]. split; [auto|]. split; [auto|]. split; [|auto]. intros j Hj. destruct (Nat.eq_dec j (Datatypes.S k)) as [->|]; [intros X; apply (Ends Y EY) in X; discriminate|]. apply HN. lia.
      + exists Y. split; [intros i Hi; rewrite EY by lia; auto|]. right. split; [intros i Hi; apply HA; lia|]. split; auto. intros j Hj. destruct (Nat.eq_dec j (Datatypes.S k)) as [->|]; [intros X; apply (Ends Y EY) in X; discriminate|]. apply HN. lia.
  Qed.
  End Oracle.

  Lemma new_temps_spec : exists x y, new_temps (byte:=byte) nr threads tjunk ujunk tfresh ufresh dt du n = Ok (x, y) /\ trep x y (fun _ => dt).
  Proof.
    unfold new_temps. destruct (held_new (byte:=byte) sert nt n nr nr Hn Hr Hr threads tjunk tfresh dt Tt) as (x & Ex & Hx & Lx). rewrite Ex. cbn [bind].
    destruct (held_new (byte:=byte) seru nt n nr nr Hn Hr Hr threads ujunk ufresh du Tu) as (y & Ey & Hy & Ly). rewrite Ey. cbn [bind]. exists x, y. split; [reflexivity|].
    split; [eauto|]. split; [|eauto]. eapply hcells_of; eauto. intros id Hi. cbv beta. destruct (Z.leb_spec 1 id); [|lia]. destruct (Z.leb_spec id n); [|lia]. reflexivity.
  Qed.

  (** [run_graph_program] on a graph with properties [P] and activity [A]; the message variables
      start with [C0], which without a temporary structure is the value of the local [_t] *)
  Lemma run_with (allowed : vst -> (Z -> option U) -> Prop) fuel s (g : gr) P A iterations tmp C0 :
    (forall q Y, outcome n es pg dv q Y -> ordered (g_A g) (g_AT g) q Y -> exists Y', (forall v, 1 <= v <= n -> Y' v = Y v) /\ allowed q Y') -> grep g P A ->
    match tmp with None => C0 = (fun _ => dt) | Some xy => trep (fst xy) (snd xy) C0 end ->
    let q0 := mkV s P A C0 in
    exists Y,
    (exists K r, (1 <= K <= fuel)%nat /\ (forall i, (i < K)%nat -> allowed (after_with pg neq Y i q0) (Y i)) /\
       ends_with n pg neq Y iterations q0 K /\ (forall j, (1 <= j < K)%nat -> ~ ends_with n pg neq Y iterations q0 j) /\
       run_graph_program sert serv seru enct dect encv decv encu decu nr threads tjunk ujunk tfresh ufresh dt du dv neq pg fuel s g iterations tmp = Ok (r, Z.of_nat K) /\
       rep (after_with pg neq Y K q0) r /\ same_edges g (r_g r) /\ logged_of (fun i => after_with pg neq Y i q0) K (r_log r)) \/
    ((forall i, (i < fuel)%nat -> allowed (after_with pg neq Y i q0) (Y i)) /\
       (forall j, (1 <= j <= fuel)%nat -> ~ ends_with n pg neq Y iterations q0 j) /\
       run_graph_program sert serv seru enct dect encv decv encu decu nr threads tjunk ujunk tfresh ufresh dt du dv neq pg fuel s g iterations tmp = Err NoFuel).
  Proof.
    intros Hal G Tm q0. unfold run_graph_program. pose proof G as (He & _). rewrite (proj1 He).
    assert (exists x y, match tmp with None => new_temps nr threads tjunk ujunk tfresh ufresh dt du n | Some xy => Ok xy end = Ok (x, y) /\ trep x y C0) as (x & y & Exy & Rxy).
    { destruct tmp as [[x y]|]; [exists x, y; auto|]. subst C0. apply new_temps_spec. }
    rewrite Exy. cbn [bind fst snd].
    assert (exists g1, (if pr_all_vertices pg then all_active nr threads g else Ok g) = Ok g1 /\ grep g1 P (if pr_all_vertices pg then fun _ => Some true else A)) as (g1 & E1 & R1).
    { destruct (pr_all_vertices pg); [apply (all_active_spec _ _ _ G)|eauto]. }
    rewrite E1. cbn [bind].
    destruct (run_loop_with allowed g Hal iterations q0 fuel 0 (mkR s g1 x y (map (fun _ => []) (zrange 0 nr))) (fun _ _ => None)) as (Y & _ & [(K & r & B & HA & HE & HN & Er & Rr & Sr & Lr)|(HA & HN & Er)]).
    - intros; lia.
    - split; [reflexivity|]. split; [exact R1|]. exact Rxy.
    - cbn [r_g]. destruct (pr_all_vertices pg); [exact (all_active_same _ _ E1)|]. injection E1 as <-. split; reflexivity.
    - split; [cbn [r_log]; rewrite zlen_map, zlen_zrange; lia|]. intros rk Hk. exists []. split; [|split; [reflexivity|intros; lia]]. cbn [r_log]. erewrite rd_map; [reflexivity|]. apply rd_zrange. lia.
    - exists Y. left. exists K, r. split; [lia|]. split; [auto|]. split; [auto|]. split; [intros; apply HN; lia|]. auto.
    - exists Y. right. split; [auto|]. split; [intros; apply HN; lia|auto].
  Qed.

  (** the calls of [k] supersteps from [q0] *)
  Definition logged (q0 : vst) (k : nat) (log : list (list event)) : Prop := logged_of (fun i => after es pg neq dv i q0) k log.

  (** a commutative and associative reduction has one outcome *)
  Hypothesis Hcomm : forall s, commutative (pr_reduce pg s).
  Hypothesis Hassoc : forall s, associative (pr_reduce pg s).
  Lemma run_spec fuel s (g : gr) P A iterations tmp C0 : grep g P A ->
    match tmp with None => C0 = (fun _ => dt) | Some xy => trep (fst xy) (snd xy) C0 end ->
    let q0 := mkV s P A C0 in
    (exists K r, (1 <= K <= fuel)%nat /\ ends n es pg neq dv iterations q0 K /\ (forall j, (1 <= j < K)%nat -> ~ ends n es pg neq dv iterations q0 j) /\
       run_graph_program sert serv seru enct dect encv decv encu decu nr threads tjunk ujunk tfresh ufresh dt du dv neq pg fuel s g iterations tmp = Ok (r, Z.of_nat K) /\
       rep (after es pg neq dv K q0) r /\ logged q0 K (r_log r)) \/
    ((forall j, (1 <= j <= fuel)%nat -> ~ ends n es pg neq dv iterations q0 j) /\
       run_graph_program sert serv seru enct dect encv decv encu decu nr threads tjunk ujunk tfresh ufresh dt du dv neq pg fuel s g iterations tmp = Err NoFuel).
  Proof.
    intros G Tm q0.
    assert (forall Y k, (forall i, (i < k)%nat -> Y i = combined es pg dv (after_with pg neq Y i q0)) -> after_with pg neq Y k q0 = after es pg neq dv k q0) as Af.
    { intros Y. induction k as [|k IH]; intros H; auto. cbn [after_with after]. rewrite <- IH by (intros; apply H; lia). rewrite (H k) by lia. reflexivity. }
    assert (forall Y K, (forall i, (i < K)%nat -> Y i = combined es pg dv (after_with pg neq Y i q0)) -> forall k, (1 <= k <= K)%nat -> ends_with n pg neq Y iterations q0 k <-> ends n es pg neq dv iterations q0 k) as En.
    { intros Y K H k Hk. unfold ends_with, ends. rewrite (H (k - 1)%nat) by lia. rewrite (Af Y (k - 1)%nat) by (intros; apply H; lia). reflexivity. }
    destruct (run_with (fun q Y => Y = combined es pg dv q) fuel s g P A iterations tmp C0) as (Y & [(K & r & B & HA & HE & HN & Er & Rr & _ & Lr)|(HA & HN & Er)]); auto.
    - intros q Y HY _. exists (combined es pg dv q). split; auto. intros v Hv. symmetry. unfold combined. apply combined_of_unique; auto.
    - left. exists K, r. split; [auto|]. split; [apply (En Y K HA); auto; lia|]. split; [intros j Hj X; apply (HN j Hj); apply (En Y K HA); auto; lia|]. split; [auto|].
      change (rep (after_with pg neq Y K q0) r) in Rr; rewrite (Af Y K HA) in Rr. split; [auto|]. eapply logged_of_ext; [|exact Lr]. intros i Hi. apply Af. intros; apply HA; lia.
    - right. split; [|auto]. intros j Hj X. apply (HN j Hj). apply (En Y fuel HA); auto.
  Qed.
End RunProofs.
