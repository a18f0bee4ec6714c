(** The claims about the applications in the form in which they are stated. *)
From Verif Require Import BaseLemmas Layout Reduce ReduceProofs DCSC MatSpec Segment Vec SpMat GraphVert Graph Runtime RunSpec RuntimeProofs GraphOps GraphHist GraphHistProofs RunFinal RunClaims Apps AppSpec AppBase.
From Verif Require Import DegreeProofs TopSortProofs TriangleProofs.

Lemma topsort_acyclic {byte} (m : machine top_vertex Z byte) n blobs th fr1 fr2 dt1 dt2 dv fuel :
  setting m n blobs -> n < 2 ^ 31 -> zlen (concat blobs) < 2 ^ 31 -> threads_ok m (m_serv m) th -> frame_ok m th fr1 -> frame_ok m th fr2 -> (Z.to_nat (Z.max n 1) <= fuel)%nat ->
  acyclic (concat blobs) ->
  exists g P, run_topsort m th fr1 fr2 dt1 dt2 dv fuel n blobs = Ok (g, map (fun _ => 0) (zrange 0 (m_nr m))) /\ shows_properties n m g P /\
    (forall v, 1 <= v <= n -> 0 <= t_order (P v) < n) /\
    forall e, In e (concat blobs) -> t_order (P (e_src e)) < t_order (P (e_dst e)).
Proof.
  intros H Hn Hl Ht Hf1 Hf2 Hf Hac. destruct (run_topsort_spec m n blobs H Hn Hl th fr1 fr2 dt1 dt2 dv fuel Ht Hf1 Hf2 Hf) as (g & k & P & Er & Hp & Hres & (l & _ & Hc & Ek)).
  assert (forall v, ~ behind_cycle (concat blobs) v) as Hb by (intros v (x & w & h & w' & h' & W & _); apply Hac in W; discriminate).
  assert (k = 0) as ->. { destruct l as [|v l]; [exact Ek|]. destruct (proj1 (Hc v) (or_introl eq_refl)) as [_ X]. destruct (Hb v X). }
  exists g, P. split; [exact Er|]. split; auto. split.
  - intros v Bv. destruct (Hres v Bv) as (_ & [[_ X]|(h & _ & -> & B & _)]); [destruct (Hb v X)|lia].
  - intros e He. destruct H as (_ & _ & _ & Hin). destruct (Hin e He) as [B1 B2].
    destruct (Hres _ B1) as (_ & [[_ X]|(h1 & [(x & w & W) _] & -> & _)]); [destruct (Hb _ X)|].
    destruct (Hres _ B2) as (_ & [[_ X]|(h2 & [_ Lo] & -> & _)]); [destruct (Hb _ X)|].
    pose proof (Lo _ _ _ (walk_edge (concat blobs) _ _ _ _ W He)). lia.
Qed.

Lemma filter_perm {A} (p : A -> bool) l l' : Permutation l l' -> Permutation (filter p l) (filter p l').
Proof. induction 1; cbn; repeat (match goal with |- context [p ?x] => destruct (p x) end); eauto using Permutation. Qed.

Lemma triangles_any {byte} (srt : list Z -> list Z) (m : machine tc_vertex Z byte) n blobs th fr1 fr2 dt1 dt2 dv junk l :
  sorts_ints srt -> setting m n blobs -> simple_edges (concat blobs) -> threads_ok m (m_serv m) th -> frame_ok m th fr1 -> frame_ok m th fr2 ->
  triangles (concat blobs) l -> zlen l < 2 ^ 31 ->
  exists g P, run_triangles srt m th fr1 fr2 dt1 dt2 dv junk n blobs = Ok (g, map (fun _ => zlen l) (zrange 0 (m_nr m))) /\ shows_properties n m g P /\
    forall v, 1 <= v <= n -> tc_id (P v) = v /\ tc_triangles (P v) = zlen (filter (fun t => snd (fst t) =? v) l).
Proof.
  intros Hsrt Hset Hs Ht Hf1 Hf2 [Nd Hi] Hl. destruct (all_triangles_ok _ Hs) as [Nd' Hi'].
  assert (Permutation l (all_triangles (concat blobs))) as P.
  { apply NoDup_Permutation; auto. intros [[a b] c]. rewrite Hi, Hi'. tauto. }
  assert (zlen l = zlen (all_triangles (concat blobs))) as El by (unfold zlen; rewrite (Permutation_length P); reflexivity).
  destruct (run_triangles_spec srt Hsrt m n blobs Hset Hs th fr1 fr2 dt1 dt2 dv junk Ht Hf1 Hf2 ltac:(lia)) as (g & Q & Er & Hq & Hv).
  exists g, Q. rewrite El. split; [exact Er|]. split; auto. intros v Bv. destruct (Hv v Bv) as (Hid & _ & _ & ->). split; [exact Hid|]. unfold zlen. rewrite (Permutation_length (filter_perm _ _ _ P)). reflexivity.
Qed.

(** an edge list reached without edge maps is the loaded one up to edge values; degrees only depend
    on the ends *)
Lemma spec_calls_ends {V E byte} neq n (h : list (Z * gcall V E byte)) : forall q o, spec_calls neq n h q o -> match o with Some q' => map (fun e => (e_src e, e_dst e)) (gs_es q') = map (fun e => (e_src e, e_dst e)) (gs_es q) | None => True end.
Proof.
  induction h as [|[th c] h IH]; cbn [spec_calls]; intros q o H; [subst; reflexivity|]. destruct H as (o1 & Hc & H). destruct o1 as [q1|]; [|subst; exact I].
  specialize (IH _ _ H). destruct o as [q'|]; [|exact I]. rewrite IH. cbn [snd] in Hc. destruct c; cbn [spec_call] in Hc; try (injection Hc as ->; reflexivity).
  - injection Hc as ->. cbn [gs_es]. rewrite map_map. reflexivity.
  - destruct Hc as [(K & _ & Ho)|[_ Ho]]; [injection Ho as ->; reflexivity|discriminate].
Qed.
Lemma filter_ends {A B C} (f : A -> C) (g : B -> C) (p : C -> bool) l : forall l', map f l = map g l' -> zlen (filter (fun x => p (f x)) l) = zlen (filter (fun x => p (g x)) l').
Proof.
  induction l as [|x l IH]; intros [|y l'] H; try discriminate; [reflexivity|]. injection H as E H. cbn [filter]. rewrite E. specialize (IH l' H). destruct (p (g y)); [rewrite !zlen_cons, IH; reflexivity|exact IH].
Qed.
Lemma means_ends {V E byte} neq dv n blobs (h : list (Z * gcall V E byte)) q : means neq dv n blobs h q -> map (fun e => (e_src e, e_dst e)) (gs_es q) = map (fun e => (e_src e, e_dst e)) (concat blobs).
Proof. intros H. apply (spec_calls_ends neq n h _ _ H). Qed.

Lemma degrees_any {F E byte} (fl : floats F) (m : machine (pr_vertex F) E byte) dv0 n blobs h g q th fr dt dv fuel :
  setting m n blobs -> calls_ok n m h -> reached (pr_neq fl) m dv0 n blobs h g -> means (pr_neq fl) dv0 n blobs h q ->
  threads_ok m (m_serv m) th -> frame_ok m th fr -> (1 <= fuel)%nat -> zlen (concat blobs) < 2 ^ 31 -> (forall v, 1 <= v <= n -> gs_A q v = Some true) ->
  exists r P, run_job (pr_neq fl) m th (mkJ degree tt 1 dt dv fuel) fr None g = Ok (r, 1) /\ shows_properties n m (r_g r) P /\
    forall v, 1 <= v <= n -> P v = mkPR (p_rank (gs_P q v)) (let d := out_degree (concat blobs) v in if d =? 0 then p_degree (gs_P q v) else d).
Proof.
  intros Hset Hc Hr Hq Ht Hfr Hf Hl HA. pose proof (reach_is (pr_neq fl) m dv0 n blobs Hset h g q Hc Hr Hq) as Hg. pose proof (means_ends _ _ _ _ _ _ Hq) as He. destruct Hset as (Hm & Hn & _).
  assert (zlen (gs_es q) = zlen (concat blobs)) as L by (unfold zlen; rewrite <- (map_length (fun e => (e_src e, e_dst e))), He, map_length; reflexivity).
  destruct (degree_is fl m Hm n Hn th dt dv fuel fr None (fun _ => dt) g q Ht Hfr Hg eq_refl Hf HA ltac:(lia)) as (r & P & A & Er & Hg' & HP). exists r, P. split; auto.
  split; [apply (is_properties (pr_neq fl) m Hm n Hn _ _ Hg')|]. intros v Bv. rewrite (HP v Bv). pose proof (filter_ends (fun e => (e_src e, e_dst e)) (fun e => (e_src e, e_dst e)) (fun p => fst p =? v) _ _ He) as X. cbn [fst snd] in X.
  unfold out_degree. rewrite X. reflexivity.
Qed.
Lemma indegrees_any {byte} (m : machine top_vertex Z byte) dv0 n blobs h g q th fr dt dv fuel :
  setting m n blobs -> calls_ok n m h -> reached top_neq m dv0 n blobs h g -> means top_neq dv0 n blobs h q ->
  threads_ok m (m_serv m) th -> frame_ok m th fr -> (1 <= fuel)%nat -> zlen (concat blobs) < 2 ^ 31 ->
  exists r P, run_job top_neq m th (mkJ indegree tt 1 dt dv fuel) fr None g = Ok (r, 1) /\ shows_properties n m (r_g r) P /\
    forall v, 1 <= v <= n -> P v = mkT (t_order (gs_P q v)) (let d := in_degree (concat blobs) v in if d =? 0 then t_deg (gs_P q v) else d) (t_failed (gs_P q v)).
Proof.
  intros Hset Hc Hr Hq Ht Hfr Hf Hl. pose proof (reach_is top_neq m dv0 n blobs Hset h g q Hc Hr Hq) as Hg. pose proof (means_ends _ _ _ _ _ _ Hq) as He. destruct Hset as (Hm & Hn & _).
  assert (zlen (gs_es q) = zlen (concat blobs)) as L by (unfold zlen; rewrite <- (map_length (fun e => (e_src e, e_dst e))), He, map_length; reflexivity).
  destruct (indegree_is m Hm n Hn th dt dv fuel fr None (fun _ => dt) g q Ht Hfr Hg eq_refl Hf ltac:(lia)) as (r & P & A & Er & Hg' & HP). exists r, P. split; auto.
  split; [apply (is_properties top_neq m Hm n Hn _ _ Hg')|]. intros v Bv. rewrite (HP v Bv). pose proof (filter_ends (fun e => (e_src e, e_dst e)) (fun e => (e_src e, e_dst e)) (fun p => snd p =? v) _ _ He) as X. cbn [fst snd] in X.
  unfold in_degree. rewrite X. reflexivity.
Qed.
