From Coq Require Import Sorting.Sorted.
From Verif Require Import BaseLemmas Layout Reduce ReduceProofs DCSC MatSpec Segment Vec SpMat GraphVert Graph Runtime RunSpec RuntimeProofs GraphOps GraphHist GraphHistProofs Apps AppSpec AppBase DegreeProofs TriangleProofs TriSpec.

Definition cnt (x : Z) (l : list Z) : Z := zlen (filter (Z.eqb x) l).
Lemma cnt_cons x a l : cnt x (a :: l) = (if x =? a then 1 else 0) + cnt x l.
Proof. unfold cnt. cbn [filter]. destruct (x =? a); rewrite ?zlen_cons; lia. Qed.
Lemma cnt_pos x l : 0 <= cnt x l. Proof. apply zlen_nonneg. Qed.
Lemma cnt_out x l : ~ In x l -> cnt x l = 0.
Proof. induction l as [|a l IH]; intros H; [reflexivity|]. rewrite cnt_cons, IH by (intros C; apply H; right; exact C). destruct (Z.eqb_spec x a) as [->|]; [exfalso; apply H; left; reflexivity|reflexivity]. Qed.
Lemma cnt_perm x l l' : Permutation l l' -> cnt x l = cnt x l'.
Proof. induction 1 as [| |a b l|]; rewrite ?cnt_cons; lia. Qed.
Lemma total_sum l : total l = sum l.
Proof. induction l as [|x l IH]; [reflexivity|]. cbn [total fold_right sum]. fold (total l). lia. Qed.
(** two sorted vectors have as many common elements as the smaller multiplicities say *)
Lemma common_counts R l1 : NoDup R -> StronglySorted Z.le l1 -> (forall x, In x l1 -> In x R) -> forall l2, StronglySorted Z.le l2 ->
  common l1 l2 = sum (map (fun c => Z.min (cnt c l1) (cnt c l2)) R).
Proof.
  intros NR. induction 1 as [|a r1 S1 IH F1]; intros HR.
  - intros l2 _. assert (common [] l2 = 0) as -> by (destruct l2; reflexivity). rewrite (sum_ext _ (fun _ => 0)); [rewrite sum_zeros; reflexivity|]. intros c _. change (cnt c []) with 0. pose proof (cnt_pos c l2). lia.
  - rewrite Forall_forall in F1. specialize (IH ltac:(intros; apply HR; right; assumption)).
    induction 1 as [|b r2 S2 IH2 F2].
    + cbn [common]. rewrite (sum_ext _ (fun _ => 0)); [rewrite sum_zeros; reflexivity|]. intros c _. pose proof (cnt_pos c (a :: r1)). change (cnt c []) with 0. lia.
    + rewrite Forall_forall in F2. assert (common (a :: r1) (b :: r2) = if a =? b then 1 + common r1 r2 else if a <? b then common r1 (b :: r2) else common (a :: r1) r2) as -> by reflexivity.
      destruct (Z.eqb_spec a b) as [<-|Ne].
      * rewrite (IH r2 S2). rewrite (sum_ext (fun c => Z.min (cnt c (a :: r1)) (cnt c (a :: r2))) (fun c => (if a =? c then 1 else 0) + Z.min (cnt c r1) (cnt c r2))).
        { rewrite sum_plus, (sum_one a 1); auto. apply HR. left. reflexivity. }
        intros c _. rewrite !cnt_cons, (Z.eqb_sym c a). lia.
      * destruct (Z.ltb_spec a b).
        { rewrite (IH (b :: r2)) by (constructor; auto; apply Forall_forall; auto). apply sum_ext. intros c _. rewrite (cnt_cons c a). destruct (Z.eqb_spec c a) as [->|]; [|reflexivity].
          rewrite (cnt_out a (b :: r2)); [pose proof (cnt_pos a r1); lia|]. intros [->|Hi]; [lia|]. specialize (F2 a Hi). lia. }
        { rewrite IH2. apply sum_ext. intros c _. rewrite (cnt_cons c b). destruct (Z.eqb_spec c b) as [->|]; [|reflexivity].
          rewrite (cnt_out b (a :: r1)); [pose proof (cnt_pos b r2); lia|]. intros [->|Hi]; [lia|]. specialize (F1 b Hi). lia. }
Qed.
Lemma cnt_outs es v c : cnt c (outs es v) = parallel es v c.
Proof.
  unfold cnt, outs, parallel. induction es as [|e l IH]; [reflexivity|]. cbn [filter]. destruct (e_src e =? v); cbn [map filter andb]; [|exact IH].
  rewrite (Z.eqb_sym (e_dst e)). destruct (c =? e_dst e); rewrite ?zlen_cons; lia.
Qed.
Lemma i32_range x : - 2 ^ 31 <= i32 x < 2 ^ 31.
Proof. unfold i32. pose proof (Z.mod_pos_bound (x + 2 ^ 31) (2 ^ 32)). lia. Qed.
Lemma i32_sum {A} (f : A -> Z) l : i32 (sum (map (fun x => i32 (f x)) l)) = i32 (sum (map f l)).
Proof. induction l as [|x l IH]; [reflexivity|]. cbn [map sum]. rewrite i32_plus_l, <- i32_plus_r, IH, i32_plus_r. reflexivity. Qed.
Lemma red_u64_mod l : (forall x, In x l -> 0 <= x < 2 ^ 64) -> l <> [] -> red u64_add l = Some (sum l mod 2 ^ 64).
Proof.
  destruct l as [|x l]; [congruence|]. intros H _. cbn [red sum]. f_equal. pose proof (H x ltac:(simpl; auto)) as Px. clear H. revert x Px. induction l as [|y l IH]; intros x Px; cbn [fold_left sum].
  - rewrite Z.add_0_r, Z.mod_small by lia. reflexivity.
  - rewrite IH by (apply Z.mod_pos_bound; lia). unfold u64_add. rewrite Z.add_mod_idemp_l by lia. f_equal. lia.
Qed.
Lemma sum_mod {A} (f : A -> Z) l m : m <> 0 -> sum (map (fun x => f x mod m) l) mod m = sum (map f l) mod m.
Proof. intros Hm. induction l as [|x l IH]; [reflexivity|]. cbn [map sum]. rewrite Z.add_mod_idemp_l by auto. rewrite <- Z.add_mod_idemp_r, IH, Z.add_mod_idemp_r by auto. reflexivity. Qed.

Section RunTriangles.
  Context {byte : Type}.
  Variable srt : list Z -> list Z.
  Hypothesis Hsrt : sorts_ints srt.
  Variable m : machine tc_vertex Z byte.
  Variables (n : Z) (blobs : list (list (edge Z))).
  Hypothesis Hset : setting m n blobs.
  Notation es := (concat blobs).
  Variables (th : Z) (fr1 : frame Z (list Z) byte) (fr2 : frame tc_vertex Z byte) (dt1 : Z) (dt2 dv : tc_vertex) (junk : Z).
  Hypothesis Ht : threads_ok m (m_serv m) th.
  Hypothesis Hfr1 : frame_ok m th fr1.
  Hypothesis Hfr2 : frame_ok m th fr2.
  Notation nr := (m_nr m).
  Let Hm : machine_ok m. Proof. apply Hset. Qed.
  Let Hn0 : 0 <= n. Proof. apply Hset. Qed.
  Let Hr : 1 <= nr. Proof. apply Hm. Qed.

  Lemma run_triangles_all :
    exists g P, run_triangles srt m th fr1 fr2 dt1 dt2 dv junk n blobs = Ok (g, map (fun _ => total (map (fun v => tc_triangles (P v)) (zrange 1 (n + 1))) mod 2 ^ 64) (zrange 0 nr)) /\
      shows_properties n m g P /\ forall v, 1 <= v <= n -> tc_triangles (P v) = i32 (closed_at n es v).
  Proof.
    pose proof Hset as (_ & _ & Lb & Hin). unfold run_triangles. destruct (load_is m Hm n Hn0 (mkTC junk 0 []) blobs Lb Hin) as (g0 & -> & H0). cbn [bind].
    destruct (init_is m Hm n Hn0 th fr1 dt1 g0 _ Hfr1 H0) as (xy & -> & Hxy). cbn [bind].
    destruct (init_is m Hm n Hn0 th fr2 dt2 g0 _ Hfr2 H0) as (xy2 & -> & Hxy2). cbn [bind].
    destruct (each_is m Hm n Hn0 (fun i g => modify_owned m th i (mkTC junk 0 []) (fun p => mkTC i (tc_triangles p) (tc_neighbors p)) g) (fun i p => mkTC i (tc_triangles p) (tc_neighbors p)) g0 _ H0) as (g1 & -> & H1).
    { intros i g q Bi Hg. apply (modify_owned_is tc_neq m Hm n Hn0 th i (mkTC junk 0 []) (fun p => mkTC i (tc_triangles p) (tc_neighbors p)) g q Ht Bi Hg). }
    cbn [bind].
    destruct (run_once tc_neq m Hm n Hn0 th (get_neighbors srt) tt dt1 dv 1 fr1 (Some xy) (fun _ => dt1) g1 _ Ht Hfr1 H1 Hxy ltac:(lia)) as (Y1 & r1 & -> & HY1 & H2 & _). cbn [bind fst].
    cbn [gs_es gs_P gs_A loaded tc_triangles tc_neighbors] in *.
    match type of H2 with is _ _ _ (mkGS _ ?P _) => set (P1 := P) in * end.
    assert (forall v, 1 <= v <= n -> exists N, P1 v = mkTC v 0 N /\ StronglySorted Z.le N /\ Permutation (outs es v) N) as HP1.
    { intros v Bv. specialize (HY1 v Bv). unfold P1, updated_with. cbn [v_P begin v_s].
      rewrite (received_all_in (get_neighbors srt) _ dv _ (fun x => x)) in HY1; [|reflexivity|reflexivity]. cbn [pr_process get_neighbors pr_reduce] in HY1.
      destruct (Y1 v) as [u|]; cbn [combined_of] in HY1.
      - apply combination_app in HY1. assert (concat (map (fun e : edge Z => [e_dst e]) (filter (fun e => e_src e =? v) es)) = outs es v) as Eo by apply concat_single.
        rewrite Eo in HY1. exists (srt u). split; [reflexivity|]. destruct (Hsrt u) as [Hp Hs]. split; [apply Sorted_StronglySorted; [intros a b c; lia|exact Hs]|]. etransitivity; eassumption.
      - exists []. split; [reflexivity|]. split; [constructor|]. unfold outs. destruct (filter _ es); [reflexivity|discriminate]. }
    destruct (run_once tc_neq m Hm n Hn0 th count_triangles tt dt2 dv 1 fr2 (Some xy2) (fun _ => dt2) (r_g r1) _ Ht Hfr2 H2 Hxy2 ltac:(lia)) as (Y2 & r2 & -> & HY2 & H3 & _). cbn [bind fst].
    cbn [gs_es gs_P gs_A] in *.
    match type of H3 with is _ _ _ (mkGS _ ?P _) => set (P2 := P) in * end.
    assert (forall v, 1 <= v <= n -> tc_triangles (P2 v) = i32 (closed_at n es v)) as HP2.
    { intros v Bv. specialize (HY2 v Bv). destruct (HP1 v Bv) as (N & EN & SN & MN). unfold P2, updated_with. cbn [v_P begin v_s]. rewrite EN.
      rewrite (received_all_out count_triangles _ dv _ P1) in HY2; [|reflexivity|reflexivity]. cbn [pr_process count_triangles pr_reduce] in HY2.
      unfold seen in HY2. cbn [pr_reqv count_triangles v_P begin] in HY2. rewrite EN in HY2. cbn [tc_neighbors] in HY2.
      set (f := fun e : edge Z => total (map (fun c => Z.min (parallel es (e_src e) c) (parallel es v c)) (zrange 1 (n + 1)))).
      rewrite (map_ext_in _ (fun e => i32 (f e))) in HY2.
      2:{ intros e He. apply filter_In in He as [He Ed]. destruct (Hin e He) as [Bs _]. destruct (HP1 _ Bs) as (N' & EN' & SN' & MN'). rewrite EN'. cbn [tc_neighbors]. f_equal.
          rewrite (common_counts (zrange 1 (n + 1))); auto; [|apply NoDup_zrange|].
          - unfold f. transitivity (sum (map (fun c => Z.min (parallel es (e_src e) c) (parallel es v c)) (zrange 1 (n + 1)))); [|symmetry; apply total_sum]. apply sum_ext. intros c _. rewrite <- (cnt_perm c _ _ MN), <- (cnt_perm c _ _ MN'), !cnt_outs. reflexivity.
          - intros x Hx. apply (Permutation_in _ (Permutation_sym MN')) in Hx. apply in_outs in Hx as (e' & He' & _ & <-). apply in_zrange. destruct (Hin e' He'). lia. }
      unfold closed_at. change total with sum. fold f. destruct (Y2 v) as [u|]; cbn [combined_of] in HY2.
      - cbn [pr_apply count_triangles tc_id tc_triangles tc_neighbors]. apply combination_i32 in HY2.
        + rewrite HY2, i32_sum. unfold i32_add. rewrite Z.add_0_l. apply i32_id, i32_range.
        + intros x Hx. apply in_map_iff in Hx as (e & <- & _). apply i32_range.
      - apply map_eq_nil in HY2. rewrite HY2. reflexivity. }
    destruct (reduce_op m Hm n Hn0 th return_triangles u64_add (fun _ => 0) (r_g r2) _ Ht u64_assoc H3) as (g4 & k & -> & H4 & Hk). specialize (Hk u64_comm). cbn [gs_P gs_es gs_A] in *.
    rewrite red_u64_mod in Hk.
    - injection Hk as ->. exists g4, P2. split; [|split; [exact (is_properties tc_neq m Hm n Hn0 _ _ H4)|exact HP2]].
      f_equal. f_equal. apply map_ext. intros _. rewrite sum_app, sum_zeros, Z.add_0_l. apply (sum_mod (fun v => tc_triangles (P2 v))). lia.
    - intros x Hx. apply in_app_iff in Hx as [Hx|Hx]; apply in_map_iff in Hx as (y & <- & _); [lia|]. cbn [return_triangles snd]. apply Z.mod_pos_bound. lia.
    - rewrite zrange_cons by lia. discriminate.
  Qed.
End RunTriangles.

(** *** when the reported number is right *)
Lemma closed_at_pos {E} n (es : list (edge E)) v : 0 <= closed_at n es v.
Proof.
  unfold closed_at. change total with sum. apply sum_nonneg. intros x Hx. apply in_map_iff in Hx as (e & <- & _). change total with sum. apply sum_nonneg. intros x Hx. apply in_map_iff in Hx as (c & <- & _).
  unfold parallel. pose proof (zlen_nonneg (filter (fun e0 => (e_src e0 =? e_src e) && (e_dst e0 =? c)) es)). pose proof (zlen_nonneg (filter (fun e0 => (e_src e0 =? v) && (e_dst e0 =? c)) es)). lia.
Qed.
Lemma i32_lost x : 0 <= x -> exists k, i32 x = x - 2 ^ 32 * k /\ 0 <= k /\ 2 ^ 31 * k <= x /\ (k = 0 <-> x < 2 ^ 31).
Proof. intros H. exists ((x + 2 ^ 31) / 2 ^ 32). unfold i32. pose proof (Z.div_mod (x + 2 ^ 31) (2 ^ 32) ltac:(lia)). pose proof (Z.mod_pos_bound (x + 2 ^ 31) (2 ^ 32) ltac:(lia)). assert (0 <= (x + 2 ^ 31) / 2 ^ 32) by (apply Z.div_pos; lia). lia. Qed.
Lemma i32_losses {A} (f : A -> Z) l : (forall x, In x l -> 0 <= f x) ->
  exists k, sum (map (fun x => i32 (f x)) l) = sum (map f l) - 2 ^ 32 * k /\ 0 <= k /\ 2 ^ 31 * k <= sum (map f l) /\ (k = 0 <-> forall x, In x l -> f x < 2 ^ 31).
Proof.
  induction l as [|a l IH]; intros H.
  - exists 0. cbn [map sum]. split; [lia|]. split; [lia|]. split; [lia|]. split; [intros _ x []|reflexivity].
  - destruct IH as (k & E1 & K1 & K2 & K3); [intros; apply H; right; assumption|]. destruct (i32_lost (f a)) as (j & E2 & J1 & J2 & J3); [apply H; left; reflexivity|]. exists (j + k). cbn [map sum]. rewrite E1, E2.
    split; [lia|]. split; [lia|]. split; [lia|]. split.
    + intros Z0. assert (j = 0) by lia. assert (k = 0) by lia. intros x [<-|Hx]; [tauto|]. apply K3; auto.
    + intros Hx. assert (j = 0) by (apply J3, Hx; left; reflexivity). assert (k = 0) by (apply K3; intros x Hi; apply Hx; right; exact Hi). lia.
Qed.
Lemma reported_right {E} n (es : list (edge E)) : closed n es < 2 ^ 63 ->
  (total (map (fun v => i32 (closed_at n es v)) (zrange 1 (n + 1))) mod 2 ^ 64 = closed n es <-> forall v, 1 <= v <= n -> closed_at n es v < 2 ^ 31).
Proof.
  unfold closed. change total with sum. intros B. destruct (i32_losses (closed_at n es) (zrange 1 (n + 1)) (fun v _ => closed_at_pos n es v)) as (k & E1 & K1 & K2 & K3). rewrite E1.
  assert (X : k = 0 <-> forall v, 1 <= v <= n -> closed_at n es v < 2 ^ 31) by (rewrite K3; split; intros H v Hv; apply H; [apply in_zrange; lia|apply in_zrange in Hv; lia]). rewrite <- X. clear X K3 E1.
  set (s := sum _) in *. split; [|intros ->; rewrite Z.mul_0_r, Z.sub_0_r; apply Z.mod_small; lia].
  intros M. pose proof (Z.div_mod (s - 2 ^ 32 * k) (2 ^ 64) ltac:(lia)) as Dv. rewrite M in Dv. set (j := (s - 2 ^ 32 * k) / 2 ^ 64) in *. assert (k = - (2 ^ 32 * j)) by lia. assert (k < 2 ^ 32) by lia. lia.
Qed.

(** *** without parallel edges the numbers are those of the triangles *)
Lemma meet_counts R l1 l2 : NoDup R -> NoDup l1 -> NoDup l2 -> (forall x, In x l1 -> In x R) -> sum (map (fun c => Z.min (cnt c l1) (cnt c l2)) R) = zlen (filter (fun x => inb x l2) l1).
Proof.
  intros NR N1 N2. induction N1 as [|a l1 Na N1 IH]; intros HR.
  - rewrite (sum_ext _ (fun _ => 0)); [rewrite sum_zeros; reflexivity|]. intros c _. change (cnt c []) with 0. pose proof (cnt_pos c l2). lia.
  - rewrite (sum_ext _ (fun c => (if a =? c then (if inb a l2 then 1 else 0) else 0) + Z.min (cnt c l1) (cnt c l2))).
    + rewrite sum_plus, (sum_one a) by (auto; apply HR; left; reflexivity). rewrite IH by (intros; apply HR; right; assumption). cbn [filter]. destruct (inb a l2); rewrite ?zlen_cons; lia.
    + intros c _. rewrite cnt_cons, (Z.eqb_sym c a). destruct (Z.eqb_spec a c) as [<-|]; [|lia]. rewrite (cnt_out a l1 Na). pose proof (cnt_pos a l2).
      destruct (inb a l2) eqn:Ia.
      * apply inb_In, in_split in Ia as (x & y & ->). apply NoDup_remove_2 in N2. assert (cnt a (x ++ a :: y) = 1) as ->; [|lia]. rewrite (cnt_perm a _ (a :: x ++ y)) by (symmetry; apply Permutation_middle). rewrite cnt_cons, Z.eqb_refl, (cnt_out a _ N2). lia.
      * rewrite (cnt_out a l2); [lia|]. intros C. apply inb_In in C. congruence.
Qed.
Lemma closed_at_simple n (es : list (edge Z)) v : (forall e, In e es -> 1 <= e_src e <= n /\ 1 <= e_dst e <= n) -> simple_edges es ->
  closed_at n es v = zlen (filter (fun t => snd (fst t) =? v) (all_triangles es)).
Proof.
  intros Hin Hs. unfold closed_at. change total with sum.
  rewrite (sum_ext _ (fun e => zlen (closing es e))).
  - unfold all_triangles. generalize es at 2 4. intros l. induction l as [|e l IH]; [reflexivity|]. cbn [filter flat_map]. rewrite filter_app, zlen_app, <- IH.
    assert (forall ws, zlen (filter (fun t : Z * Z * Z => snd (fst t) =? v) (map (fun w => (e_src e, e_dst e, w)) ws)) = if e_dst e =? v then zlen ws else 0) as ->.
    { induction ws as [|w ws IHw]; cbn [map filter fst snd]; [destruct (e_dst e =? v); reflexivity|]. destruct (e_dst e =? v); rewrite ?zlen_cons; lia. }
    destruct (e_dst e =? v); cbn [map sum]; lia.
  - intros e He. apply filter_In in He as [_ Ed]. apply Z.eqb_eq in Ed. transitivity (sum (map (fun c => Z.min (cnt c (outs es (e_src e))) (cnt c (outs es v))) (zrange 1 (n + 1)))).
    + change total with sum. apply sum_ext. intros c _. rewrite !cnt_outs. reflexivity.
    + rewrite meet_counts by (auto using outs_nodup, NoDup_zrange; intros x Hx; apply in_outs in Hx as (e' & He' & _ & <-); apply in_zrange; destruct (Hin e' He'); lia). unfold closing. rewrite Ed. reflexivity.
Qed.
Lemma sum_middles n (l : list (Z * Z * Z)) : (forall t, In t l -> 1 <= snd (fst t) <= n) -> sum (map (fun v => zlen (filter (fun t => snd (fst t) =? v) l)) (zrange 1 (n + 1))) = zlen l.
Proof.
  induction l as [|t l IH]; intros H; [apply sum_zeros|]. rewrite zlen_cons, <- IH by (intros; apply H; right; assumption).
  rewrite (sum_ext _ (fun v => (if snd (fst t) =? v then 1 else 0) + zlen (filter (fun t => snd (fst t) =? v) l))).
  - rewrite sum_plus, sum_one; [lia|apply NoDup_zrange|]. apply in_zrange. specialize (H t ltac:(left; reflexivity)). lia.
  - intros v _. cbn [filter]. destruct (snd (fst t) =? v); rewrite ?zlen_cons; lia.
Qed.

From Verif Require Import AppClaims.
Lemma triangles_general {byte} (srt : list Z -> list Z) (m : machine tc_vertex Z byte) n blobs th fr1 fr2 dt1 dt2 dv junk :
  sorts_ints srt -> setting m n blobs -> threads_ok m (m_serv m) th -> frame_ok m th fr1 -> frame_ok m th fr2 ->
  exists g P k, run_triangles srt m th fr1 fr2 dt1 dt2 dv junk n blobs = Ok (g, map (fun _ => k) (zrange 0 (m_nr m))) /\ shows_properties n m g P /\
    (forall v, 1 <= v <= n -> - 2 ^ 31 <= tc_triangles (P v) < 2 ^ 31 /\ tc_triangles (P v) mod 2 ^ 32 = closed_at n (concat blobs) v mod 2 ^ 32) /\
    k = total (map (fun v => tc_triangles (P v)) (zrange 1 (n + 1))) mod 2 ^ 64 /\
    (closed n (concat blobs) < 2 ^ 63 -> (k = closed n (concat blobs) <-> forall v, 1 <= v <= n -> closed_at n (concat blobs) v < 2 ^ 31)).
Proof.
  intros Hsrt Hset Ht H1 H2. destruct (run_triangles_all srt Hsrt m n blobs Hset th fr1 fr2 dt1 dt2 dv junk Ht H1 H2) as (g & P & Er & HP & HT). exists g, P, (total (map (fun v => tc_triangles (P v)) (zrange 1 (n + 1))) mod 2 ^ 64).
  split; [exact Er|]. split; [exact HP|]. split; [intros v Bv; rewrite (HT v Bv); split; [apply i32_range|apply i32_cong]|]. split; [reflexivity|]. intros B.
  rewrite <- (reported_right n (concat blobs) B). erewrite map_ext_in; [reflexivity|]. intros v Hv. apply in_zrange in Hv. apply HT. lia.
Qed.
Lemma triangles_closed n (es : list (edge Z)) l : (forall e, In e es -> 1 <= e_src e <= n /\ 1 <= e_dst e <= n) -> simple_edges es -> triangles es l ->
  closed n es = zlen l /\ forall v, closed_at n es v = zlen (filter (fun t => snd (fst t) =? v) l).
Proof.
  intros Hin Hs [Nd Hi]. destruct (all_triangles_ok _ Hs) as [Nd' Hi'].
  assert (Permutation (all_triangles es) l) as P by (apply NoDup_Permutation; auto; intros [[a b] c]; rewrite Hi, Hi'; tauto).
  assert (X : forall v, closed_at n es v = zlen (filter (fun t => snd (fst t) =? v) l)) by (intros v; rewrite closed_at_simple by auto; unfold zlen; rewrite (Permutation_length (filter_perm _ _ _ P)); reflexivity).
  split; [|exact X]. unfold closed. change total with sum. rewrite (sum_ext _ (fun v => zlen (filter (fun t => snd (fst t) =? v) l))) by (intros; apply X). apply sum_middles.
  intros [[a b] c] Ht. apply Hi in Ht as ((e & He & <- & <-) & _). cbn. destruct (Hin e He). lia.
Qed.

(** *** three vertices with parallel edges *)
Definition heavy (k j : nat) : list (edge Z) := repeat (mkE 1 2 1) k ++ repeat (mkE 1 3 1) j ++ repeat (mkE 2 3 1) j.
Lemma filter_repeat {A} (b : A -> bool) x k : filter b (repeat x k) = if b x then repeat x k else [].
Proof. induction k as [|k IH]; [destruct (b x); reflexivity|]. cbn [repeat filter]. rewrite IH. destruct (b x); reflexivity. Qed.
Lemma sum_repeat {A} (f : A -> Z) x k : sum (map f (repeat x k)) = Z.of_nat k * f x.
Proof. induction k as [|k IH]; [reflexivity|]. cbn [repeat map sum]. rewrite IH. lia. Qed.
Lemma zlen_repeat {A} (x : A) k : zlen (repeat x k) = Z.of_nat k.
Proof. unfold zlen. rewrite repeat_length. reflexivity. Qed.
Section Heavy.
  Variables k j : nat.
  Lemma heavy_parallel u v : parallel (heavy k j) u v = (if (1 =? u) && (2 =? v) then Z.of_nat k else 0) + (if (1 =? u) && (3 =? v) then Z.of_nat j else 0) + (if (2 =? u) && (3 =? v) then Z.of_nat j else 0).
  Proof.
    unfold parallel, heavy. rewrite !filter_app, !zlen_app, !filter_repeat. cbn [e_src e_dst].
    destruct ((1 =? u) && (2 =? v)), ((1 =? u) && (3 =? v)), ((2 =? u) && (3 =? v)); rewrite ?zlen_repeat; change (zlen []) with 0; lia.
  Qed.
  Lemma heavy_closed v : 1 <= v <= 3 -> closed_at 3 (heavy k j) v = if v =? 2 then Z.of_nat k * Z.of_nat j else 0.
  Proof.
    intros B. assert (X : forall e : edge Z, total (map (fun c => Z.min (parallel (heavy k j) (e_src e) c) (parallel (heavy k j) v c)) (zrange 1 (3 + 1))) =
      Z.min (parallel (heavy k j) (e_src e) 1) (parallel (heavy k j) v 1) + (Z.min (parallel (heavy k j) (e_src e) 2) (parallel (heavy k j) v 2) + (Z.min (parallel (heavy k j) (e_src e) 3) (parallel (heavy k j) v 3) + 0))) by reflexivity.
    unfold closed_at. rewrite (map_ext _ _ X). clear X. change total with sum. assert (F : forall b, filter b (heavy k j) = filter b (repeat (mkE 1 2 1) k) ++ filter b (repeat (mkE 1 3 1) j) ++ filter b (repeat (mkE 2 3 1) j)) by (intros b; unfold heavy; rewrite !filter_app; reflexivity).
    rewrite F, !filter_repeat. cbn [e_dst]. assert (C : v = 1 \/ v = 2 \/ v = 3) by lia.
    destruct C as [->|[->| ->]]; cbn [Z.eqb Pos.eqb]; rewrite ?map_app, ?sum_app, ?sum_repeat; cbn [map sum e_src]; rewrite ?heavy_parallel; cbn [Z.eqb Pos.eqb andb]; lia.
  Qed.
  Lemma heavy_in e : In e (heavy k j) -> 1 <= e_src e <= 3 /\ 1 <= e_dst e <= 3.
  Proof. unfold heavy. rewrite !in_app_iff. intros [H|[H|H]]; apply repeat_spec in H; subst; cbn; lia. Qed.
  Lemma heavy_zlen : zlen (heavy k j) = Z.of_nat k + 2 * Z.of_nat j.
  Proof. unfold heavy. rewrite !zlen_app, !zlen_repeat. lia. Qed.
End Heavy.
