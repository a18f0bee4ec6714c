(** Proofs about the PageRank commands: six decimals, the PageRank equation of reordered edges (C88). *)
From Verif Require Import Base BaseLemmas ListLemmas Segment DCSC EdgeList SpMat Graph GraphVert Runtime RunSpec GraphOps GraphHist Apps AppSpec IncRank FlowSpec Float32 Double64 Float32Proofs FileIO FileSpec FileProofs FloatText FloatTextScan FloatTextReal CmdSpec Cmd CmdProofs CmdRank.
From Coq Require Import String ZArith SpecFloat QArith Qabs Qreals Reals Lra Lqa Lia Permutation.
From Flocq Require Import Core.
Local Open Scope Z_scope.

(** ** Six decimals *)
Lemma padded k : forall n, dec_digits (S k) (10 ^ Z.of_nat k + n mod 10 ^ Z.of_nat k) = 49 :: last_digits k n.
Proof.
  induction k as [|k IH]; intros n; [cbn [last_digits]; change (10 ^ Z.of_nat 0) with 1; rewrite Z.mod_1_r; reflexivity|].
  assert (P : 0 < 10 ^ Z.of_nat k) by (apply Z.pow_pos_nonneg; lia). rewrite Nat2Z.inj_succ, Z.pow_succ_r by lia. rewrite Z.rem_mul_r by lia.
  set (a := 10 ^ Z.of_nat k) in *. pose proof (Z.mod_pos_bound (n / 10) a P) as B. pose proof (Z.mod_pos_bound n 10 ltac:(lia)) as B2.
  assert (E1 : (10 * a + (n mod 10 + 10 * ((n / 10) mod a))) / 10 = a + (n / 10) mod a) by (symmetry; apply Z.div_unique with (n mod 10); lia).
  assert (E2 : (10 * a + (n mod 10 + 10 * ((n / 10) mod a))) mod 10 = n mod 10) by (symmetry; apply Z.mod_unique with (a + (n / 10) mod a); lia).
  cbn [dec_digits last_digits]. rewrite E1, E2. destruct (Z.eqb_spec (a + (n / 10) mod a) 0); [lia|]. change (dec_digits (S k) (a + (n / 10) mod a) ++ [48 + n mod 10] = 49 :: last_digits k (n / 10) ++ [48 + n mod 10]).
  unfold a. rewrite IH. reflexivity.
Qed.
Lemma print_millionths n : 0 <= n -> print_fixed 6 n = millionths n.
Proof.
  intros H. unfold print_fixed, millionths. change (10 ^ Z.of_nat 6) with 1000000. pose proof (Z.mod_pos_bound n 1000000 ltac:(lia)) as B. f_equal; [|f_equal].
  - symmetry. apply dec_nn; [lia|]. split; [apply Z.div_pos; lia|]. apply Z.le_lt_trans with n; [apply Z.div_le_upper_bound; lia|].
    destruct (Z.eq_dec n 0) as [->|N]; [reflexivity|]. pose proof (Z.log2_spec n ltac:(lia)) as [_ L]. pose proof (Z.log2_nonneg n).
    replace (Z.of_nat (S (Z.to_nat (Z.log2 n)))) with (Z.succ (Z.log2 n)) by lia. eapply Z.lt_le_trans; [exact L|]. apply Z.pow_le_mono_l. lia.
  - rewrite (dec_nn 7) by (try lia; change (10 ^ Z.of_nat 7) with 10000000; lia). change 1000000 with (10 ^ Z.of_nat 6). rewrite padded. reflexivity.
Qed.
Lemma print_near s m e : (0 < fval (S754_finite s m e))%Q ->
  print_f 6 (S754_finite s m e) = millionths (scaled 6 (Zpos m) e) /\ (Qabs (fval (S754_finite s m e) - (scaled 6 (Zpos m) e # 1000000)) <= 1 # 2000000)%Q.
Proof.
  intros P. destruct s.
  { exfalso. revert P. unfold fval, signed. intros P. assert ((inject_Z (Z.neg m) * (2 # 1) ^ e <= 0)%Q); [|Lqa.lra]. assert (0 <= (2 # 1) ^ e)%Q by (apply Qpower.Qpower_pos; discriminate). assert (inject_Z (Z.neg m) <= 0)%Q by (unfold Qle; cbn; lia). Lqa.nra. }
  pose proof (scaled_nonneg 6 (Zpos m) e ltac:(lia)) as S0. split; [cbn [print_f app]; apply print_millionths; exact S0|].
  pose proof (near_scaled 6 (Zpos m) e ltac:(lia)) as [N _]. set (q := scaled 6 (Zpos m) e) in *. clearbody q.
  assert (E : F2R (Float radix2 (Zpos m) e) = Q2R (fval (S754_finite false m e))) by (rewrite fval_sv; reflexivity). rewrite E in N. set (y := fval (S754_finite false m e)) in *. clearbody y.
  apply Rle_Qle. rewrite Q2R_abs, Q2R_minus. replace (Q2R (q # 1000000)) with (IZR q / 1000000)%R by (unfold Q2R; reflexivity). replace (Q2R (1 # 2000000)) with (/ 2000000)%R by (unfold Q2R; cbn; Lra.lra).
  unfold ten in N. change (10 ^ Z.of_nat 6) with 1000000 in N. replace (Q2R y - IZR q / 1000000)%R with ((Q2R y * 1000000 - IZR q) / 1000000)%R by Lra.lra.
  unfold Rdiv. rewrite Rabs_mult, (Rabs_pos_eq (/ 1000000)) by Lra.lra. Lra.lra.
Qed.
(** all ranks are printed so *)
Lemma all_printed n (R : Z -> spec_float) : (forall v, 1 <= v <= n -> (0 < fval (R v))%Q) ->
  exists q : Z -> Z, forall v, 1 <= v <= n -> print_f 6 (R v) = millionths (q v) /\ (Qabs (fval (R v) - (q v # 1000000)) <= 1 # 2000000)%Q.
Proof.
  intros H. exists (fun v => match R v with S754_finite _ m e => scaled 6 (Zpos m) e | _ => 0 end). intros v Bv. specialize (H v Bv). cbv beta.
  destruct (R v) as [s|s| |s m e]; [discriminate H..|]. exact (print_near s m e H).
Qed.

(** ** The order of the edges does not matter *)
Lemma perm_filter {A} (p : A -> bool) a b : Permutation a b -> Permutation (filter p a) (filter p b).
Proof.
  induction 1 as [|x l l' Hl IH|x y l|l l' l'' H1 IH1 H2 IH2]; cbn; [constructor| | |etransitivity; eauto].
  - destruct (p x); [apply perm_skip|]; exact IH.
  - destruct (p x), (p y); try reflexivity. apply perm_swap.
Qed.
Section Perm.
  Context {E : Type}.
  Variables (a b : list (edge E)).
  Hypothesis (Hab : Permutation a b).
  Let filter_same (p : edge E -> bool) : Permutation (filter p a) (filter p b) := perm_filter p a b Hab.
  Lemma out_same v : out_degree a v = out_degree b v.
  Proof. unfold out_degree, zlen. f_equal. apply Permutation_length, filter_same. Qed.
  Lemma in_same v : in_degree a v = in_degree b v.
  Proof. unfold in_degree, zlen. f_equal. apply Permutation_length, filter_same. Qed.
  Lemma total_same l l' : Permutation l l' -> (qtotal l == qtotal l')%Q.
  Proof. induction 1 as [|x l l' _ IH|x y l|l l' l'' _ IH1 _ IH2]; unfold qtotal in *; cbn [fold_right]; [reflexivity|rewrite IH; reflexivity|ring|rewrite IH1; exact IH2]. Qed.
  Lemma inflow_same x v : (inflow a x v == inflow b x v)%Q.
  Proof.
    unfold inflow. transitivity (qtotal (map (fun e => x (e_src e) / inject_Z (out_degree b (e_src e)))%Q (filter (fun e => e_dst e =? v) a))).
    - erewrite map_ext; [reflexivity|]. intros e. rewrite out_same. reflexivity.
    - apply total_same, Permutation_map, filter_same.
  Qed.
  Lemma solves_same n alpha start err x : solves_within n b alpha start err x -> solves_within n a alpha start err x.
  Proof. intros H v Bv. rewrite inflow_same. apply H, Bv. Qed.
End Perm.

(** ** Differences of printed and exact ranks *)
Lemma apart_printed n (x y z : Z -> Q) : 0 <= n -> (forall v, 1 <= v <= n -> (Qabs (x v - y v) <= 1 # 2000000)%Q) ->
  (apart n y z <= apart n x z + inject_Z n * (1 # 2000000))%Q.
Proof.
  intros Hn H. unfold apart. assert (G : forall l, (forall v, In v l -> 1 <= v <= n) ->
    (qtotal (map (fun v => Qabs (y v - z v)) l) <= qtotal (map (fun v => Qabs (x v - z v)) l) + inject_Z (zlen l) * (1 # 2000000))%Q).
  { unfold qtotal. induction l as [|v l IH]; intros Hl; [vm_compute; discriminate|]. cbn [map fold_right]. specialize (IH (fun w I => Hl w (or_intror I))). rewrite zlen_cons, inject_Z_plus.
    specialize (H v (Hl v (or_introl eq_refl))). pose proof (Qabs_triangle (y v - x v) (x v - z v)) as T. assert (E : (y v - x v + (x v - z v) == y v - z v)%Q) by ring. rewrite E in T. rewrite (Qabs_Qminus (y v) (x v)) in T. clear E.
    change (inject_Z 1) with 1%Q. Lqa.lra. }
  specialize (G (zrange 1 (n + 1))). rewrite zlen_zrange in G by lia. replace (n + 1 - 1) with n in G by lia. apply G. intros v I. apply in_zrange in I. lia.
Qed.

(** ** The number of vertices *)
Lemma pagerank_n {F E byte} (fl : floats F) (m : machine (pr_vertex F) E byte) th fr1 fr2 dt1 dt2 dv fuel n blobs g K :
  run_pagerank fl m th fr1 fr2 dt1 dt2 dv fuel n blobs = Ok (g, K) -> g_n g = n.
Proof.
  unfold run_pagerank. intros H. apply bind_ok in H as (g1 & E1 & H). apply bind_ok in H as (t1 & _ & H). apply bind_ok in H as (g2 & E2 & H). apply bind_ok in H as (r1 & E3 & H). apply bind_ok in H as (t2 & _ & H). apply bind_ok in H as (g3 & E4 & H). apply bind_ok in H as (r & E5 & H).
  injection H as <- _. apply job_n in E5. apply call_n in E4; [|discriminate]. apply job_n in E3. apply call_n in E2; [|discriminate]. apply load_n in E1. congruence.
Qed.
Lemma increment_n {F E byte} (db : doubles F) (m : machine (ip_vertex F) E byte) th fr1 fr2 dt1 dt2 dv fuel n blobs g K :
  run_increment db m th fr1 fr2 dt1 dt2 dv fuel n blobs = Ok (g, K) -> g_n g = n.
Proof.
  unfold run_increment. intros H. apply bind_ok in H as (g1 & E1 & H). apply bind_ok in H as (t1 & _ & H). apply bind_ok in H as (g2 & E2 & H). apply bind_ok in H as (r1 & E3 & H). apply bind_ok in H as (t2 & _ & H). apply bind_ok in H as (g3 & E4 & H). apply bind_ok in H as (r & E5 & H).
  injection H as <- _. apply job_n in E5. apply call_n in E4; [|discriminate]. apply job_n in E3. apply call_n in E2; [|discriminate]. apply load_n in E1. congruence.
Qed.
