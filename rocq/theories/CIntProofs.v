From Verif Require Import BaseLemmas Bits Segment SegmentProofs Layout LayoutProofs DCSC CInt.

Lemma chk_Some x : int_min <= x <= int_max -> chk x = Some x.
Proof. intros H. unfold chk. destruct (Z.leb_spec int_min x), (Z.leb_spec x int_max); auto; lia. Qed.
Lemma chk_inv x y : chk x = Some y -> y = x /\ int_min <= x <= int_max.
Proof. unfold chk. destruct (Z.leb_spec int_min x), (Z.leb_spec x int_max); simpl; intros; try discriminate; split; congruence || lia. Qed.
Lemma chk_pos x : 0 <= x <= int_max -> chk x = Some x.
Proof. intros H. apply chk_Some. unfold int_min. lia. Qed.
Ltac ck := rewrite chk_pos by (unfold int_max in *; nia); cbn [obind].
Lemma mapO_map {A B} (f : A -> option B) (g : A -> B) l : (forall a, In a l -> f a = Some (g a)) -> mapO f l = Some (map g l).
Proof.
  induction l as [|a l IH]; intros H; simpl; auto. rewrite H by (left; auto). cbn [obind]. rewrite IH by (intros; apply H; right; auto). reflexivity.
Qed.
Lemma quot_bounds a b : 0 <= a -> 1 <= b -> 0 <= Z.quot a b <= a /\ Z.quot a b * b <= a /\ a < (Z.quot a b + 1) * b.
Proof.
  intros Ha Hb. rewrite Z.quot_div_nonneg by lia. pose proof (Z.div_mod a b ltac:(lia)). pose proof (Z.mod_pos_bound a b ltac:(lia)). assert (0 <= a / b) by (apply Z.div_pos; lia). split; nia.
Qed.
Lemma rem_bounds a b : 0 <= a -> 1 <= b -> 0 <= Z.rem a b < b /\ a = b * Z.quot a b + Z.rem a b.
Proof. intros Ha Hb. split; [apply Z.rem_bound_pos; lia|apply Z.quot_rem'; lia]. Qed.
Lemma idiv_pos a b : 0 <= a <= int_max -> 1 <= b -> idiv a b = Some (Z.quot a b).
Proof. intros Ha Hb. unfold idiv. destruct (Z.eqb_spec b 0); [lia|]. apply chk_pos. destruct (quot_bounds a b); lia. Qed.
Lemma imod_pos a b : 0 <= a <= int_max -> 1 <= b -> imod a b = Some (Z.rem a b).
Proof.
  intros Ha Hb. unfold imod. destruct (Z.eqb_spec b 0); [lia|]. destruct (quot_bounds a b); try lia. destruct (rem_bounds a b); try lia. rewrite chk_pos by lia. cbn [obind]. apply chk_pos. nia.
Qed.

Section Relabel.
  Variables threads nseg len v : Z.
  Hypothesis Ht : 1 <= threads. Hypothesis Hs : 1 <= nseg.
  Hypothesis Hp : threads * 16 * nseg <= int_max.
  Hypothesis Hl : len <= int_max. Hypothesis Hv : 1 <= v <= len.
  Lemma to_native_c : vertexToNative_c threads nseg len v = match vertexToNative threads nseg len v with Ok r => Some r | Err _ => None end.
  Proof using All.
    unfold vertexToNative_c, vertexToNative, npartitions, isub, imul, iadd. ck. ck. ck. set (np := threads * 16 * nseg) in *. assert (1 <= np) by (unfold np; nia).
    destruct (Z.eqb_spec np 0); [lia|]. rewrite idiv_pos by lia. cbn [obind]. destruct (quot_bounds len np) as (B1 & B2 & B3); try lia. set (h := Z.quot len np) in *. ck.
    destruct (Z.leb_spec (h * np) (v - 1)); [ck; reflexivity|]. rewrite imod_pos, idiv_pos by lia. cbn [obind].
    destruct (quot_bounds (v - 1) np) as (C1 & C2 & C3); try lia. destruct (rem_bounds (v - 1) np) as (D1 & D2); try lia. set (q := Z.quot (v - 1) np) in *. set (r := Z.rem (v - 1) np) in *.
    assert (q < h) by nia. assert (r * h + q < h * np) by nia. ck. ck. ck. reflexivity.
  Qed.
  Lemma to_vertex_c : nativeToVertex_c threads nseg len v = match nativeToVertex threads nseg len v with Ok r => Some r | Err _ => None end.
  Proof using All.
    unfold nativeToVertex_c, nativeToVertex, npartitions, isub, imul, iadd. ck. ck. ck. set (np := threads * 16 * nseg) in *. assert (1 <= np) by (unfold np; nia).
    destruct (Z.eqb_spec np 0); [lia|]. rewrite idiv_pos by lia. cbn [obind]. destruct (quot_bounds len np) as (B1 & B2 & B3); try lia. set (h := Z.quot len np) in *. ck.
    destruct (Z.leb_spec (h * np) (v - 1)); [ck; reflexivity|]. assert (1 <= h) by nia. destruct (Z.eqb_spec h 0); [lia|]. rewrite imod_pos, idiv_pos by lia. cbn [obind].
    destruct (quot_bounds (v - 1) h) as (C1 & C2 & C3); try lia. destruct (rem_bounds (v - 1) h) as (D1 & D2); try lia. set (q := Z.quot (v - 1) h) in *. set (r := Z.rem (v - 1) h) in *.
    assert (q < np) by nia. assert (r * np + q < h * np) by nia. ck. ck. ck. reflexivity.
  Qed.
End Relabel.

Lemma starts_exact n k : 0 <= n -> 1 <= k -> n + 256 * k <= int_max -> starts_c n k = Some (starts n k) /\ starts_c n k = Some (mat_starts n k).
Proof.
  intros Hn Hk Hb. assert (starts_c n k = Some (starts n k)) as E; [|split; auto].
  unfold starts_c, starts, block_size, iadd, isub, imul. ck. ck. rewrite idiv_pos by (unfold int_max in *; lia). cbn [obind].
  destruct (quot_bounds (n + k - 1) k) as (B1 & B2 & B3); try lia. set (q := Z.quot (n + k - 1) k) in *. ck. ck. rewrite idiv_pos by (unfold int_max in *; lia). cbn [obind].
  destruct (quot_bounds (q + 256 - 1) 256) as (C1 & C2 & C3); try lia. set (e := Z.quot (q + 256 - 1) 256) in *. ck.
  rewrite (mapO_map _ (fun j => Z.min (e * 256 * j) n)); [reflexivity|]. intros j Hj. apply in_zrange in Hj.
  assert (e * 256 * j <= (q + 255) * (k - 1)) by nia. assert ((q + 255) * (k - 1) <= n + 256 * k) by nia. ck. reflexivity.
Qed.
Lemma starts_overflow : starts_c (int_max - 255) 1 = None.
Proof. reflexivity. Qed.
Lemma tile_id_exact i j ntx nty : 0 <= i < nty -> 0 <= j < ntx -> ntx * nty <= int_max -> tile_id_c i j nty = Some (i + j * nty).
Proof. intros Hi Hj H. unfold tile_id_c, imul, iadd. ck. ck. reflexivity. Qed.

Lemma part_bounds_exact n np p : 0 <= n -> 0 <= p < np -> n + np <= int_max ->
  part_bounds_c n np p = Some (part_start n np p, part_end n np p).
Proof.
  intros Hn Hp H. unfold part_bounds_c, part_start, part_end, part_per, iadd, isub, imul. ck. ck. rewrite idiv_pos by (unfold int_max in *; lia). cbn [obind].
  destruct (quot_bounds (n + np - 1) np) as (B1 & B2 & B3); try lia. set (q := Z.quot (n + np - 1) np) in *. ck. ck. ck. reflexivity.
Qed.
Lemma word_bounds_exact cap ii : 0 <= ii < num_ints_of cap -> 0 <= cap <= int_max - 31 -> word_bounds_c ii = Some (ii * 32, (ii + 1) * 32).
Proof.
  intros Hi H. unfold num_ints_of in Hi. destruct (quot_bounds (cap + 32 - 1) 32) as (B1 & B2 & B3); try lia. unfold word_bounds_c, iadd, imul. ck. ck. ck. reflexivity.
Qed.
Lemma word_bounds_overflow : word_bounds_c (num_ints_of (int_max - 30) - 1) = None.
Proof. reflexivity. Qed.

Lemma col_starts_exact total ncols : 0 <= total -> (forall k, In k ncols -> 0 <= k) -> total + fold_right Z.add 0 ncols + zlen ncols <= int_max ->
  col_starts_c total ncols = Some (prefix_sums total (map (fun k => k + 1) ncols)).
Proof.
  revert total. induction ncols as [|k l IH]; intros total Ht Hk H; simpl; auto. assert (0 <= k) by (apply Hk; left; auto).
  assert (0 <= fold_right Z.add 0 l) as F by (assert (forall k, In k l -> 0 <= k) as G by (intros; apply Hk; right; auto); clear - G; induction l as [|x l IH]; simpl; [lia|]; pose proof (G x (or_introl eq_refl)); assert (0 <= fold_right Z.add 0 l) by (apply IH; intros; apply G; right; auto); lia).
  rewrite zlen_cons in H. cbn [fold_right] in H. pose proof (zlen_nonneg l). unfold iadd. rewrite chk_pos by lia. cbn [obind]. rewrite chk_pos by lia. cbn [obind]. rewrite IH; [reflexivity| | |]; try lia. intros; apply Hk; right; auto.
Qed.
Lemma local_edge_exact {E} m n rs cs (e : edge E) : 0 <= rs -> rs + m <= int_max -> 0 <= cs -> cs + n <= int_max -> rs < e_src e <= rs + m -> cs < e_dst e <= cs + n ->
  local_edge_c rs cs e = Some (mkE (e_src e - 1 - rs) (e_dst e - 1 - cs) (e_val e)).
Proof. intros. unfold local_edge_c, isub. ck. ck. ck. ck. reflexivity. Qed.

Lemma find_partition_exact rp src : zlen rp <= int_max -> forall fuel s e r, 0 <= s <= zlen rp -> -1 <= e < zlen rp ->
  find_partition fuel rp src s e = Ok r -> find_partition_c fuel rp src s e = Some r.
Proof.
  intros Hz. induction fuel as [|f IH]; intros s e r Hs He H; [discriminate|]. cbn [find_partition find_partition_c] in *. unfold isub, iadd.
  rewrite (chk_Some (e - s)) by (unfold int_min, int_max in *; lia). cbn [obind]. rewrite (chk_Some (s + (e - s))) by (unfold int_min, int_max in *; lia). cbn [obind].
  replace (s + (e - s)) with e in * by lia. destruct (rd rp e) as [a|] eqn:Ea; [|discriminate]. cbn [bind] in H. apply rd_bounds in Ea. rewrite (chk_pos (e + 1)) by lia. cbn [obind].
  destruct (a <=? src) eqn:Las.
  - destruct (rd rp (e + 1)) as [b|] eqn:Eb; [|discriminate]. cbn [bind] in H. destruct (src <? b); [congruence|]. apply IH; auto; lia.
  - destruct (rd rp (e + 1)) as [b|] eqn:Eb; [|discriminate]. cbn [bind] in H. apply rd_bounds in Eb. rewrite (chk_Some (e - 1)) by (unfold int_min, int_max in *; lia). cbn [obind]. apply IH; auto; destruct (b <=? src); lia.
Qed.

Lemma forZ_agree {S} (I : Z -> S -> Prop) lo hi (f g : Z -> S -> R S) s : lo <= hi -> I lo s ->
  (forall i s, lo <= i < hi -> I i s -> f i s = g i s) -> (forall i s s', lo <= i < hi -> I i s -> f i s = Ok s' -> I (i + 1) s') -> forZ lo hi f s = forZ lo hi g s.
Proof.
  intros Hlh. unfold forZ. assert (lo + Z.of_nat (Z.to_nat (hi - lo)) = hi) as E by lia. revert E. generalize (Z.to_nat (hi - lo)) as n. intros n. clear Hlh. revert lo s.
  induction n as [|n IH]; intros lo s E HI A P; [reflexivity|]. cbn [forN]. rewrite A by (auto; lia). destruct (g lo s) as [s'|e] eqn:G; cbn [bind]; auto.
  apply IH; [lia| | |].
  - apply (P lo s s'); [lia|auto|]. rewrite A by (auto; lia). exact G.
  - intros i s0 Hi. apply A. lia.
  - intros i s0 s1 Hi. apply P. lia.
Qed.

Lemma static_partition_exact m np : 0 <= m -> 1 <= np -> m + 64 <= int_max -> np <= int_max -> static_partition_c m np 32 = static_partition m np 32.
Proof.
  intros Hm Hnp Hb Hb2. unfold static_partition_c, static_partition. destruct (Z.eqb_spec np 0); [lia|]. replace (32 =? 0) with false by reflexivity. replace (32 =? 1) with false by reflexivity. cbn [orb].
  rewrite idiv_pos by lia. cbn [ovf bind]. destruct (quot_bounds m 32) as (B1 & B2 & B3); try lia. set (q := Z.quot m 32) in *.
  rewrite idiv_pos by lia. cbn [ovf bind]. destruct (quot_bounds q np) as (C1 & C2 & C3); try lia. set (r := Z.quot q np) in *.
  assert (0 <= Z.max r 1 * np <= int_max) as D1 by (destruct (Z.le_gt_cases r 1); [rewrite Z.max_r by lia; lia|rewrite Z.max_l by lia; nia]).
  unfold imul at 1. rewrite chk_pos by lia. cbn [ovf bind]. unfold isub. rewrite (chk_Some (q - Z.max r 1 * np)) by (unfold int_min, int_max in *; lia). cbn [ovf bind].
  set (n5 := Z.max r 1) in *. set (nr := Z.max 0 (q - n5 * np)) in *. destruct (assertb (nr <? np)) as [[]|]; cbn [bind]; auto.
  destruct (wr (repeat None (Z.to_nat (np + 1))) 0 (Some 0)) as [rp0|] eqn:Erp; cbn [bind]; auto.
  match goal with |- bind ?a _ = bind ?b _ => assert (a = b) as ->; [|reflexivity] end.
  destruct (Z.le_gt_cases np 1) as [L1|L1]. { unfold forZ. replace (Z.to_nat (np - 1)) with 0%nat by lia. reflexivity. }
  (* where partition p starts *)
  set (at_ := fun p => Z.min (32 * (n5 * p + Z.min p nr)) m).
  assert (0 <= nr) as Hnr by (unfold nr; lia). assert (1 <= n5) as Hn5 by (unfold n5; lia).
  assert (forall p, 0 <= p -> 0 <= at_ p <= m) as Hat by (intros p Hp; unfold at_; split; [apply Z.min_glb; nia|apply Z.le_min_r]).
  assert (32 * n5 <= m + 32 /\ (nr > 0 -> 32 * (n5 + 1) <= m + 32)) as [Hs1 Hs2].
  { unfold nr, n5. destruct (Z.le_gt_cases r 1); [rewrite Z.max_r by lia|rewrite Z.max_l by lia]; split; try nia. }
  assert (forall p, 1 <= p < np -> at_ (p - 1) + (if 0 <? nr - (p - 1) then (n5 + 1) * 32 else n5 * 32) <= m + 64) as Hstep.
  { intros p Hp. assert (n5 * p + Z.min p nr <= q + 1 \/ n5 = 1 /\ nr = 0) as [K|[K1 K2]].
    { destruct (Z.le_gt_cases r 0) as [R0|R0].
      - right. unfold n5, nr. rewrite Z.max_r by lia. assert (q < np) by nia. lia.
      - left. assert (n5 = r) as E5 by (unfold n5; lia). assert (nr = q - r * np) by (unfold nr; rewrite E5; lia). rewrite E5. nia. }
    - unfold at_. destruct (Z.ltb_spec 0 (nr - (p - 1))); [rewrite (Z.min_l (p - 1) nr) by lia; rewrite (Z.min_l p nr) in K by lia; pose proof (Z.le_min_l (32 * (n5 * (p - 1) + (p - 1))) m); lia|].
      rewrite (Z.min_r (p - 1) nr) by lia. rewrite (Z.min_r p nr) in K by lia. pose proof (Z.le_min_l (32 * (n5 * (p - 1) + nr)) m). lia.
    - rewrite K1, K2. destruct (Z.ltb_spec 0 (0 - (p - 1))); [lia|]. pose proof (Hat (p - 1) ltac:(lia)). lia. }
  apply (forZ_agree (fun p st => rd (fst st) (p - 1) = Ok (Some (at_ (p - 1))) /\ snd st = Z.max 0 (nr - (p - 1)))).
  - lia.
  - cbn [fst snd]. split; [|lia]. replace (1 - 1) with 0 by lia. unfold at_. rewrite Z.mul_0_r, Z.min_l by lia. rewrite Z.min_l by lia. eapply wr_same_rd. exact Erp.
  - intros p [rp k] Hp [I1 I2]. cbn [fst snd] in *. rewrite I1. cbn [bind need]. specialize (Hstep p Hp). pose proof (Hat (p - 1) ltac:(lia)).
    assert ((0 <? k) = (0 <? nr - (p - 1))) as Ek by (destruct (Z.ltb_spec 0 k), (Z.ltb_spec 0 (nr - (p - 1))); auto; lia). rewrite Ek. unfold iadd.
    destruct (Z.ltb_spec 0 (nr - (p - 1))).
    + rewrite chk_pos by lia. cbn [obind]. unfold imul. rewrite chk_pos by lia. cbn [ovf bind]. rewrite chk_pos by lia. reflexivity.
    + unfold imul. rewrite chk_pos by lia. cbn [ovf bind]. rewrite chk_pos by lia. reflexivity.
  - intros p [rp k] [rp' k'] Hp [I1 I2] H. cbn [fst snd] in *. replace (p + 1 - 1) with p by lia. rewrite I1 in H. cbn [bind need] in H.
    assert ((0 <? k) = (0 <? nr - (p - 1))) as Ek by (destruct (Z.ltb_spec 0 k), (Z.ltb_spec 0 (nr - (p - 1))); auto; lia). rewrite Ek in H. specialize (Hstep p Hp). pose proof (Hat (p - 1) ltac:(lia)).
    assert (exists x, x = at_ (p - 1) + (if 0 <? nr - (p - 1) then (n5 + 1) * 32 else n5 * 32) /\
      (do rp0 <- wr rp p (Some x) ;; do cur <- rd rp0 p ;; do cur <- need cur ;; do rp1 <- wr rp0 p (Some (Z.min cur m)) ;; Ok (rp1, if 0 <? nr - (p - 1) then k - 1 else k)) = Ok (rp', k')) as (x & Hx & H').
    { eexists. split; [reflexivity|]. rewrite <- H. unfold iadd, imul. destruct (Z.ltb_spec 0 (nr - (p - 1))).
      - rewrite (chk_pos (n5 + 1)) by lia. cbn [obind]. rewrite chk_pos by lia. cbn [ovf bind]. rewrite chk_pos by lia. reflexivity.
      - rewrite chk_pos by lia. cbn [ovf bind]. rewrite chk_pos by lia. reflexivity. }
    clear H. apply bind_Ok in H' as (rp1 & W1 & H). pose proof (wr_same_rd _ _ _ _ W1) as Rp. rewrite Rp in H. cbn [bind need] in H. apply bind_Ok in H as (rp2 & W2 & H). injection H as <- <-.
    split; [rewrite (wr_same_rd _ _ _ _ W2); do 2 f_equal|destruct (Z.ltb_spec 0 (nr - (p - 1))); lia].
    rewrite Hx. unfold at_. destruct (Z.ltb_spec 0 (nr - (p - 1))).
    + rewrite (Z.min_l (p - 1) nr), (Z.min_l p nr) by lia. destruct (Z.le_gt_cases (32 * (n5 * (p - 1) + (p - 1))) m); [rewrite (Z.min_l (32 * _)) by lia; f_equal; lia|rewrite (Z.min_r (32 * (n5 * (p - 1) + (p - 1)))) by lia; rewrite !Z.min_r; lia].
    + rewrite (Z.min_r (p - 1) nr), (Z.min_r p nr) by lia. destruct (Z.le_gt_cases (32 * (n5 * (p - 1) + nr)) m); [rewrite (Z.min_l (32 * (n5 * (p - 1) + nr))) by lia; f_equal; lia|rewrite (Z.min_r (32 * (n5 * (p - 1) + nr))) by lia; rewrite !Z.min_r; lia].
Qed.

(** *** counts and messages *)
Lemma sum_mod l : fold_left Z.add (map (fun x => x mod 2 ^ 32) l) 0 mod 2 ^ 32 = fold_left Z.add l 0 mod 2 ^ 32.
Proof.
  assert (forall l a b, a mod 2 ^ 32 = b mod 2 ^ 32 -> fold_left Z.add (map (fun x => x mod 2 ^ 32) l) a mod 2 ^ 32 = fold_left Z.add l b mod 2 ^ 32) as G; [|apply G; reflexivity].
  clear. induction l as [|x l IH]; intros a b H; cbn [map fold_left]; auto. apply IH. rewrite Z.add_mod_idemp_r by lia. rewrite (Z.add_mod a), (Z.add_mod b) by lia. now rewrite H.
Qed.
Lemma reported_exact locals local : reported_nnz locals local = fold_left Z.add locals 0 <-> local / 2 ^ 32 = fold_left Z.add locals 0 / 2 ^ 32.
Proof.
  unfold reported_nnz. rewrite sum_mod. set (t := fold_left Z.add locals 0). pose proof (Z.div_mod t (2 ^ 32) ltac:(lia)). split; intros; nia.
Qed.
Lemma sum_ge l : (forall x, In x l -> 0 <= x) -> forall a, a <= fold_left Z.add l a /\ forall x, In x l -> a + x <= fold_left Z.add l a.
Proof.
  induction l as [|y l IH]; intros H a; simpl; [split; [lia|intros x []]|]. destruct (IH ltac:(intros; apply H; right; auto) (a + y)) as [G1 G2]. pose proof (H y (or_introl eq_refl)).
  split; [lia|]. intros x [<-|Hx]; [lia|]. specialize (G2 x Hx). lia.
Qed.
Lemma reported_small locals local : (forall x, In x locals -> 0 <= x) -> In local locals -> fold_left Z.add locals 0 < 2 ^ 32 -> reported_nnz locals local = fold_left Z.add locals 0.
Proof.
  intros H Hl Hs. apply reported_exact. destruct (sum_ge locals H 0) as [G1 G2]. specialize (G2 local Hl). specialize (H local Hl). rewrite !Z.div_small; lia.
Qed.
Lemma reported_big locals local : (forall x, In x locals -> 0 <= x < 2 ^ 32) -> In local locals -> 2 ^ 32 <= fold_left Z.add locals 0 -> reported_nnz locals local <> fold_left Z.add locals 0.
Proof.
  intros H Hl Hs X. apply reported_exact in X. specialize (H local Hl). rewrite (Z.div_small local) in X by lia. assert (1 <= fold_left Z.add locals 0 / 2 ^ 32) by (apply Z.div_le_lower_bound; lia). lia.
Qed.
Lemma as_int_exact x : 0 <= x -> (as_int x = x <-> x <= int_max).
Proof.
  intros H. unfold as_int, int_max. pose proof (Z.mod_pos_bound (x + 2 ^ 31) (2 ^ 32) ltac:(lia)). split; intros E; [lia|]. rewrite Z.mod_small by lia. lia.
Qed.
Lemma as_int_le x : 0 <= x -> as_int x <= x.
Proof. intros H. unfold as_int. pose proof (Z.mod_le (x + 2 ^ 31) (2 ^ 32) ltac:(lia) ltac:(lia)). lia. Qed.

Lemma bidirectional_exact nnz : 0 <= nnz -> (2 * nnz <= int_max -> bidirectional_c nnz = Some (2 * nnz, map (fun i => (2 * i, 2 * i + 1)) (zrange 0 nnz))) /\ (int_max < 2 * nnz -> bidirectional_c nnz = None).
Proof.
  intros H. unfold bidirectional_c, imul, iadd. split; intros B.
  - rewrite chk_pos by lia. cbn [obind]. rewrite (mapO_map _ (fun i => (2 * i, 2 * i + 1))); [cbn [obind]; do 2 f_equal; lia|].
    intros i Hi. apply in_zrange in Hi. rewrite chk_pos by lia. cbn [obind]. rewrite chk_pos by lia. reflexivity.
  - unfold chk. destruct (Z.leb_spec (nnz * 2) int_max); [lia|]. rewrite andb_false_r. reflexivity.
Qed.

(** *** the columns of a tile *)
From Verif Require Import BucketProofs ListLemmas ParLoopWords3 ParLoopEdges DCSCBuild.
Lemma columns_bound {E} (edges : list (tedge E)) ep p k : count_columns edges ep p = Ok k -> 0 < k ->
  exists a b, rd ep p = Ok a /\ rd ep (p + 1) = Ok b /\ 0 <= a /\ a < b <= zlen edges /\ k <= b - a.
Proof.
  unfold count_columns. intros H Hk. apply bind_Ok in H as (a & Ea & H). apply bind_Ok in H as (b & Eb & H). apply bind_Ok in H as (st & H & H'). assert (snd st = k) by congruence. exists a, b.
  destruct (Z.le_gt_cases b a) as [L|L].
  { unfold forZ in H. replace (Z.to_nat (b - a)) with 0%nat in H by lia. cbn in H. assert ((-1, 0) = st) by congruence. subst st. cbn in *. lia. }
  assert (forall (f : Z -> Z * Z -> R (Z * Z)) lo hi st st', lo < hi -> forZ lo hi f st = Ok st' -> (forall i s s', f i s = Ok s' -> 0 <= i < zlen edges /\ snd s' <= snd s + 1) ->
    0 <= lo /\ hi <= zlen edges /\ snd st' <= snd st + (hi - lo)) as G.
  { clear. intros f lo hi st st' Hl. unfold forZ. assert (lo + Z.of_nat (Z.to_nat (hi - lo)) = hi) as E0 by lia. assert (Z.to_nat (hi - lo) <> 0)%nat as E1 by lia. revert E0 E1. generalize (Z.to_nat (hi - lo)) as n. clear Hl.
    intros n. revert lo st. induction n as [|n IH]; intros lo st E0 E1 H Hf; [lia|]. cbn [forN] in H. apply bind_Ok in H as (s1 & F & H). apply Hf in F as [F1 F2].
    destruct n as [|n]; [cbn [forN] in H; assert (s1 = st') as <- by congruence; lia|]. specialize (IH (lo + 1) s1 ltac:(lia) ltac:(lia) H Hf). lia. }
  apply G in H; [|lia|].
  - cbn [snd] in H. split; auto. split; auto. lia.
  - intros i s s' Hb. apply bind_Ok in Hb as (e & Ee & Hb). apply rd_bounds in Ee. split; [lia|]. destruct (fst s <? e_dst (snd e)); [assert ((e_dst (snd e), snd s + 1) = s') as <- by congruence; cbn; lia|assert (s = s') as <- by congruence; lia].
Qed.
Lemma columns_total {E} (edges : list (tedge E)) ep np : rises ep np -> forall ks j, 0 <= j -> j + zlen ks <= np -> 
  (forall i k, rd ks i = Ok k -> count_columns edges ep (j + i) = Ok k) -> 
  forall a S, rd ep j = Ok a -> 0 <= S <= Z.max 0 a -> S <= zlen edges -> S + fold_right Z.add 0 ks <= zlen edges.
Proof.
  intros Re. induction ks as [|k ks IH]; intros j Hj Hz Hc a S Ea HS1 HS2; [simpl; lia|]. rewrite zlen_cons in Hz. cbn [fold_right].
  assert (count_columns edges ep j = Ok k) as Ck by (rewrite <- (Z.add_0_r j); apply Hc; reflexivity). pose proof (count_nonneg _ _ _ _ Ck) as Kn.
  assert (exists b, rd ep (j + 1) = Ok b) as [b Eb] by (unfold count_columns in Ck; apply bind_Ok in Ck as (x & _ & Ck); apply bind_Ok in Ck as (y & Ey & _); eauto).
  pose proof (zlen_nonneg ks). assert (a <= b) as Lab by (apply (Re j); auto; lia).
  rewrite Z.add_assoc. apply (IH (j + 1) ltac:(lia) ltac:(lia)) with (a := b); auto.
  - intros i x Hx. pose proof (rd_bounds _ _ _ Hx). replace (j + 1 + i) with (j + (i + 1)) by lia. apply Hc. rewrite <- Hx. unfold rd. destruct (Z.ltb_spec (i + 1) 0), (Z.ltb_spec i 0); try lia. replace (Z.to_nat (i + 1)) with (Datatypes.S (Z.to_nat i)) by lia. reflexivity.
  - destruct (Z.eq_dec k 0) as [->|Nk]; [lia|]. destruct (columns_bound _ _ _ _ Ck ltac:(lia)) as (a' & b' & A1 & A2 & A3 & A4 & A5). assert (a' = a) by congruence. assert (b' = b) by congruence. lia.
  - destruct (Z.eq_dec k 0) as [->|Nk]; [lia|]. destruct (columns_bound _ _ _ _ Ck ltac:(lia)) as (a' & b' & A1 & A2 & A3 & A4 & A5). assert (a' = a) by congruence. assert (b' = b) by congruence. lia.
Qed.
Lemma tile_columns {E} srt threads (edges : list (edge E)) m n rs cs junk t : 1 <= threads -> 0 < zlen edges -> (forall l : list (tedge E), zlen (srt l) = zlen l) ->
  dcsc_new srt threads edges m n rs cs junk = Ok t -> zlen edges + threads * 16 <= int_max ->
  exists ncols, zlen ncols = threads * 16 /\ col_starts_c 0 ncols = Some (t_col_starts t) /\ t_num_cols t <= int_max.
Proof.
  intros Ht Hz Hsrt H Hb. unfold dcsc_new in H. destruct (Z.ltb_spec 0 (zlen edges)); [|lia]. cbv zeta in H.
  apply bind_Ok in H as (rp & Erp & H). apply bind_Ok in H as (pe & Epe & H). apply bind_Ok in H as (u & Echk & H). apply bind_Ok in H as (ep & Eep & H). apply bind_Ok in H as (ncols & Enc & H).
  apply bind_Ok in H as (nc & Enum & H). apply bind_Ok in H as (ar & Ear & H). apply bind_Ok in H as (vals & Ev & H). apply bind_Ok in H as (rows & Er & H). apply bind_Ok in H as (idx & Ei & H).
  apply bind_Ok in H as (ptrs & Ept & H). injection H as <-. cbn [t_col_starts t_num_cols]. exists ncols.
  pose proof (mapR_at _ _ _ Enc) as [Lc Hc]. rewrite zlen_zrange in Lc by lia. rewrite Z.sub_0_r in Lc. pose proof (mapR_at _ _ _ Epe) as [Lp _].
  assert (forall i k, rd ncols i = Ok k -> count_columns (srt pe) ep (0 + i) = Ok k) as Hc'.
  { intros i k Hk. pose proof (rd_bounds _ _ _ Hk). destruct (Hc i i) as (k' & C & R'); [rewrite rd_zrange by lia; f_equal; lia|]. replace (0 + i) with i by lia. congruence. }
  assert (forall k, In k ncols -> 0 <= k) as Hpos by (intros k Hk; apply In_rd in Hk as (i & _ & Hi); exact (count_nonneg _ _ _ _ (Hc' i k Hi))).
  assert (0 + fold_right Z.add 0 ncols <= zlen (srt pe)) as Tot.
  { destruct (rd ep 0) as [a|] eqn:Ea.
    - apply (columns_total (srt pe) ep (threads * 16) (edge_pointers_rise _ _ _ _ _ (zlen_nonneg edges) Eep) ncols 0 ltac:(lia) ltac:(lia) Hc' a 0 Ea); [lia|apply zlen_nonneg].
    - destruct (rd_ok ncols 0) as [k Hk]; [lia|]. specialize (Hc' 0 k Hk). unfold count_columns in Hc'. simpl in Hc'. rewrite Ea in Hc'. discriminate. }
  rewrite Hsrt in Tot. split; [auto|]. split; [apply col_starts_exact; auto; lia|].
  rewrite rd_prefix_sums in Enum by (rewrite zlen_map; lia). rewrite firstn_all2 in Enum by (rewrite map_length; unfold zlen in *; lia). assert (nc = zsum (map (fun k => k + 1) ncols)) as -> by (injection Enum; lia).
  assert (zsum (map (fun k => k + 1) ncols) = fold_right Z.add 0 ncols + zlen ncols) as ->; [|lia].
  clear. induction ncols as [|k l IH]; [reflexivity|]. rewrite zlen_cons. cbn [map fold_right]. unfold zsum in *. cbn [fold_right] in *. lia.
Qed.
