(** * Activating vertices from several threads at once *)
From Verif Require Import Base BaseLemmas Bits BitsProofs Layout Reduce Segment DCSC MatSpec TileProofs SpMat Vec GraphVert Graph Runtime RunSpec GraphOps GraphHist RunFinal PropsMat Apps AppSpec AppExample PropsApps PropsApps2 Conc ParSet ParSetProofs TopRace.

(** ** C64 *)
(** Calls set(i, v) on one segment by threads of their own: if the words holding the "present" bits are
    all different, no schedule goes wrong and every schedule does all of them. *)
Theorem C64_different_words_safe {T byte} (s : seg T byte) (b : buffer T byte) ws l :
  s_prop s = Some b -> b_uninit b = false -> b_bits b = Some ws ->
  (forall p, In p l -> 0 <= fst p - 1 < zlen (b_value b) /\ fst p - 1 < 32 * zlen ws) ->
  (forall i j p q, nth_error l i = Some p -> nth_error l j = Some q -> (fst p - 1) / 32 = (fst q - 1) / 32 -> i = j) ->
  sets_safe s l /\
  forall s', sets_at_once s l s' -> exists b' ws', s_prop s' = Some b' /\ b_uninit b' = false /\ b_bits b' = Some ws' /\
    (forall k, tb ws' k = tb ws k || existsb (fun p => fst p - 1 =? k) l) /\
    (forall k, (forall p, In p l -> fst p - 1 <> k) -> rd (b_value b') k = rd (b_value b) k) /\
    (forall p, In p l -> rd (b_value b') (fst p - 1) = Ok (snd p)).
Proof. exact (sets_different_words s b ws l). Qed.
Print Assumptions C64_different_words_safe.
(** If two of them share a word, some schedule loses the first while counting it. *)
Theorem C64_same_word_may_lose {T byte} (s : seg T byte) (b : buffer T byte) ws i j vi vj :
  s_prop s = Some b -> b_uninit b = false -> b_bits b = Some ws ->
  1 <= i <= zlen (b_value b) -> 1 <= j <= zlen (b_value b) -> i <= 32 * zlen ws -> i <> j -> (i - 1) / 32 = (j - 1) / 32 ->
  tb ws (i - 1) = false -> tb ws (j - 1) = false ->
  exists s' b' ws', sets_at_once s [(i, vi); (j, vj)] s' /\ s_prop s' = Some b' /\ b_uninit b' = false /\ b_bits b' = Some ws' /\
    tb ws' (i - 1) = true /\ tb ws' (j - 1) = false /\ b_nnz b' = b_nnz b + 2.
Proof. exact (sets_lose s b ws i j vi vj). Qed.
Print Assumptions C64_same_word_may_lose.

Definition rc_m : machine top_vertex Z (list Z) :=
  mkMach 1 2 isort ksort (fun _ _ _ => 7) (fun _ _ _ => 8) (fun _ => 9) (fun _ => 10) None (Some true) true (c_enc t_to) (c_dec t_of).
Definition rc_blobs : list (list (edge Z)) := [[mkE 1 3 1; mkE 2 3 1]].
Lemma rc_acyclic : acyclic (concat rc_blobs).
Proof.
  assert (forall x v w h, walk (concat rc_blobs) x v w h -> h = O /\ v = x \/ x < v) as H.
  { induction 1 as [|w h e W IH He]; [auto|]. right. assert (e_src e < e_dst e) by (cbn in He; intuition subst; cbn; lia). destruct IH as [[_ Ex]|]; [rewrite <- Ex|]; lia. }
  intros x w h W. destruct (H _ _ _ _ W); lia.
Qed.
(** The topological sort program starts the vertices without incoming edges from such a loop: although
    it finds the order of every acyclic graph when the passes follow each other (C55), there is a
    schedule on which it reports a vertex of an acyclic graph as unreachable. *)
Theorem C64_topsort_loop_refuted : exists (m : machine top_vertex Z (list Z)) n blobs th fr1 fr2 dt1 dt2 dv fuel g tmp g' g2,
  (setting m n blobs /\ threads_ok m (m_serv m) th /\ frame_ok m th fr1 /\ frame_ok m th fr2 /\ (Z.to_nat (Z.max n 1) <= fuel)%nat /\ m_nr m = 1) /\
  acyclic (concat blobs) /\
  top_before m th fr1 fr2 dt1 dt2 dv n blobs = Ok (g, tmp) /\
  top_sources_at_once m th n (filter (fun v => forallb (fun e => negb (e_dst e =? v)) (concat blobs)) (zrange 1 (n + 1))) g g' /\
  top_after m th fr2 dt2 dv fuel tmp g' = Ok (g2, [1]).
Proof.
  exists rc_m, 3, rc_blobs, 2, axf_z, axf_b, 6, true, top_new, 4%nat.
  let x := eval vm_compute in (top_before rc_m 2 axf_z axf_b 6 true top_new 3 rc_blobs) in
  match x with Ok (?g, ?t) => exists g, t; assert (top_before rc_m 2 axf_z axf_b 6 true top_new 3 rc_blobs = Ok (g, t)) as E by (vm_compute; reflexivity);
    let y := eval vm_compute in (forZ 1 (3 + 1) (top_source rc_m 2) g) in
    match y with Ok ?gs =>
      assert (forZ 1 (3 + 1) (top_source rc_m 2) g = Ok gs) as Es by (vm_compute; reflexivity);
      let a := eval vm_compute in (g_act g) in
      match a with [[?s]] => let p := eval vm_compute in (s_prop s) in match p with Some ?b =>
        pose (s' := set_prop (Some (set_uninit false (set_nnz (b_nnz b + 2) (set_bits [1] (set_value [Some true; Some true; Some false] b))))) s);
        assert (sets_at_once s [(1, Some true); (2, Some true)] s') as Ha by
          (apply (sets_lose_exec s b [0] 0 1 2 (Some true) (Some true) [1] [Some true; Some false; Some false] [Some true; Some true; Some false]); try reflexivity; cbn; lia);
        assert (g_act g = [[s]]) as Eg by (vm_compute; reflexivity);
        let g' := eval vm_compute in (set_act [[s']] gs) in
        let z := eval vm_compute in (top_after rc_m 2 axf_b true top_new 4 t g') in
        match z with Ok (?g2, _) => exists g', g2;
          assert (top_after rc_m 2 axf_b true top_new 4 t g' = Ok (g2, [1])) as Ez by (vm_compute; reflexivity);
          assert (g' = set_act [[s']] gs) as Eg' by (vm_compute; reflexivity);
          split; [|split; [exact rc_acyclic|split; [exact E|split; [exists gs, s, s', [1; 2]; split; [exact Es|]; split; [exact Eg|]; split; [vm_compute; reflexivity|]; split; [exact Ha|exact Eg']|exact Ez]]]]
        end end end end end.
  split.
  { split; [split; [cbn; lia|]; split; [cbn; lia|]; split; [apply isort_sorts|]; split; [apply ksort_sorts|]; apply c_ok, t_ok|]. split; [lia|]. split; [reflexivity|]. cbn. intuition subst; cbn; lia. }
  split; [split; [lia|reflexivity]|]. split; [split; [split; [lia|reflexivity]|]; split; [split; [lia|reflexivity]|]; split; apply c_ok; apply z_ok|].
  split; [split; [split; [lia|reflexivity]|]; split; [split; [lia|reflexivity]|]; split; apply c_ok; [apply bo_ok|apply z_ok]|]. split; [cbn; lia|reflexivity].
Qed.
Print Assumptions C64_topsort_loop_refuted.

(** a segment of 64 cells, and calls for cells 1 and 40 (different words) and for 1 and 2 (one word) *)
Definition rc_b : buffer bool Z := mkbuf false 0 64 2 (repeat (Some false) 64) (Some [0; 0]) [] [] [] 0 0 [] [].
Definition rc_s : seg bool Z := mkseg 64 2 (Some rc_b) (mkmd 0 0 0) [] [] [] 0 None.
Example C64_example : (s_prop rc_s = Some rc_b /\ b_uninit rc_b = false /\ b_bits rc_b = Some [0; 0]) /\
  (forall p, In p [(1, Some true); (40, Some true)] -> 0 <= fst p - 1 < zlen (b_value rc_b) /\ fst p - 1 < 32 * zlen [0; 0]) /\
  ((1 - 1) / 32 <> (40 - 1) / 32) /\ ((1 - 1) / 32 = (2 - 1) / 32 /\ tb [0; 0] (1 - 1) = false /\ tb [0; 0] (2 - 1) = false).
Proof. split; [auto|]. split; [|split; [discriminate|auto]]. cbn. intros p [<-|[<-|[]]]; cbn; lia. Qed.
