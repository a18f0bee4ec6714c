(** Proofs about Mem.v: rules for heap code, and what each object owns. *)
From Verif Require Import Base BaseLemmas Segment DCSC EdgeList Mem.

Definition blk : Type := (Z * kind)%type.
Definition blks : Type := list blk.
(** the blocks in use are [L], in some order *)
Definition holds (h : heap) (L : blks) : Prop :=
  NoDup (map fst (h_live h)) /\ Permutation (h_live h) L /\ (forall b k, In (b, k) (h_live h) -> b < h_next h).

(** counting, to compare lists up to order *)
Lemma blk_dec : forall a b : blk, {a = b} + {a <> b}.
Proof. intros [a k] [b j]. decide equality; [decide equality|apply Z.eq_dec]. Qed.
Definition cnt (x : blk) (l : blks) : nat := count_occ blk_dec l x.
Definition one (x a : blk) : nat := if blk_dec a x then 1%nat else 0%nat.
Lemma cnt_nil : forall x, cnt x [] = 0%nat. Proof. reflexivity. Qed.
Lemma cnt_cons : forall x a l, cnt x (a :: l) = (one x a + cnt x l)%nat.
Proof. intros. unfold cnt, one. cbn. destruct (blk_dec a x); reflexivity. Qed.
Lemma cnt_app : forall x l m, cnt x (l ++ m) = (cnt x l + cnt x m)%nat.
Proof. intros. unfold cnt. apply count_occ_app. Qed.
Lemma perm_cnt : forall l m, (forall x, cnt x l = cnt x m) -> Permutation l m.
Proof. intros. apply (Permutation_count_occ blk_dec). exact H. Qed.
Lemma cnt_perm : forall x l m, Permutation l m -> cnt x l = cnt x m.
Proof. intros. apply (Permutation_count_occ blk_dec). exact H. Qed.
Ltac perm :=
  apply perm_cnt; let x := fresh "x" in intro x;
  repeat match goal with H : Permutation ?A ?B |- _ => apply (cnt_perm x) in H end;
  repeat match goal with H : cnt x _ = cnt x _ |- _ => repeat first [rewrite cnt_app in H|rewrite cnt_cons in H|rewrite cnt_nil in H]; revert H end;
  rewrite ?concat_app; cbn [concat];
  repeat first [rewrite cnt_app|rewrite cnt_cons|rewrite cnt_nil]; lia.

Lemma holds_perm : forall h L L', holds h L -> Permutation L L' -> holds h L'.
Proof. intros h L L' (A & B & C) P. split; [exact A|split; [rewrite B; exact P|exact C]]. Qed.

(** ** heap code: from a heap that holds [L], [m] ends with a result and a heap as [Q] says, or with an
    error that [Er] allows *)
Definition wp {A} (Er : err -> Prop) (m : M A) (L : blks) (Q : A -> blks -> Prop) : Prop :=
  forall h, holds h L -> match m h with
                         | Ok (a, h') => exists L', holds h' L' /\ Q a L'
                         | Err e => Er e
                         end.
Section RULES.
  Variable Er : err -> Prop.
  Lemma wp_ret : forall A (a : A) L (Q : A -> blks -> Prop), Q a L -> wp Er (ret a) L Q.
  Proof. intros A a L Q H h Hh. exists L. auto. Qed.
  Lemma wp_bind : forall A B (m : M A) (f : A -> M B) L Q,
    wp Er m L (fun a L' => wp Er (f a) L' Q) -> wp Er (bindM m f) L Q.
  Proof.
    intros A B m f L Q H h Hh. specialize (H h Hh). unfold bindM. destruct (m h) as [[a h']|e]; [|exact H].
    destruct H as (L' & Hh' & W). exact (W h' Hh').
  Qed.
  Lemma wp_perm : forall A (m : M A) L L' Q, Permutation L L' -> wp Er m L' Q -> wp Er m L Q.
  Proof. intros A m L L' Q P W h Hh. apply W. eapply holds_perm; eauto. Qed.
  Lemma wp_conseq : forall A (m : M A) L (Q Q' : A -> blks -> Prop),
    wp Er m L Q -> (forall a L', Q a L' -> Q' a L') -> wp Er m L Q'.
  Proof.
    intros A m L Q Q' W H h Hh. specialize (W h Hh). destruct (m h) as [[a h']|e]; [|exact W].
    destruct W as (L' & Hh' & HQ). eauto.
  Qed.
  Lemma wp_fail : forall A e L (Q : A -> blks -> Prop), Er e -> wp Er (fail e) L Q.
  Proof. intros A e L Q H h Hh. exact H. Qed.
  Lemma wp_request : forall k L (Q : ptr -> blks -> Prop), (forall b, Q (At b) ((b, k) :: L)) -> wp Er (request k) L Q.
  Proof.
    intros k L Q H h (A & B & C). cbn. exists ((h_next h, k) :: L). split; [|apply H].
    split; [|split].
    - cbn. constructor; [|exact A]. intro I. apply in_map_iff in I. destruct I as ([b j] & E1 & I). cbn in E1. subst b.
      specialize (C _ _ I). lia.
    - cbn. constructor. exact B.
    - cbn. intros b j [E1|I]; [inversion E1; lia|specialize (C _ _ I); lia].
  Qed.
  Lemma take_out_in : forall b k l, NoDup (map fst l) -> In (b, k) l ->
    exists l', take_out b l = Some (k, l') /\ Permutation l ((b, k) :: l').
  Proof.
    induction l as [|[c j] l IH]; cbn; intros ND I; [contradiction|].
    inversion ND as [|? ? N1 N2]; subst. destruct (Z.eqb_spec c b) as [->|N].
    - destruct I as [E1|I]; [inversion E1; subst; eauto|]. exfalso. apply N1. change b with (fst (b, k)). apply in_map. exact I.
    - destruct I as [E1|I]; [inversion E1; contradiction|]. destruct (IH N2 I) as (l' & E1 & P). rewrite E1.
      eexists. split; [reflexivity|]. rewrite P. apply perm_swap.
  Qed.
  Lemma kind_eqb_refl : forall k, kind_eqb k k = true. Proof. destruct k; reflexivity. Qed.
  Lemma wp_give : forall k b L L' (Q : unit -> blks -> Prop),
    Permutation L ((b, k) :: L') -> Q tt L' -> wp Er (give_back k (At b)) L Q.
  Proof.
    intros k b L L' Q P HQ h (A & B & C). cbn.
    destruct (take_out_in b k (h_live h) A) as (l' & E1 & P1).
    { apply Permutation_in with L; [symmetry; exact B|]. rewrite P. left. reflexivity. }
    rewrite E1, kind_eqb_refl. exists L'. split; [|exact HQ]. cbn. split; [|split].
    - assert (ND : NoDup (map fst ((b, k) :: l'))) by (apply (Permutation_NoDup (Permutation_map fst P1)); exact A).
      inversion ND; assumption.
    - assert (P2 : Permutation ((b, k) :: l') ((b, k) :: L')) by (rewrite <- P1, B; exact P).
      apply Permutation_cons_inv in P2. exact P2.
    - intros c j I. apply (C c j). rewrite P1. right. exact I.
  Qed.
  Lemma wp_null : forall k L (Q : unit -> blks -> Prop), Q tt L -> wp Er (give_back k Null) L Q.
  Proof. intros k L Q H h Hh. cbn. eauto. Qed.
  Lemma wp_lift : forall A (r : R A) L (Q : A -> blks -> Prop),
    (forall a, r = Ok a -> Q a L) -> (forall e, r = Err e -> Er e) -> wp Er (lift r) L Q.
  Proof. intros A r L Q H1 H2 h Hh. unfold lift. destruct r; [exists L; auto|auto]. Qed.

  (** ** lists of objects; [P a O]: the object [a] owns the blocks [O] *)
  Lemma wp_each_make : forall A B (f : A -> M B) (P : B -> blks -> Prop) l F,
    (forall a F, In a l -> wp Er (f a) F (fun b L => exists O, P b O /\ Permutation L (O ++ F))) ->
    wp Er (eachM f l) F (fun bs L => exists Os, Forall2 P bs Os /\ Permutation L (concat Os ++ F)).
  Proof.
    induction l as [|a l IH]; intros F H; cbn [eachM].
    - apply wp_ret. exists []. split; [constructor|reflexivity].
    - apply wp_bind. eapply wp_conseq; [apply H; left; reflexivity|]. cbn beta. intros b L (O & HO & PL).
      apply wp_bind. eapply wp_conseq; [apply IH; intros; apply H; right; assumption|]. cbn beta. intros bs L' (Os & HOs & PL').
      apply wp_ret. exists (O :: Os). split; [constructor; assumption|]. perm.
  Qed.
  Lemma wp_each_drop : forall A B (f : A -> M B) (P : A -> blks -> Prop),
    (forall a O F, P a O -> wp Er (f a) (O ++ F) (fun _ L => Permutation L F)) ->
    forall l Os F, Forall2 P l Os -> wp Er (eachM f l) (concat Os ++ F) (fun _ L => Permutation L F).
  Proof.
    intros A B f P H. induction l as [|a l IH]; intros Os F HF; inversion HF; subst; cbn [eachM concat].
    - apply wp_ret. reflexivity.
    - apply wp_bind. rewrite <- app_assoc. eapply wp_conseq; [apply H; eassumption|]. cbn beta. intros ? L PL.
      apply wp_bind. eapply wp_perm; [exact PL|]. eapply wp_conseq; [apply IH; eassumption|]. cbn beta. intros ? L' PL'.
      apply wp_ret. exact PL'.
  Qed.
  Lemma wp_each_keep : forall A B (f : A -> M B) (P : A -> blks -> Prop) (P' : B -> blks -> Prop),
    (forall a O F, P a O -> wp Er (f a) (O ++ F) (fun b L => exists O', P' b O' /\ Permutation L (O' ++ F))) ->
    forall l Os F, Forall2 P l Os ->
    wp Er (eachM f l) (concat Os ++ F) (fun bs L => exists Os', Forall2 P' bs Os' /\ Permutation L (concat Os' ++ F)).
  Proof.
    intros A B f P P' H. induction l as [|a l IH]; intros Os F HF; inversion HF; subst; cbn [eachM concat].
    - apply wp_ret. exists []. split; [constructor|reflexivity].
    - apply wp_bind. rewrite <- app_assoc. eapply wp_conseq; [apply H; eassumption|]. cbn beta. intros b L (O' & HO' & PL).
      apply wp_bind. eapply wp_perm; [rewrite PL; apply Permutation_app_swap_app|].
      eapply wp_conseq; [apply IH; eassumption|]. cbn beta. intros bs L' (Os' & HOs' & PL').
      apply wp_ret. exists (O' :: Os'). split; [constructor; assumption|]. perm.
  Qed.
End RULES.

(** symbolic execution *)
Ltac without b k l := lazymatch l with
  | (b, k) :: ?r => constr:(r)
  | ?a :: ?r => let q := without b k r in constr:(a :: q)
  | ?x ++ ?r => let q := without b k r in constr:(x ++ q)
  end.
Ltac without_part O l := lazymatch l with
  | O ++ ?r => constr:(r)
  | ?a :: ?r => let q := without_part O r in constr:(a :: q)
  | ?x ++ ?r => let q := without_part O r in constr:(x ++ q)
  end.
Ltac give :=
  match goal with |- wp _ (give_back ?k (At ?b)) ?L _ =>
    let r := without b k L in apply wp_give with (L' := r); [perm|] end.
(** bring the part [O] of the blocks to the front *)
Ltac front O :=
  match goal with |- wp _ _ ?L _ =>
    let r := without_part O L in apply wp_perm with (L' := O ++ r); [perm|] end.
Ltac stepM :=
  match goal with
  | |- wp _ (bindM _ _) _ _ => apply wp_bind
  | |- wp _ (ret _) _ _ => apply wp_ret
  | |- wp _ (request _) _ _ => apply wp_request; intro
  | |- wp _ (give_back _ (At _)) _ _ => give
  | |- wp _ (give_back _ Null) _ _ => apply wp_null
  end.
Ltac run := unfold mm_malloc, mm_free, new_array, delete_array, new_object, delete_object; repeat stepM.

Definition never : err -> Prop := fun _ => False.

(** ** tiles *)
Definition dcsc_owns (t : mdcsc) (O : blks) : Prop :=
  if 0 <? dc_nnz t then
    exists b1 b2 b3 b4 b5 b6 b7, t = mkDcsc (dc_nnz t) (At b1) (At b2) (At b3) (At b4) (At b5) (At b6) (At b7) /\
      O = [(b1, Aligned); (b2, Aligned); (b3, Aligned); (b4, Aligned); (b5, Aligned); (b6, Aligned); (b7, Aligned)]
  else O = [].
Section TILES.
  Variable Er : err -> Prop.
  Lemma dcsc_build_wp : forall nnz F, wp Er (dcsc_build nnz) F (fun t L => dc_nnz t = nnz /\ exists O, dcsc_owns t O /\ Permutation L (O ++ F)).
  Proof.
    intros nnz F. unfold dcsc_build, dcsc_owns. destruct (Z.ltb_spec 0 nnz) as [H|H]; run.
    - cbn [dc_nnz]. split; [reflexivity|]. destruct (Z.ltb_spec 0 nnz); [|lia]. eexists. split; [do 7 eexists; split; reflexivity|]. cbn [app]. perm.
    - cbn [dc_nnz]. split; [reflexivity|]. destruct (Z.ltb_spec 0 nnz); [lia|]. eexists. split; reflexivity.
  Qed.
  Lemma dcsc_load_wp : forall nnz F, wp Er (dcsc_load nnz) F (fun t L => dc_nnz t = nnz /\ exists O, dcsc_owns t O /\ Permutation L (O ++ F)).
  Proof.
    intros nnz F. unfold dcsc_load, dcsc_owns. destruct (Z.ltb_spec 0 nnz) as [H|H]; run.
    - cbn [dc_nnz]. split; [reflexivity|]. destruct (Z.ltb_spec 0 nnz); [|lia]. eexists. split; [do 7 eexists; split; reflexivity|]. cbn [app]. perm.
    - cbn [dc_nnz]. split; [reflexivity|]. destruct (Z.ltb_spec 0 nnz); [lia|]. eexists. split; reflexivity.
  Qed.
  Lemma dcsc_destroy_wp : forall t O F, dcsc_owns t O -> wp Er (dcsc_destroy t) (O ++ F) (fun _ L => Permutation L F).
  Proof.
    intros t O F H. unfold dcsc_destroy, dcsc_owns in *. destruct (Z.ltb_spec 0 (dc_nnz t)) as [N|N].
    - destruct H as (b1 & b2 & b3 & b4 & b5 & b6 & b7 & -> & ->). cbn [dc_row_inds dc_col_ptrs dc_col_indices dc_vals dc_row_pointers dc_edge_pointers dc_col_starts app].
      run. reflexivity.
    - subst O. run. reflexivity.
  Qed.
End TILES.

(** ** other tiles: each kind of tile that was built from edges gives back all it has *)
Section OTHERS.
  Variable Er : err -> Prop.
  Definition csr_owns (t : mcsr) (O : blks) : Prop :=
    if 0 <? cs_nnz t then
      exists b1 b2 b3, t = mkCsr (cs_nnz t) (At b1) (At b2) (At b3) /\ O = [(b1, Aligned); (b2, Aligned); (b3, Aligned)]
    else O = [].
  Definition coo_owns (t : mcoo) (O : blks) : Prop :=
    if 0 <? co_nnz t then
      exists b1 b2 b3 b4, t = mkCoo (co_nnz t) (At b1) (At b2) (At b3) (At b4) /\ O = [(b1, Aligned); (b2, Aligned); (b3, Aligned); (b4, Array)]
    else O = [].
  Definition simd_owns (t : msimd) (O : blks) : Prop :=
    if 0 <? si_nnz t then
      exists b1 b2 b3 b4 b5, t = mkSimd (si_nnz t) (At b1) (At b2) (At b3) (At b4) (At b5) /\
        O = [(b1, Aligned); (b2, Aligned); (b3, Aligned); (b4, Array); (b5, Array)]
    else O = [].
  Definition dcsr_owns (t : mdcsr) (O : blks) : Prop :=
    if 0 <? ds_nnz t then
      exists b1 b2 b3 b4 b5, t = mkDcsr (ds_nnz t) (At b1) (At b2) (At b3) (At b4) (At b5) /\
        O = [(b1, Array); (b2, Aligned); (b3, Aligned); (b4, Aligned); (b5, Aligned)]
    else O = [].
  Ltac built H := intros; split; [reflexivity|]; destruct (Z.ltb_spec 0 _); try lia; eexists; split; [repeat eexists|cbn [app]; perm].

  Lemma csr_build_wp : forall nnz F, wp Er (csr_build nnz) F (fun t L => cs_nnz t = nnz /\ exists O, csr_owns t O /\ Permutation L (O ++ F)).
  Proof.
    intros nnz F. unfold csr_build, csr_owns. destruct (Z.ltb_spec 0 nnz) as [H|H]; run; cbn [cs_nnz];
      (split; [reflexivity|]); (destruct (Z.ltb_spec 0 nnz); try lia); eexists; (split; [repeat eexists|cbn [app]; perm]).
  Qed.
  Lemma csr_load_wp : forall nnz F, wp Er (csr_load nnz) F (fun t L => cs_nnz t = nnz /\ exists O, csr_owns t O /\ Permutation L (O ++ F)).
  Proof.
    intros nnz F. unfold csr_load, csr_owns. destruct (Z.ltb_spec 0 nnz) as [H|H]; run; cbn [cs_nnz];
      (split; [reflexivity|]); (destruct (Z.ltb_spec 0 nnz); try lia); eexists; (split; [repeat eexists|cbn [app]; perm]).
  Qed.
  Lemma csr_destroy_wp : forall t O F, csr_owns t O -> wp Er (csr_destroy t) (O ++ F) (fun _ L => Permutation L F).
  Proof.
    intros t O F H. unfold csr_destroy, csr_owns in *. destruct (Z.ltb_spec 0 (cs_nnz t)) as [N|N].
    - destruct H as (b1 & b2 & b3 & -> & ->). cbn [cs_a cs_ja cs_ia app]. run. reflexivity.
    - subst O. run. reflexivity.
  Qed.
  Lemma coo_build_wp : forall nnz F, wp Er (coo_build nnz) F (fun t L => co_nnz t = nnz /\ exists O, coo_owns t O /\ Permutation L (O ++ F)).
  Proof.
    intros nnz F. unfold coo_build, coo_owns. destruct (Z.ltb_spec 0 nnz) as [H|H]; run; cbn [co_nnz];
      (split; [reflexivity|]); (destruct (Z.ltb_spec 0 nnz); try lia); eexists; (split; [repeat eexists|cbn [app]; perm]).
  Qed.
  Lemma coo_destroy_wp : forall t O F, coo_owns t O -> wp Er (coo_destroy t) (O ++ F) (fun _ L => Permutation L F).
  Proof.
    intros t O F H. unfold coo_destroy, coo_owns in *. destruct (Z.ltb_spec 0 (co_nnz t)) as [N|N].
    - destruct H as (b1 & b2 & b3 & b4 & -> & ->). cbn [co_a co_ja co_ia co_partition_start app]. run. reflexivity.
    - subst O. run. reflexivity.
  Qed.
  Lemma borders_wp : forall np F, wp Er (eachM (fun _ : nat => borders <~ new_array ;; delete_array borders) (seq 0 np)) F (fun _ L => Permutation L F).
  Proof.
    intros np F. generalize (seq 0 np). intro l. revert F. induction l as [|a l IH]; intro F; cbn [eachM]; run; [reflexivity|].
    eapply wp_conseq; [apply IH|]. cbn beta. intros ? L P. run. exact P.
  Qed.
  Lemma simd_build_wp : forall np nnz F, wp Er (simd_build np nnz) F (fun t L => si_nnz t = nnz /\ exists O, simd_owns t O /\ Permutation L (O ++ F)).
  Proof.
    intros np nnz F. unfold simd_build, simd_owns. destruct (Z.ltb_spec 0 nnz) as [H|H].
    - run. eapply wp_conseq; [apply borders_wp|]. cbn beta. intros ? L P. run. eapply wp_perm; [exact P|]. run. cbn [si_nnz].
      split; [reflexivity|]. destruct (Z.ltb_spec 0 nnz); try lia. eexists. split; [repeat eexists|cbn [app]; perm].
    - run. cbn [si_nnz]. split; [reflexivity|]. destruct (Z.ltb_spec 0 nnz); try lia. eexists. split; reflexivity.
  Qed.
  Lemma simd_destroy_wp : forall t O F, simd_owns t O -> wp Er (simd_destroy t) (O ++ F) (fun _ L => Permutation L F).
  Proof.
    intros t O F H. unfold simd_destroy, simd_owns in *. destruct (Z.ltb_spec 0 (si_nnz t)) as [N|N].
    - destruct H as (b1 & b2 & b3 & b4 & b5 & -> & ->). cbn [si_a si_ja si_ia si_partition_start si_simd_nnz app]. run. reflexivity.
    - subst O. run. reflexivity.
  Qed.
  Lemma dcsr_build_wp : forall nnz F, wp Er (dcsr_build nnz) F (fun t L => ds_nnz t = nnz /\ exists O, dcsr_owns t O /\ Permutation L (O ++ F)).
  Proof.
    intros nnz F. unfold dcsr_build, dcsr_owns. destruct (Z.ltb_spec 0 nnz) as [H|H]; run; cbn [ds_nnz];
      (split; [reflexivity|]); (destruct (Z.ltb_spec 0 nnz); try lia); eexists; (split; [repeat eexists|cbn [app]; perm]).
  Qed.
  Lemma dcsr_destroy_wp : forall t O F, dcsr_owns t O -> wp Er (dcsr_destroy t) (O ++ F) (fun _ L => Permutation L F).
  Proof.
    intros t O F H. unfold dcsr_destroy, dcsr_owns in *. destruct (Z.ltb_spec 0 (ds_nnz t)) as [N|N].
    - destruct H as (b1 & b2 & b3 & b4 & b5 & -> & ->). cbn [ds_partition_ptrs ds_a ds_ja ds_ia ds_row_ids app]. run. reflexivity.
    - subst O. run. reflexivity.
  Qed.
  (** the hybrid tile keeps two objects and their arrays *)
  Definition hybrid_owns (t : mhybrid) (O : blks) : Prop :=
    exists b1 b2 O1 O2, hy_t1 t = At b1 /\ hy_t2 t = At b2 /\ dcsr_owns (hy_dcsr t) O1 /\ simd_owns (hy_simd t) O2 /\
      O = (b1, Object) :: (b2, Object) :: O1 ++ O2.
  Lemma hybrid_build_wp : forall np n1 n2 F, 
    wp Er (hybrid_build np n1 n2) F (fun t L => ds_nnz (hy_dcsr t) = n1 /\ si_nnz (hy_simd t) = n2 /\ exists O, hybrid_owns t O /\ Permutation L (O ++ F)).
  Proof.
    intros np n1 n2 F. unfold hybrid_build. run.
    eapply wp_conseq; [apply csr_build_wp|]. cbn beta. intros csr L (_ & O & HO & P). run.
    eapply wp_perm; [do 4 apply perm_skip; exact P|]. front O.
    eapply wp_conseq; [apply csr_destroy_wp; exact HO|]. cbn beta. intros ? L1 P1. run. eapply wp_perm; [exact P1|]. run.
    eapply wp_conseq; [apply dcsr_build_wp|]. cbn beta. intros d1 L2 (N1 & O1 & HO1 & P2). run.
    eapply wp_perm; [apply perm_skip; exact P2|].
    eapply wp_conseq; [apply simd_build_wp|]. cbn beta. intros d2 L3 (N2 & O2 & HO2 & P3). run.
    eapply wp_perm; [exact P3|]. run. cbn [hy_dcsr hy_simd]. split; [exact N1|]. split; [exact N2|].
    eexists. split; [do 4 eexists; cbn [hy_t1 hy_t2 hy_dcsr hy_simd]; repeat split; eassumption|]. cbn [app]. perm.
  Qed.
End OTHERS.

(** ** matrices *)
Definition tile_owns (t : mtile) (O : blks) : Prop :=
  match fst t with
  | Null => O = []
  | Unset => False
  | At b => exists O1, dcsc_owns (snd t) O1 /\ O = (b, Object) :: O1
  end.
Definition mat_owns (m : mmat) (O : blks) : Prop := exists Os, Forall2 tile_owns m Os /\ O = concat Os.
Section MATS.
  Variable Er : err -> Prop.
  Lemma dcsc_empty_owns : dcsc_owns dcsc_empty []. Proof. reflexivity. Qed.
  Lemma mat_tiles_wp : forall counts F,
    wp Er (eachM (fun c : option Z => match c with
          | None => ret (Null, dcsc_empty)
          | Some nnz => o <~ new_object ;; t <~ (if nnz <=? 0 then ret dcsc_empty else dcsc_build nnz) ;; ret (o, t)
          end) counts) F (fun m L => exists O, mat_owns m O /\ Permutation L (O ++ F)).
  Proof.
    intros counts F. eapply wp_conseq.
    - apply wp_each_make with (P := tile_owns). intros [nnz|] F1 _.
      + run. destruct (Z.leb_spec nnz 0) as [N|N].
        * run. eexists. split; [exists []; split; [exact dcsc_empty_owns|reflexivity]|]. cbn [app]. reflexivity.
        * eapply wp_conseq; [apply dcsc_build_wp|]. cbn beta. intros t L (_ & O & HO & P). run.
          eexists. split; [exists O; split; [exact HO|reflexivity]|]. cbn [app]. perm.
      + run. exists []. split; reflexivity.
    - cbn beta. intros m L (Os & H & P). exists (concat Os). split; [exists Os; auto|exact P].
  Qed.
  Lemma mat_build_wp : forall nr counts F, wp Er (mat_build nr counts) F (fun m L => exists O, mat_owns m O /\ Permutation L (O ++ F)).
  Proof.
    intros nr counts F. unfold mat_build. apply wp_bind.
    apply wp_conseq with (Q := fun p L => exists b, p = At b /\ Permutation L ((b, Array) :: F)).
    { destruct (nr =? 1); run; (eexists; split; [reflexivity|perm]). }
    cbn beta. intros p L (b & -> & P). eapply wp_perm; [exact P|]. run. 
    eapply wp_conseq; [apply mat_tiles_wp|]. cbn beta. intros m L1 (O & HO & P1). run. eapply wp_perm; [exact P1|]. run.
    exists O. split; [exact HO|perm].
  Qed.
  Lemma mat_load_wp : forall counts F, wp Er (mat_load counts) F (fun m L => exists O, mat_owns m O /\ Permutation L (O ++ F)).
  Proof.
    intros counts F. unfold mat_load. eapply wp_conseq.
    - apply wp_each_make with (P := tile_owns). intros [nnz|] F1 _.
      + run. eapply wp_conseq; [apply dcsc_load_wp|]. cbn beta. intros t L (_ & O & HO & P). run.
        eexists. split; [exists O; split; [exact HO|reflexivity]|]. cbn [app]. perm.
      + run. exists []. split; reflexivity.
    - cbn beta. intros m L (Os & H & P). exists (concat Os). split; [exists Os; auto|exact P].
  Qed.
  Lemma tile_delete_wp : forall t O F, tile_owns t O -> wp Er (tile_delete t) (O ++ F) (fun _ L => Permutation L F).
  Proof.
    intros [p t] O F H. unfold tile_owns, tile_delete in *. cbn [fst snd] in *. destruct p as [|b|]; [| |contradiction].
    - subst O. run. reflexivity.
    - destruct H as (O1 & H1 & ->). cbn [app]. run. front O1.
      eapply wp_conseq; [apply dcsc_destroy_wp; exact H1|]. cbn beta. intros ? L P. eapply wp_perm; [exact P|]. run. reflexivity.
  Qed.
  Lemma mat_destroy_wp : forall m O F, mat_owns m O -> wp Er (mat_destroy m) (O ++ F) (fun _ L => Permutation L F).
  Proof.
    intros m O F (Os & H & ->). unfold mat_destroy. run.
    eapply wp_conseq; [apply wp_each_drop with (P := tile_owns); [exact tile_delete_wp|exact H]|]. cbn beta. intros ? L P. run. exact P.
  Qed.
  (** the matrix with its object *)
  Definition matp_owns (m : ptr * mmat) (O : blks) : Prop := exists b O1, fst m = At b /\ mat_owns (snd m) O1 /\ O = (b, Object) :: O1.
  Lemma mat_delete_wp : forall m O F, matp_owns m O -> wp Er (mat_delete m) (O ++ F) (fun _ L => Permutation L F).
  Proof.
    intros [p m] O F (b & O1 & E1 & H & ->). cbn [fst snd] in *. subst p. unfold mat_delete. cbn [fst snd app]. run. front O1.
    eapply wp_conseq; [apply mat_destroy_wp; exact H|]. cbn beta. intros ? L P. eapply wp_perm; [exact P|]. run. reflexivity.
  Qed.
  Lemma mat_transpose_wp : forall nr counts m F, wp Er (mat_transpose nr counts m) F (fun r L => exists O, matp_owns r O /\ Permutation L (O ++ F)).
  Proof.
    intros nr counts m F. unfold mat_transpose. destruct (0 <? mat_nnz m).
    - run. eapply wp_conseq; [apply mat_build_wp|]. cbn beta. intros t L (O & HO & P). run. eapply wp_perm; [exact P|]. run.
      eexists. split; [do 2 eexists; cbn [fst snd]; repeat split; exact HO|]. cbn [app]. perm.
    - run. eapply wp_conseq; [apply mat_build_wp|]. cbn beta. intros t L (O & HO & P). run.
      eexists. split; [do 2 eexists; cbn [fst snd]; repeat split; exact HO|]. cbn [app]. perm.
  Qed.
End MATS.

(** ** buffers, segments, vectors *)
Definition buf_owns (b : mbuf) (O : blks) : Prop :=
  exists b0 b1 b2 b3 b4 b5 b6 b7, b = mkBuf (At b0) (At b1) (At b2) (At b3) (At b4) (At b5) (At b6) (At b7) /\
    O = [(b0, Object); (b1, Array); (b2, Array); (b3, Array); (b4, Array); (b5, Array); (b6, Array); (b7, Array)].
Definition opt_owns (b : option mbuf) (O : blks) : Prop := match b with None => O = [] | Some b => buf_owns b O end.
Definition seg_owns (s : mseg) (O : blks) : Prop :=
  exists b Op Or Ou, sg_obj s = At b /\ opt_owns (sg_properties s) Op /\ Forall2 buf_owns (sg_received s) Or /\
    Forall2 buf_owns (sg_uninitialized s) Ou /\ O = (b, Object) :: Op ++ concat Or ++ concat Ou.
Definition vec_owns (v : mvec) (O : blks) : Prop :=
  exists b Os, vc_obj v = At b /\ Forall2 seg_owns (vc_segments v) Os /\ O = (b, Object) :: concat Os.
(** the errors of a call on a vector that is not there or lacks the segment *)
Definition misuse (e : err) : Prop := e = OOB \/ e = AssertFail \/ e = NullDeref.
Section VECS.
  Variable Er : err -> Prop.
  Lemma buf_new_wp : forall F, wp Er buf_new F (fun b L => exists O, buf_owns b O /\ Permutation L (O ++ F)).
  Proof. intro F. unfold buf_new. run. eexists. split; [do 8 eexists; split; reflexivity|]. cbn [app]. perm. Qed.
  Lemma buf_load_wp : forall F, wp Er buf_load F (fun b L => exists O, buf_owns b O /\ Permutation L (O ++ F)).
  Proof.
    intro F. unfold buf_load. run. eapply wp_conseq; [apply buf_new_wp|]. cbn beta. intros b L (O & HO & P).
    destruct HO as (b0 & b1 & b2 & b3 & b4 & b5 & b6 & b7 & -> & ->). eapply wp_perm; [exact P|].
    cbn [bu_obj bu_value bu_bit_vector bu_compressed_data bu_compressed_indices bu_serialized_data bu_nbytes_scan bu_nnz_scan app]. run.
    eexists. split; [do 8 eexists; split; reflexivity|]. cbn [app]. perm.
  Qed.
  Lemma buf_delete_wp : forall b O F, buf_owns b O -> wp Er (buf_delete b) (O ++ F) (fun _ L => Permutation L F).
  Proof.
    intros b O F (b0 & b1 & b2 & b3 & b4 & b5 & b6 & b7 & -> & ->). unfold buf_delete.
    cbn [bu_obj bu_value bu_bit_vector bu_compressed_data bu_compressed_indices bu_serialized_data bu_nbytes_scan bu_nnz_scan app].
    run. reflexivity.
  Qed.
  Lemma buf_alloc_serialized_wp : forall b O F, buf_owns b O ->
    wp Er (buf_alloc_serialized b) (O ++ F) (fun b L => exists O, buf_owns b O /\ Permutation L (O ++ F)).
  Proof.
    intros b O F (b0 & b1 & b2 & b3 & b4 & b5 & b6 & b7 & -> & ->). unfold buf_alloc_serialized.
    cbn [bu_obj bu_value bu_bit_vector bu_compressed_data bu_compressed_indices bu_serialized_data bu_nbytes_scan bu_nnz_scan app].
    run. eexists. split; [do 8 eexists; split; reflexivity|]. cbn [app]. perm.
  Qed.
  Lemma buf_receive_wp : forall ser b O F, buf_owns b O ->
    wp Er (buf_receive ser b) (O ++ F) (fun b L => exists O, buf_owns b O /\ Permutation L (O ++ F)).
  Proof.
    intros [] b O F H; unfold buf_receive; [apply buf_alloc_serialized_wp; exact H|]. run. exists O. split; [exact H|reflexivity].
  Qed.
  Lemma buf_decompress_wp : forall ser b O F, buf_owns b O ->
    wp Er (buf_decompress ser b) (O ++ F) (fun b L => exists O, buf_owns b O /\ Permutation L (O ++ F)).
  Proof. intros [] b O F H; unfold buf_decompress; run; (exists O; split; [exact H|reflexivity]). Qed.
  Lemma buf_compress_wp : forall ser b O F, buf_owns b O ->
    wp Er (buf_compress ser b) (O ++ F) (fun b L => exists O, buf_owns b O /\ Permutation L (O ++ F)).
  Proof.
    intros [] b O F H; unfold buf_compress.
    - run. front O. eapply wp_conseq; [apply buf_alloc_serialized_wp; exact H|]. cbn beta. intros b' L (O' & HO & P).
      eapply wp_perm; [exact P|]. run. exists O'. split; [exact HO|reflexivity].
    - run. exists O. split; [exact H|reflexivity].
  Qed.
  Lemma bufs_delete_wp : forall bs Os F, Forall2 buf_owns bs Os -> wp Er (eachM buf_delete bs) (concat Os ++ F) (fun _ L => Permutation L F).
  Proof. intros. apply wp_each_drop with (P := buf_owns); [exact buf_delete_wp|assumption]. Qed.
  Lemma seg_delete_wp : forall s O F, seg_owns s O -> wp Er (seg_delete s) (O ++ F) (fun _ L => Permutation L F).
  Proof.
    intros [obj ps rs us] O F (b & Op & Or & Ou & E1 & HP & HR & HU & ->). cbn [sg_obj sg_properties sg_received sg_uninitialized] in *.
    subst obj. unfold seg_delete. cbn [sg_obj sg_properties sg_received sg_uninitialized].
    cbn [app]. rewrite <- !app_assoc. run.
    apply wp_conseq with (Q := fun _ L => Permutation L ((b, Object) :: concat Or ++ concat Ou ++ F)).
    { destruct ps as [p|]; cbn [opt_owns] in HP.
      - front Op. apply buf_delete_wp. exact HP.
      - subst Op. run. reflexivity. }
    cbn beta. intros _ L P. eapply wp_perm; [exact P|]. run. front (concat Or).
    eapply wp_conseq; [apply bufs_delete_wp; exact HR|]. cbn beta. intros ? L1 P1. eapply wp_perm; [exact P1|]. run. front (concat Ou).
    eapply wp_conseq; [apply bufs_delete_wp; exact HU|]. cbn beta. intros ? L2 P2. eapply wp_perm; [exact P2|]. run. reflexivity.
  Qed.
  Lemma seg_new_wp : forall F, wp Er seg_new F (fun s L => exists O, seg_owns s O /\ Permutation L (O ++ F)).
  Proof.
    intro F. unfold seg_new. run. eexists. split.
    - exists b, [], [], []. cbn. repeat split; constructor.
    - reflexivity.
  Qed.
  Lemma bufs_load_wp : forall n F, wp Er (eachM (fun _ : nat => buf_load) (seq 0 n)) F (fun bs L => exists Os, Forall2 buf_owns bs Os /\ Permutation L (concat Os ++ F)).
  Proof. intros. apply wp_each_make. intros. apply buf_load_wp. Qed.
  Lemma seg_load_wp : forall sv F, wp Er (seg_load sv) F (fun s L => exists O, seg_owns s O /\ Permutation L (O ++ F)).
  Proof.
    intros [props [nr nu]] F. unfold seg_load. run.
    apply wp_conseq with (Q := fun p L => exists Op, opt_owns p Op /\ Permutation L (Op ++ (b, Object) :: F)).
    { destruct props.
      - run. eapply wp_conseq; [apply buf_load_wp|]. cbn beta. intros b1 L (O & HO & P). run. exists O. split; [exact HO|exact P].
      - run. exists []. split; reflexivity. }
    cbn beta. intros p L (Op & HP & P). run. eapply wp_conseq; [apply bufs_load_wp|]. cbn beta. intros rs L1 (Or & HR & P1). run.
    eapply wp_conseq; [apply bufs_load_wp|]. cbn beta. intros us L2 (Ou & HU & P2). run.
    eexists. split; [exists b, Op, Or, Ou; cbn [sg_obj sg_properties sg_received sg_uninitialized]; repeat split; assumption|].
    cbn [app]. perm.
  Qed.
  Lemma seg_alloc_wp : forall s O F, seg_owns s O ->
    wp Er (seg_alloc s) (O ++ F) (fun r L => exists b Op Or Ou, sg_obj s = At b /\ buf_owns (snd r) Op /\ Forall2 buf_owns (sg_received s) Or /\
      Forall2 buf_owns (sg_uninitialized s) Ou /\ fst r = mkSeg (sg_obj s) (Some (snd r)) (sg_received s) (sg_uninitialized s) /\
      Permutation L (Op ++ (b, Object) :: concat Or ++ concat Ou ++ F)).
  Proof.
    intros [obj ps rs us] O F (b & Op & Or & Ou & E1 & HP & HR & HU & ->). unfold seg_alloc. cbn [sg_obj sg_properties sg_received sg_uninitialized] in *.
    subst obj. destruct ps as [p|].
    - run. exists b, Op, Or, Ou. cbn [fst snd]. repeat split; try assumption. perm.
    - cbn [opt_owns] in HP. subst Op. run. eapply wp_conseq; [apply buf_new_wp|]. cbn beta. intros b1 L (O & HO & P). run.
      exists b, O, Or, Ou. cbn [fst snd]. repeat split; try assumption. perm.
  Qed.
End VECS.
Lemma Forall2_rev_own : forall bs Os, Forall2 buf_owns bs Os -> Forall2 buf_owns (rev bs) (rev Os).
Proof. induction 1; cbn; [constructor|]. apply Forall2_app; [assumption|constructor; [assumption|constructor]]. Qed.
Lemma cnt_concat_rev : forall x Os, cnt x (concat (rev Os)) = cnt x (concat Os).
Proof.
  induction Os as [|O Os IH]; [reflexivity|]. cbn [rev concat]. rewrite concat_app, !cnt_app, IH. cbn [concat]. rewrite cnt_app, cnt_nil. lia.
Qed.
Ltac owned b Op Or Ou := eexists; split; [exists b, Op, Or, Ou; cbn [sg_obj sg_properties sg_received sg_uninitialized]; repeat split; try eassumption|].
Lemma seg_op_wp : forall s o O F, seg_owns s O ->
  wp misuse (seg_op s o) (O ++ F) (fun s' L => exists O', seg_owns s' O' /\ Permutation L (O' ++ F)).
Proof.
  intros s o O F H. destruct o as [|ser squeeze|ser squeeze| |ser|ser|ser]; cbn [seg_op].
  - run. eapply wp_conseq; [apply seg_alloc_wp; exact H|]. cbn beta. intros r L (b & Op & Or & Ou & E1 & HP & HR & HU & E2 & P). run.
    rewrite E2. owned b Op Or Ou. cbn [app]. perm.
  - run. eapply wp_conseq; [apply seg_alloc_wp; exact H|]. cbn beta. intros r L (b & Op & Or & Ou & E1 & HP & HR & HU & E2 & P).
    destruct squeeze.
    + run. eapply wp_perm; [exact P|]. eapply wp_conseq; [apply buf_compress_wp; exact HP|]. cbn beta. intros b1 L1 (O1 & HO1 & P1).
      run. owned b O1 Or Ou. cbn [app]. perm.
    + run. rewrite E2. owned b Op Or Ou. cbn [app]. perm.
  - destruct H as (b & Op & Or & Ou & E1 & HP & HR & HU & ->). destruct (sg_properties s) as [p|] eqn:EP; cbn [opt_owns] in HP.
    + destruct squeeze.
      * run. eapply wp_perm with (L' := Op ++ (b, Object) :: concat Or ++ concat Ou ++ F); [perm|].
        eapply wp_conseq; [apply buf_decompress_wp; exact HP|]. cbn beta. intros b1 L1 (O1 & HO1 & P1).
        run. owned b O1 Or Ou. cbn [app]. perm.
      * run. owned b Op Or Ou; [rewrite EP; exact HP|]. cbn [app]. perm.
    + apply wp_fail. unfold misuse. auto.
  - destruct H as (b & Op & Or & Ou & E1 & HP & HR & HU & ->). run. owned b Op (@nil blks) (Ou ++ Or); [constructor|apply Forall2_app; assumption|].
    cbn [concat app]. perm.
  - destruct H as (b & Op & Or & Ou & E1 & HP & HR & HU & ->). apply Forall2_rev_own in HU.
    assert (PU : Permutation (concat Ou) (concat (rev Ou))) by (apply perm_cnt; intro x; symmetry; apply cnt_concat_rev).
    revert HU PU. generalize (rev Ou). intros Ov HU PU.
    destruct (rev (sg_uninitialized s)) as [|u us] eqn:EU.
    + inversion HU; subst Ov. cbn [concat] in PU. run. eapply wp_conseq; [apply buf_new_wp|]. cbn beta. intros b1 L (O1 & HO1 & P).
      eapply wp_perm; [exact P|]. run. eapply wp_conseq; [apply buf_receive_wp; exact HO1|]. cbn beta. intros b2 L2 (O2 & HO2 & P2).
      run. owned b Op (Or ++ [O2]) (@nil blks); [apply Forall2_app; [assumption|constructor; [exact HO2|constructor]]|]. perm.
    + inversion HU as [|? O1 ? Or1 HO1 HU1 EE1 EE2]; subst Ov. cbn [concat] in PU. run.
      eapply wp_perm with (L' := O1 ++ (b, Object) :: Op ++ concat Or ++ concat Or1 ++ F); [perm|].
      eapply wp_conseq; [apply buf_receive_wp; exact HO1|]. cbn beta. intros b2 L2 (O2 & HO2 & P2).
      run. owned b Op (Or ++ [O2]) (rev Or1); [apply Forall2_app; [assumption|constructor; [exact HO2|constructor]]|apply Forall2_rev_own; exact HU1|].
      assert (PV : Permutation (concat Or1) (concat (rev Or1))) by (apply perm_cnt; intro y; symmetry; apply cnt_concat_rev). perm.
  - destruct H as (b & Op & Or & Ou & E1 & HP & HR & HU & ->). destruct (sg_properties s) as [p|] eqn:EP; cbn [opt_owns] in HP.
    + run. eapply wp_perm with (L' := Op ++ (b, Object) :: concat Or ++ concat Ou ++ F); [perm|].
      eapply wp_conseq; [apply buf_receive_wp; exact HP|]. cbn beta. intros b1 L1 (O1 & HO1 & P1).
      run. owned b O1 Or Ou. cbn [app]. perm.
    + apply wp_fail. unfold misuse. auto.
  - run. eapply wp_conseq; [apply seg_alloc_wp; exact H|]. cbn beta. intros r L (b & Op & Or & Ou & E1 & HP & HR & HU & E2 & P).
    eapply wp_perm; [exact P|]. run. destruct ser.
    + front (concat Or). eapply wp_conseq; [apply wp_each_keep with (P := buf_owns) (P' := buf_owns); [intros; apply buf_decompress_wp; assumption|exact HR]|].
      cbn beta. intros bs L1 (Or1 & HR1 & P1). run. owned b Op Or1 Ou. cbn [app]. perm.
    + run. owned b Op Or Ou. cbn [app]. perm.
Qed.

Lemma on_seg_wp : forall f k ss Os F,
  (forall s O F, seg_owns s O -> wp misuse (f s) (O ++ F) (fun s' L => exists O', seg_owns s' O' /\ Permutation L (O' ++ F))) ->
  Forall2 seg_owns ss Os ->
  wp misuse (on_seg f k ss) (concat Os ++ F) (fun ss' L => exists Os', Forall2 seg_owns ss' Os' /\ Permutation L (concat Os' ++ F)).
Proof.
  intros f k ss Os F Hf H. revert k F. induction H as [|s O ss Os HO H IH]; intros k F; cbn [on_seg concat].
  - destruct k; cbn [on_seg]; apply wp_fail; unfold misuse; auto.
  - rewrite <- app_assoc. destruct k as [|k]; cbn [on_seg].
    + run. eapply wp_conseq; [apply Hf; exact HO|]. cbn beta. intros s' L (O' & HO' & P). run. exists (O' :: Os). split; [constructor; assumption|]. perm.
    + run. front (concat Os). eapply wp_conseq; [apply IH|]. cbn beta. intros ss' L (Os' & HO' & P). run. exists (O :: Os'). split; [constructor; assumption|]. perm.
Qed.
Lemma seg_ops_wp : forall (ops : list (nat * mop)) ss Os F, Forall2 seg_owns ss Os ->
  wp misuse (foldM (fun ss o => on_seg (fun s => seg_op s (snd o)) (fst o) ss) ops ss) (concat Os ++ F)
     (fun ss' L => exists Os', Forall2 seg_owns ss' Os' /\ Permutation L (concat Os' ++ F)).
Proof.
  induction ops as [|o ops IH]; intros ss Os F H; cbn [foldM].
  - run. exists Os. split; [exact H|reflexivity].
  - run. eapply wp_conseq; [apply on_seg_wp; [intros; apply seg_op_wp; assumption|exact H]|]. cbn beta. intros ss' L (Os' & HO' & P).
    eapply wp_perm; [exact P|]. apply IH. exact HO'.
Qed.
Lemma mvec_ops_wp : forall ops v O F, vec_owns v O ->
  wp misuse (mvec_ops ops v) (O ++ F) (fun v' L => exists O', vec_owns v' O' /\ Permutation L (O' ++ F)).
Proof.
  intros ops [obj ss] O F (b & Os & E1 & H & ->). cbn [vc_obj vc_segments] in *. subst obj. unfold mvec_ops. cbn [vc_obj vc_segments app].
  run. front (concat Os). eapply wp_conseq; [apply seg_ops_wp; exact H|]. cbn beta. intros ss' L (Os' & HO' & P). run.
  eexists. split; [exists b, Os'; repeat split; exact HO'|]. cbn [app]. perm.
Qed.
Section VECS2.
  Variable Er : err -> Prop.
  Lemma mvec_new_wp : forall n F, wp Er (mvec_new n) F (fun v L => exists O, vec_owns v O /\ Permutation L (O ++ F)).
  Proof.
    intros n F. unfold mvec_new. run. eapply wp_conseq; [apply wp_each_make with (P := seg_owns); intros; apply seg_new_wp|].
    cbn beta. intros ss L (Os & H & P). run. eexists. split; [exists b, Os; repeat split; exact H|]. cbn [app]. perm.
  Qed.
  Lemma mvec_load_wp : forall sv F, wp Er (mvec_load sv) F (fun v L => exists O, vec_owns v O /\ Permutation L (O ++ F)).
  Proof.
    intros sv F. unfold mvec_load. run. eapply wp_conseq; [apply wp_each_make with (P := seg_owns); intros; apply seg_load_wp|].
    cbn beta. intros ss L (Os & H & P). run. eexists. split; [exists b, Os; repeat split; exact H|]. cbn [app]. perm.
  Qed.
  Lemma mvec_delete_wp : forall v O F, vec_owns v O -> wp Er (mvec_delete v) (O ++ F) (fun _ L => Permutation L F).
  Proof.
    intros [obj ss] O F (b & Os & E1 & H & ->). cbn [vc_obj vc_segments] in *. subst obj. unfold mvec_delete. cbn [vc_obj vc_segments app].
    run. front (concat Os). eapply wp_conseq; [apply wp_each_drop with (P := seg_owns); [exact (seg_delete_wp Er)|exact H]|].
    cbn beta. intros ? L P. eapply wp_perm; [exact P|]. run. reflexivity.
  Qed.
  Definition array_owns (p : ptr) (O : blks) : Prop := exists b, p = At b /\ O = [(b, Array)].
  Lemma arrays_new_wp : forall n F, wp Er (eachM (fun _ : nat => new_array) (seq 0 n)) F
    (fun ps L => exists Os, Forall2 array_owns ps Os /\ Permutation L (concat Os ++ F)).
  Proof. intros. apply wp_each_make. intros. run. eexists. split; [exists b; split; reflexivity|reflexivity]. Qed.
  Lemma arrays_delete_wp : forall ps Os F, Forall2 array_owns ps Os -> wp Er (eachM delete_array ps) (concat Os ++ F) (fun _ L => Permutation L F).
  Proof.
    intros. apply wp_each_drop with (P := array_owns); [|assumption]. intros a O F1 (b & -> & ->). cbn [app]. run. reflexivity.
  Qed.
End VECS2.
(** how many blocks one ingest keeps *)
Definition ingest_keeps (new_nnz : Z) : nat := if 0 <? new_nnz then 1 else 3.
Lemma mvec_ingest_wp : forall nr new_nnz touched v O F, vec_owns v O ->
  wp misuse (mvec_ingest nr new_nnz touched v) (O ++ F)
     (fun v' L => exists O' K, vec_owns v' O' /\ length K = ingest_keeps new_nnz /\ Permutation L (O' ++ K ++ F)).
Proof.
  intros nr new_nnz touched v O F H. unfold mvec_ingest, ingest_keeps. run.
  eapply wp_conseq; [apply arrays_new_wp|]. cbn beta. intros msgs L (Os & HM & P). eapply wp_perm; [exact P|]. run.
  front (concat Os). eapply wp_conseq; [apply arrays_delete_wp; exact HM|]. cbn beta. intros ? L1 P1. eapply wp_perm; [exact P1|]. run.
  destruct (0 <? new_nnz).
  - run. front O. eapply wp_conseq; [apply mvec_ops_wp; exact H|]. cbn beta. intros v' L2 (O' & HO' & P2). eapply wp_perm; [exact P2|]. run.
    exists O', [(b, Array)]. split; [exact HO'|]. split; [reflexivity|]. cbn [app]. perm.
  - run. front O. eapply wp_conseq; [apply mvec_ops_wp; exact H|]. cbn beta. intros v' L2 (O' & HO' & P2). eapply wp_perm; [exact P2|]. run.
    exists O', [(b9, Aligned); (b7, Aligned); (b, Array)]. split; [exact HO'|]. split; [reflexivity|]. cbn [app]. perm.
Qed.

(** ** edge lists of the graph code *)
Lemma ml_clear_wp : forall E (l : mlist E) F Er (Q : mlist E -> blks -> Prop),
  (if 0 <? el_nnz (ml_list l) then exists b F', ml_edges l = At b /\ Permutation F ((b, Aligned) :: F') /\ Q ml_default F' else Q ml_default F) ->
  wp Er (ml_clear l) F Q.
Proof.
  intros E l F Er Q H. unfold ml_clear. apply wp_bind. destruct (0 <? el_nnz (ml_list l)).
  - destruct H as (b & F' & -> & P & HQ). unfold mm_free. eapply wp_give; [exact P|]. apply wp_ret. exact HQ.
  - apply wp_ret. apply wp_ret. exact H.
Qed.

(** ** graphs *)
Definition opt_mat (m : option (ptr * mmat)) (O : blks) : Prop := match m with None => O = [] | Some m => matp_owns m O end.
Definition opt_vec (v : option mvec) (O : blks) : Prop := match v with None => O = [] | Some v => vec_owns v O end.
Definition graph_owns (g : mgraph) (O : blks) : Prop :=
  exists Oa Ot Ov Oc, opt_mat (mg_A g) Oa /\ opt_mat (mg_AT g) Ot /\ opt_vec (mg_vp g) Ov /\ opt_vec (mg_active g) Oc /\
    O = Oa ++ Ot ++ Ov ++ Oc.
Definition space_owns (w : mvec * mvec) (O : blks) : Prop :=
  exists Ox Oy, vec_owns (fst w) Ox /\ vec_owns (snd w) Oy /\ O = Ox ++ Oy.
Definition opt_space (w : option (mvec * mvec)) (O : blks) : Prop := match w with None => O = [] | Some w => space_owns w O end.

Lemma mvec_setAll_wp : forall mine v O F, vec_owns v O ->
  wp misuse (mvec_setAll mine v) (O ++ F) (fun v' L => exists O', vec_owns v' O' /\ Permutation L (O' ++ F)).
Proof. intros. apply mvec_ops_wp. assumption. Qed.
Lemma mg_vectors_wp : forall nseg mine F,
  wp misuse (mg_vectors nseg mine) F (fun r L => exists Ov Oc, vec_owns (fst r) Ov /\ vec_owns (snd r) Oc /\ Permutation L (Ov ++ Oc ++ F)).
Proof.
  intros nseg mine F. unfold mg_vectors. run. eapply wp_conseq; [apply mvec_new_wp|]. cbn beta. intros v L (O & HO & P).
  eapply wp_perm; [exact P|]. run. front O. eapply wp_conseq; [apply mvec_setAll_wp; exact HO|]. cbn beta. intros v1 L1 (O1 & HO1 & P1).
  eapply wp_perm; [exact P1|]. run. eapply wp_conseq; [apply mvec_new_wp|]. cbn beta. intros a L2 (O2 & HO2 & P2).
  eapply wp_perm; [exact P2|]. run. eapply wp_conseq; [apply mvec_setAll_wp; exact HO2|]. cbn beta. intros a1 L3 (O3 & HO3 & P3).
  run. exists O1, O3. cbn [fst snd]. split; [exact HO1|]. split; [exact HO3|]. perm.
Qed.
Lemma mg_ReadEdgelist_wp : forall nr nseg mine cA cT g F,
  wp misuse (mg_ReadEdgelist nr nseg mine cA cT g) F (fun g' L => exists O, graph_owns g' O /\ Permutation L (O ++ F)).
Proof.
  intros. unfold mg_ReadEdgelist. run. eapply wp_conseq; [apply mat_build_wp|]. cbn beta. intros a L (O & HO & P). run.
  eapply wp_perm; [exact P|]. eapply wp_conseq; [apply mat_transpose_wp|]. cbn beta. intros t L1 (O1 & HO1 & P1).
  eapply wp_perm; [exact P1|]. run. eapply wp_conseq; [apply mg_vectors_wp|]. cbn beta. intros vs L2 (Ov & Oc & HV & HC & P2). run.
  eexists. split.
  - exists ((b, Object) :: O), O1, Ov, Oc. cbn [mg_A mg_AT mg_vp mg_active opt_mat opt_vec]. repeat split; try assumption.
    exists b, O. repeat split. exact HO.
  - perm.
Qed.
Lemma mg_ReadGraphMatBin_wp : forall nseg mine cA cT g F,
  wp misuse (mg_ReadGraphMatBin nseg mine cA cT g) F (fun g' L => exists O, graph_owns g' O /\ Permutation L (O ++ F)).
Proof.
  intros. unfold mg_ReadGraphMatBin. run. eapply wp_conseq; [apply mat_load_wp|]. cbn beta. intros a L (O & HO & P). 
  eapply wp_perm; [exact P|]. run. eapply wp_conseq; [apply mat_load_wp|]. cbn beta. intros t L1 (O1 & HO1 & P1).
  eapply wp_perm; [exact P1|]. run. eapply wp_conseq; [apply mg_vectors_wp|]. cbn beta. intros vs L2 (Ov & Oc & HV & HC & P2). run.
  eexists. split.
  - exists ((b, Object) :: O), ((b0, Object) :: O1), Ov, Oc. cbn [mg_A mg_AT mg_vp mg_active opt_mat opt_vec]. repeat split; try assumption.
    + exists b, O. repeat split. exact HO.
    + exists b0, O1. repeat split. exact HO1.
  - perm.
Qed.
Definition load_keeps (l : mload) : nat := match l with LFile nnz _ _ => if 0 <? nnz then 0 else 1 | _ => 0 end.
Lemma load_graph_wp : forall nr nseg mine l g F,
  wp misuse (load_graph nr nseg mine l g) F (fun g' L => exists O K, graph_owns g' O /\ length K = load_keeps l /\ Permutation L (O ++ K ++ F)).
Proof.
  intros nr nseg mine l g F. destruct l as [a t|nnz a t|a t]; cbn [load_graph load_keeps].
  - eapply wp_conseq; [apply mg_ReadEdgelist_wp|]. cbn beta. intros g' L (O & HO & P). exists O, []. auto.
  - unfold mg_ReadMTX, ml_load_edgelist. run. eapply wp_conseq; [apply mg_ReadEdgelist_wp|]. cbn beta. intros g' L (O & HO & P). run.
    apply ml_clear_wp. cbn [ml_list el_nnz ml_edges]. destruct (0 <? nnz).
    + exists b, (O ++ F). split; [reflexivity|]. split; [perm|]. run. exists O, []. split; [exact HO|]. split; [reflexivity|]. cbn [app]. reflexivity.
    + run. exists O, [(b, Aligned)]. split; [exact HO|]. split; [reflexivity|]. cbn [app]. exact P.
  - eapply wp_conseq; [apply mg_ReadGraphMatBin_wp|]. cbn beta. intros g' L (O & HO & P). exists O, []. auto.
Qed.
Lemma mg_destroy_wp : forall Er g O F, graph_owns g O -> wp Er (mg_destroy g) (O ++ F) (fun _ L => Permutation L F).
Proof.
  intros Er [a t v c] O F (Oa & Ot & Ov & Oc & HA & HT & HV & HC & ->). cbn [mg_A mg_AT mg_vp mg_active] in *.
  unfold mg_destroy. cbn [mg_A mg_AT mg_vp mg_active]. rewrite <- !app_assoc. run.
  apply wp_conseq with (Q := fun _ L => Permutation L (Ot ++ Ov ++ Oc ++ F)).
  { destruct a as [a|]; [apply mat_delete_wp; exact HA|]. cbn in HA. subst Oa. run. reflexivity. }
  cbn beta. intros _ L P. eapply wp_perm; [exact P|]. run.
  apply wp_conseq with (Q := fun _ L => Permutation L (Ov ++ Oc ++ F)).
  { destruct t as [t|]; [apply mat_delete_wp; exact HT|]. cbn in HT. subst Ot. run. reflexivity. }
  cbn beta. intros _ L1 P1. eapply wp_perm; [exact P1|]. run.
  apply wp_conseq with (Q := fun _ L => Permutation L (Oc ++ F)).
  { destruct v as [v|]; [apply mvec_delete_wp; exact HV|]. cbn in HV. subst Ov. run. reflexivity. }
  cbn beta. intros _ L2 P2. eapply wp_perm; [exact P2|].
  destruct c as [c|]; [apply mvec_delete_wp; exact HC|]. cbn in HC. subst Oc. run. reflexivity.
Qed.
Lemma onv_wp : forall v ops O F, opt_vec v O ->
  wp misuse (onv v ops) (O ++ F) (fun v' L => exists O', opt_vec v' O' /\ Permutation L (O' ++ F)).
Proof.
  intros [v|] ops O F H; cbn [onv opt_vec] in *; [|apply wp_fail; unfold misuse; auto].
  run. eapply wp_conseq; [apply mvec_ops_wp; exact H|]. cbn beta. intros v' L (O' & HO' & P). run. exists O'. split; [exact HO'|exact P].
Qed.
Definition both_own (s : mgraph * (mvec * mvec)) (O : blks) : Prop :=
  exists Og Ow, graph_owns (fst s) Og /\ space_owns (snd s) Ow /\ O = Og ++ Ow.
Lemma do_part_wp : forall s p O F, both_own s O ->
  wp misuse (do_part s p) (O ++ F) (fun s' L => exists O', both_own s' O' /\ Permutation L (O' ++ F)).
Proof.
  intros [[a t v c] [x y]] p O F (Og & Ow & (Oa & Ot & Ov & Oc & HA & HT & HV & HC & ->) & (Ox & Oy & HX & HY & ->) & ->).
  cbn [fst snd mg_A mg_AT mg_vp mg_active] in *. rewrite <- !app_assoc.
  destruct p as [ops|ops|ops|ops]; cbn [do_part mg_A mg_AT mg_vp mg_active]; run.
  - front Ov. eapply wp_conseq; [apply onv_wp; exact HV|]. cbn beta. intros v' L (O' & HO' & P). run.
    eexists. split; [exists (Oa ++ Ot ++ O' ++ Oc), (Ox ++ Oy); split; [exists Oa, Ot, O', Oc|split; [exists Ox, Oy|reflexivity]]; repeat split; assumption|perm].
  - front Oc. eapply wp_conseq; [apply onv_wp; exact HC|]. cbn beta. intros v' L (O' & HO' & P). run.
    eexists. split; [exists (Oa ++ Ot ++ Ov ++ O'), (Ox ++ Oy); split; [exists Oa, Ot, Ov, O'|split; [exists Ox, Oy|reflexivity]]; repeat split; assumption|perm].
  - front Ox. eapply wp_conseq; [apply mvec_ops_wp; exact HX|]. cbn beta. intros v' L (O' & HO' & P). run.
    eexists. split; [exists (Oa ++ Ot ++ Ov ++ Oc), (O' ++ Oy); split; [exists Oa, Ot, Ov, Oc|split; [exists O', Oy|reflexivity]]; repeat split; assumption|perm].
  - front Oy. eapply wp_conseq; [apply mvec_ops_wp; exact HY|]. cbn beta. intros v' L (O' & HO' & P). run.
    eexists. split; [exists (Oa ++ Ot ++ Ov ++ Oc), (Ox ++ O'); split; [exists Oa, Ot, Ov, Oc|split; [exists Ox, O'|reflexivity]]; repeat split; assumption|perm].
Qed.
Lemma parts_wp : forall ps s O F, both_own s O ->
  wp misuse (foldM do_part ps s) (O ++ F) (fun s' L => exists O', both_own s' O' /\ Permutation L (O' ++ F)).
Proof.
  induction ps as [|p ps IH]; intros s O F H; cbn [foldM].
  - run. exists O. split; [exact H|reflexivity].
  - run. eapply wp_conseq; [apply do_part_wp; exact H|]. cbn beta. intros s' L (O' & HO' & P). eapply wp_perm; [exact P|]. apply IH. exact HO'.
Qed.
Lemma new_space_wp : forall nseg mine F, wp misuse (new_space nseg mine) F (fun w L => exists O, space_owns w O /\ Permutation L (O ++ F)).
Proof.
  intros nseg mine F. unfold new_space. run. eapply wp_conseq; [apply mvec_new_wp|]. cbn beta. intros v L (O & HO & P).
  eapply wp_perm; [exact P|]. run. eapply wp_conseq; [apply mvec_setAll_wp; exact HO|]. cbn beta. intros v1 L1 (O1 & HO1 & P1).
  eapply wp_perm; [exact P1|]. run. eapply wp_conseq; [apply mvec_new_wp|]. cbn beta. intros a L2 (O2 & HO2 & P2).
  eapply wp_perm; [exact P2|]. run. eapply wp_conseq; [apply mvec_setAll_wp; exact HO2|]. cbn beta. intros a1 L3 (O3 & HO3 & P3).
  run. eexists. split; [exists O1, O3; cbn [fst snd]; repeat split; assumption|]. perm.
Qed.
Lemma delete_space_wp : forall w O F, space_owns w O -> wp misuse (delete_space w) (O ++ F) (fun _ L => Permutation L F).
Proof.
  intros w O F (Ox & Oy & HX & HY & ->). unfold delete_space. rewrite <- app_assoc. run.
  eapply wp_conseq; [apply mvec_delete_wp; exact HX|]. cbn beta. intros _ L P. eapply wp_perm; [exact P|]. apply mvec_delete_wp. exact HY.
Qed.
Definition state_owns (s : mstate) (O : blks) : Prop :=
  exists Og Ow, graph_owns (ms_graph s) Og /\ opt_space (ms_space s) Ow /\ O = Og ++ Ow.

(** the blocks kept by an action, beside those of the graph and the workspace *)
Definition act_keeps (a : mact) : nat := match a with ASave _ new_nnz _ => ingest_keeps new_nnz | _ => 0 end.
(** a workspace is made only when there is none *)
Definition act_ok (s : mstate) (a : mact) : Prop := match a with AInit => ms_space s = None | _ => True end.
Definition has_space (before : bool) (a : mact) : bool := match a with AInit => true | AClear => false | _ => before end.
Definition spaced (s : mstate) : bool := match ms_space s with Some _ => true | None => false end.
Lemma act_wp : forall nr nseg mine s a O F, state_owns s O -> act_ok s a ->
  wp misuse (act nr nseg mine s a) (O ++ F)
     (fun s' L => spaced s' = has_space (spaced s) a /\ exists O' K, state_owns s' O' /\ length K = act_keeps a /\ Permutation L (O' ++ K ++ F)).
Proof.
  intros nr nseg mine [g w] a O F (Og & Ow & HG & HW & ->) OKA. cbn [ms_graph ms_space] in *. rewrite <- app_assoc.
  destruct a as [vo co|ps| |ps| |here new_nnz touched| |]; cbn [act ms_graph ms_space act_keeps has_space].
  - destruct HG as (Oa & Ot & Ov & Oc & HA & HT & HV & HC & ->). rewrite <- !app_assoc. run. front Ov.
    eapply wp_conseq; [apply onv_wp; exact HV|]. cbn beta. intros v' L (O1 & HO1 & P1). eapply wp_perm; [exact P1|]. run. front Oc.
    eapply wp_conseq; [apply onv_wp; exact HC|]. cbn beta. intros c' L2 (O2 & HO2 & P2). run. split; [reflexivity|].
    eexists. exists []. split; [exists (Oa ++ Ot ++ O1 ++ O2), Ow; split; [exists Oa, Ot, O1, O2; repeat split; assumption|split; [exact HW|reflexivity]]|].
    split; [reflexivity|perm].
  - unfold run_program. run. eapply wp_conseq; [apply new_space_wp|]. cbn beta. intros w1 L (O1 & HO1 & P1). cbn [ms_graph ms_space].
    eapply wp_perm with (L' := (Og ++ O1) ++ Ow ++ F); [perm|]. run.
    eapply wp_conseq; [apply parts_wp; exists Og, O1; repeat split; assumption|]. cbn beta. intros [g' w'] L2 (O2 & (Og' & Ow' & HG' & HW' & ->) & P2).
    cbn [fst snd] in *. eapply wp_perm with (L' := Ow' ++ Og' ++ Ow ++ F); [perm|]. run.
    eapply wp_conseq; [apply delete_space_wp; exact HW'|]. cbn beta. intros _ L3 P3. run. split; [reflexivity|].
    eexists. exists []. split; [exists Og', Ow; split; [exact HG'|split; [exact HW|reflexivity]]|]. split; [reflexivity|perm].
  - cbn [act_ok ms_space] in OKA. subst w. cbn in HW. subst Ow. run. eapply wp_conseq; [apply new_space_wp|]. cbn beta. intros w1 L (O1 & HO1 & P1).
    run. split; [reflexivity|]. eexists. exists []. split; [exists Og, O1; split; [exact HG|split; [exact HO1|reflexivity]]|]. split; [reflexivity|perm].
  - unfold run_program. cbn [ms_graph ms_space]. destruct w as [w|]; [|apply wp_fail; unfold misuse; auto]. cbn [opt_space] in HW. run. rewrite app_assoc.
    eapply wp_conseq; [apply parts_wp; exists Og, Ow; repeat split; assumption|]. cbn beta. intros [g' w'] L2 (O2 & (Og' & Ow' & HG' & HW' & ->) & P2).
    cbn [fst snd] in *. run. split; [reflexivity|]. eexists. exists []. split; [exists Og', Ow'; split; [exact HG'|split; [exact HW'|reflexivity]]|].
    split; [reflexivity|perm].
  - destruct w as [w|]; [|apply wp_fail; unfold misuse; auto]. cbn [opt_space] in HW. run. front Ow.
    eapply wp_conseq; [apply delete_space_wp; exact HW|]. cbn beta. intros _ L P. run. split; [reflexivity|].
    eexists. exists []. split; [exists Og, []; split; [exact HG|split; [reflexivity|reflexivity]]|]. split; [reflexivity|perm].
  - unfold mg_saveVertexproperty. destruct (mg_vp g) as [v|] eqn:EV; [|apply wp_bind; apply wp_fail; unfold misuse; auto].
    unfold ml_get_edges. cbn [el_nnz]. run.
    apply wp_conseq with (Q := fun (l : mlist unit) L => el_nnz (ml_list l) = here /\
      exists M, (if 0 <? here then exists b, ml_edges l = At b /\ M = [(b, Aligned)] else M = []) /\ Permutation L (M ++ Og ++ Ow ++ F)).
    { destruct (0 <? here).
      - run. split; [reflexivity|]. exists [(b, Aligned)]. split; [exists b; split; reflexivity|reflexivity].
      - run. split; [reflexivity|]. exists []. split; [reflexivity|reflexivity]. }
    cbn beta. intros l L (N & M & HM & P). eapply wp_perm; [exact P|]. run.
    eapply wp_conseq; [apply mvec_new_wp|]. cbn beta. intros v1 L1 (O1 & HO1 & P1). eapply wp_perm; [exact P1|]. run.
    eapply wp_conseq; [apply mvec_ingest_wp; exact HO1|]. cbn beta. intros v2 L2 (O2 & K & HO2 & HK & P2). run.
    apply ml_clear_wp. rewrite N. 
    assert (C : wp misuse (mvec_delete v2) (O2 ++ K ++ Og ++ Ow ++ F) (fun _ L' => wp misuse (ret (mkMS g w)) L' (fun s' L0 => spaced s' = spaced (mkMS g w) /\ exists O' K0, state_owns s' O' /\ length K0 = ingest_keeps new_nnz /\ Permutation L0 (O' ++ K0 ++ F)))).
    { eapply wp_conseq; [apply mvec_delete_wp; exact HO2|]. cbn beta. intros _ L3 P3. run. split; [reflexivity|].
      eexists. exists K. split; [exists Og, Ow; split; [exact HG|split; [exact HW|reflexivity]]|]. split; [exact HK|perm]. }
    destruct (0 <? here).
    + destruct HM as (b & Eb & ->). exists b, (O2 ++ K ++ Og ++ Ow ++ F). split; [exact Eb|]. split; [perm|]. exact C.
    + subst M. eapply wp_perm; [exact P2|]. cbn [app]. exact C.
  - unfold mg_getEdgelist. destruct (mg_A g) as [a|] eqn:EA; [|apply wp_bind; apply wp_fail; unfold misuse; auto].
    unfold ml_get_edges. cbn [el_nnz]. run. 
    apply wp_conseq with (Q := fun (l : mlist unit) L => el_nnz (ml_list l) = mat_nnz (snd a) /\
      if 0 <? mat_nnz (snd a) then exists b, ml_edges l = At b /\ L = (b, Aligned) :: Og ++ Ow ++ F else L = Og ++ Ow ++ F).
    { destruct (0 <? mat_nnz (snd a)).
      - run. split; [reflexivity|]. exists b. split; reflexivity.
      - run. split; reflexivity. }
    cbn beta. intros l L (N & HM). run. apply ml_clear_wp. rewrite N.
    assert (C : wp misuse (ret tt) (Og ++ Ow ++ F) (fun _ L' => wp misuse (ret (mkMS g w)) L' (fun s' L0 => spaced s' = spaced (mkMS g w) /\ exists O' K0, state_owns s' O' /\ length K0 = 0%nat /\ Permutation L0 (O' ++ K0 ++ F)))).
    { run. split; [reflexivity|]. eexists. exists []. split; [exists Og, Ow; split; [exact HG|split; [exact HW|reflexivity]]|]. split; [reflexivity|perm]. }
    destruct (0 <? mat_nnz (snd a)).
    + destruct HM as (b & Eb & ->). exists b, (Og ++ Ow ++ F). split; [exact Eb|]. split; [reflexivity|]. exact C.
    + subst L. exact C.
  - unfold mg_applyReduceAllVertices. destruct (mg_vp g) as [v|] eqn:EV; [|apply wp_bind; apply wp_fail; unfold misuse; auto].
    run. apply wp_conseq with (Q := fun _ L => Permutation L (Og ++ Ow ++ F)).
    { clear. generalize (Og ++ Ow ++ F). induction mine as [|k mine IH]; intro F1; cbn [eachM]; run; [reflexivity|].
      eapply wp_conseq; [apply IH|]. cbn beta. intros ? L P. run. exact P. }
    cbn beta. intros _ L P. eapply wp_perm; [exact P|]. run. split; [reflexivity|].
    eexists. exists []. split; [exists Og, Ow; split; [exact HG|split; [exact HW|reflexivity]]|]. split; [reflexivity|perm].
Qed.
