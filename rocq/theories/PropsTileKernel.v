(** C66: multiplying with the tile formats that graphs do not use. *)
From Verif Require Import Base BaseLemmas Bits BitsProofs Segment Reduce DCSC EdgeList EdgeSpec EdgeFinal MatSpec TileProofs Conc ParSeg Kernel Tiles TilesProofs DcsrProofs SimdProofs SimdFinal HybridProofs TileKernel TileSpec TileKernelProofs TileKernelFinal.
Open Scope Z_scope.

(** A tile of rows (rs, rs+m] and columns (cs, cs+n], built from any list of entries inside it.  The
    input segment [(xw, xv)] has the message [X k] (or none) at column [cs + k + 1], the output segment
    [(w, v)] holds [M].  An entry (i, j, a) with a message x at column j has the product [mul a x].  The
    multiplication ends normally, adds each product exactly once to its row, touches nothing else, and
    all interleavings of its threads give the same segment.  [g] is what the memory behind an array
    contains where a constructor reads one element too far. *)
Theorem C66_coo {E T U} srt threads g (es : list (edge E)) m n rs cs (add : U -> U -> U) (mul : E -> T -> U) xw xv X w v M :
  sorts_ends srt -> 1 <= threads -> 0 <= m -> 0 <= n -> (forall e, In e es -> in_rect m n rs cs e) ->
  represents n xw xv X -> represents m w v M -> zlen es <> 1 \/ 1 <= g ->
  exists t w' v', coo_new srt threads (Some g) es m n rs cs = Ok t /\
    multiplies add (fun e => option_map (mul (e_val e)) (X (e_dst e - 1 - cs))) es m rs M (coo_multiply add xw (mul2 mul xv) t) w v w' v' /\
    every_schedule (coo_mpool add xw (mul2 mul xv) t) w v w' v'.
Proof. exact (fun Hs Ht Hm Hn He Rx Rw Hg => coo_mult threads es m n rs cs Ht Hm Hn He add xw xv X Rx srt mul g w v M Hs Hg Rw). Qed.
Print Assumptions C66_coo.

(** The hypothesis on tiles with one entry cannot be dropped: if the word behind the array of rows
    happens to be 0 or negative, the only entry of the tile is in no partition, and is never used. *)
Theorem C66_coo_single_entry_refuted {E T U} srt threads g (es : list (edge E)) m n rs cs (add : U -> U -> U) (mul : E -> T -> U) xw xv X :
  sorts_ends srt -> 1 <= threads -> 0 <= m -> 0 <= n -> (forall e, In e es -> in_rect m n rs cs e) ->
  represents n xw xv X -> zlen es = 1 -> g < 1 ->
  exists t, coo_new srt threads (Some g) es m n rs cs = Ok t /\ forall wv, coo_multiply add xw (mul2 mul xv) t wv = Ok wv.
Proof. exact (fun Hs Ht Hm Hn He Rx H1 Hg => coo_lost_one threads es m n rs cs Ht Hm Hn He add xw xv X Rx srt mul g Hs H1 Hg). Qed.
Print Assumptions C66_coo_single_entry_refuted.

(** The number of threads of the multiplication need not be that of the construction. *)
Theorem C66_csr {E T U} srt threads threads' (es : list (edge E)) m n rs cs (add : U -> U -> U) (mul : E -> T -> U) xw xv X w v M :
  sorts_ends srt -> 1 <= threads -> 1 <= threads' -> 0 <= m -> 0 <= n -> (forall e, In e es -> in_rect m n rs cs e) ->
  represents n xw xv X -> represents m w v M ->
  exists t pool w' v', csr_new srt threads es m n rs cs = Ok t /\
    multiplies add (fun e => option_map (mul (e_val e)) (X (e_dst e - 1 - cs))) es m rs M (csr_multiply add xw (mul2 mul xv) threads' t) w v w' v' /\
    csr_mpool add xw (mul2 mul xv) threads' t = Ok pool /\ every_schedule pool w v w' v'.
Proof. exact (fun Hs Ht Ht' Hm Hn He Rx Rw => csr_mult threads es m n rs cs Ht Hm Hn He add xw xv X Rx srt mul threads' w v M Hs Ht' Rw). Qed.
Print Assumptions C66_csr.

Theorem C66_dcsr {E T U} srt threads g (es : list (edge E)) m n rs cs (add : U -> U -> U) (mul : E -> T -> U) xw xv X w v M :
  sorts_ends srt -> 1 <= threads -> 0 <= m -> 0 <= n -> (forall e, In e es -> in_rect m n rs cs e) ->
  represents n xw xv X -> represents m w v M ->
  exists t w' v', dcsr_new srt threads (Some g) es m n rs cs = Ok t /\
    multiplies add (fun e => option_map (mul (e_val e)) (X (e_dst e - 1 - cs))) es m rs M (dcsr_multiply add xw (mul2 mul xv) t) w v w' v' /\
    every_schedule (dcsr_mpool add xw (mul2 mul xv) t) w v w' v'.
Proof. exact (fun Hs Ht Hm Hn He Rx Rw => dcsr_mult threads es m n rs cs Ht Hm Hn He add xw xv X Rx srt mul g w v M Hs Rw). Qed.
Print Assumptions C66_dcsr.

Theorem C66_coosimd32 {E T U} bsrt binsrt threads (es : list (edge E)) m n rs cs (add : U -> U -> U) (mul : E -> T -> U) xw xv X w v M :
  sorts bsrt -> (forall l, Permutation l (binsrt l)) -> 1 <= threads -> 0 <= m -> 0 <= n -> (forall e, In e es -> in_rect m n rs cs e) ->
  represents n xw xv X -> represents m w v M ->
  exists t w' v', simd_new bsrt binsrt threads es m n rs cs = Ok t /\
    multiplies add (fun e => option_map (mul (e_val e)) (X (e_dst e - 1 - cs))) es m rs M (simd_multiply add xw (mul2 mul xv) t) w v w' v' /\
    every_schedule (simd_mpool add xw (mul2 mul xv) t) w v w' v'.
Proof. exact (fun Hs Hb Ht Hm Hn He Rx Rw => simd_mult threads es m n rs cs Ht Hm Hn He add xw xv X Rx bsrt binsrt mul w v M Hs Hb Rw). Qed.
Print Assumptions C66_coosimd32.

(** The two parts of a hybrid tile are multiplied one after the other, each with its threads. *)
Theorem C66_hybrid {E T U} srt bsrt binsrt threads g (es : list (edge E)) m n rs cs (add : U -> U -> U) (mul : E -> T -> U) xw xv X w v M :
  sorts_ends srt -> sorts bsrt -> (forall l, Permutation l (binsrt l)) -> 1 <= threads -> 0 <= m -> 0 <= n -> (forall e, In e es -> in_rect m n rs cs e) -> es <> [] ->
  represents n xw xv X -> represents m w v M ->
  exists t w1 v1 w' v', hybrid_new srt bsrt binsrt threads (Some g) es m n rs cs = Ok t /\
    multiplies add (fun e => option_map (mul (e_val e)) (X (e_dst e - 1 - cs))) es m rs M (hybrid_multiply add xw (mul2 mul xv) t) w v w' v' /\
    every_schedule (dcsr_mpool add xw (mul2 mul xv) (h_t1 t)) w v w1 v1 /\ every_schedule (simd_mpool add xw (mul2 mul xv) (h_t2 t)) w1 v1 w' v'.
Proof. exact (fun H1 H2 H3 Ht Hm Hn He Hne Rx Rw => hybrid_mult threads es m n rs cs Ht Hm Hn He add xw xv X Rx srt bsrt binsrt mul g w v M H1 H2 H3 Hne Rw). Qed.
Print Assumptions C66_hybrid.

(** Products that also use the property [P k] of the row. *)
Theorem C66_coo_with_property {E T U V} srt threads g (es : list (edge E)) m n rs cs (add : U -> U -> U) (mul : E -> T -> V -> U) xw xv X vw vv P w v M :
  sorts_ends srt -> 1 <= threads -> 0 <= m -> 0 <= n -> (forall e, In e es -> in_rect m n rs cs e) ->
  represents n xw xv X -> represents m vw vv (fun k => Some (P k)) -> represents m w v M -> es <> [] -> zlen es <> 1 \/ 1 <= g ->
  exists t w' v', coo_new srt threads (Some g) es m n rs cs = Ok t /\
    multiplies add (fun e => option_map (fun x => mul (e_val e) x (P (e_src e - 1 - rs))) (X (e_dst e - 1 - cs))) es m rs M (coo_multiply3 add xw (mul3 mul xv vw vv) t) w v w' v' /\
    every_schedule (coo_mpool add xw (mul3 mul xv vw vv) t) w v w' v'.
Proof. exact (fun Hs Ht Hm Hn He Rx Rp Rw Hne Hg => coo_mult3 threads es m n rs cs Ht Hm Hn He add xw xv X Rx srt mul g vw vv P w v M Hs Hne Hg Rp Rw). Qed.
Print Assumptions C66_coo_with_property.

(** Without entries that multiplication counts partitions with a variable that was never set. *)
Theorem C66_coo_with_property_no_entries_refuted {E U} (srt : list (edge E) -> list (edge E)) threads past m n rs cs (add : U -> U -> U) xw f wv :
  exists t, coo_new srt threads past [] m n rs cs = Ok t /\ coo_multiply3 add xw f t wv = Err Uninit.
Proof. exact (coo_none3 srt threads past m n rs cs add xw f wv). Qed.
Print Assumptions C66_coo_with_property_no_entries_refuted.

(** 60 entries in a tile of 70 rows and 40 columns, offset by (100, 50); row 105 has 20 of them.  The
    even columns have messages; position 0 of the output holds 1000. *)
Definition c66_es : list (edge Z) := map (fun i => mkE (100 + 1 + (i * 37) mod 70) (50 + 1 + (i * 3) mod 40) i) (zrange 0 40) ++ map (fun i => mkE 105 (50 + 1 + i) (- i)) (zrange 0 20).
Definition c66_X (k : Z) : option Z := if Z.even k then Some (k + 1) else None.
Definition c66_xw : list Z := [1431655765; 85].
Definition c66_xv : list (option Z) := map c66_X (zrange 0 40).
Definition c66_M (k : Z) : option Z := if k =? 0 then Some 1000 else None.
Definition c66_w : list Z := [1; 0; 0].
Definition c66_v : list (option Z) := map c66_M (zrange 0 70).
Example C66_example_hypotheses : zlen c66_es = 60 /\ (forall e, In e c66_es -> in_rect 70 40 100 50 e) /\ represents 40 c66_xw c66_xv c66_X /\ represents 70 c66_w c66_v c66_M.
Proof.
  split; [reflexivity|]. split; [|split; apply represents_check; vm_compute; reflexivity].
  assert (forallb (fun e => (100 <? e_src e) && (e_src e <=? 100 + 70) && (50 <? e_dst e) && (e_dst e <=? 50 + 40)) c66_es = true) as H by (vm_compute; reflexivity).
  rewrite forallb_forall in H. intros e He. apply H in He. unfold in_rect. lia.
Qed.
(** the five formats give the same segment *)
Definition c66_result : R (list Z * list (option Z)) := do t <- csr_new esort 2 c66_es 70 40 100 50 ;; csr_multiply Z.add c66_xw (mul2 Z.mul c66_xv) 3 t (c66_w, c66_v).
Example C66_example :
  (do r <- c66_result ;; Ok (fst r, firstn 6 (snd r))) = Ok ([286331221; 286331153; 17], [Some 1000; None; Some 1044; None; Some (-1216); None]) /\
  (do t <- coo_new esort 2 (Some 0) c66_es 70 40 100 50 ;; coo_multiply Z.add c66_xw (mul2 Z.mul c66_xv) t (c66_w, c66_v)) = c66_result /\
  (do t <- dcsr_new esort 2 (Some 0) c66_es 70 40 100 50 ;; dcsr_multiply Z.add c66_xw (mul2 Z.mul c66_xv) t (c66_w, c66_v)) = c66_result /\
  (do t <- simd_new isort (@rev bin) 2 c66_es 70 40 100 50 ;; simd_multiply Z.add c66_xw (mul2 Z.mul c66_xv) t (c66_w, c66_v)) = c66_result /\
  (do t <- hybrid_new esort isort (@rev bin) 2 (Some 0) c66_es 70 40 100 50 ;; hybrid_multiply Z.add c66_xw (mul2 Z.mul c66_xv) t (c66_w, c66_v)) = c66_result.
Proof. repeat split; vm_compute; reflexivity. Qed.
(** the property of a row is its position *)
Example C66_example_property :
  let P k := k in (do t <- coo_new esort 2 (Some 0) c66_es 70 40 100 50 ;; do r <- coo_multiply3 Z.add c66_xw (mul3 (fun a x p => a * x * p) c66_xv [4294967295; 4294967295; 63] (map (fun k => Some (P k)) (zrange 0 70))) t (c66_w, c66_v) ;; Ok (firstn 6 (snd r))) =
    Ok [Some 1000; None; Some 2088; None; Some (-4864); None].
Proof. vm_compute. reflexivity. Qed.
(** one entry, and a word 0 behind the array *)
Example C66_example_lost : (do t <- coo_new esort 1 (Some 0) [mkE 1 1 5] 1 1 0 0 ;; coo_multiply Z.add [1] (mul2 Z.mul [Some 3]) t ([0], [None])) = Ok ([0], [None]) /\
  (do t <- coo_new esort 1 (Some 1) [mkE 1 1 5] 1 1 0 0 ;; coo_multiply Z.add [1] (mul2 Z.mul [Some 3]) t ([0], [None])) = Ok ([1], [Some 15]).
Proof. split; vm_compute; reflexivity. Qed.
