(** * Edge files of float and double weights *)
From Coq Require Import ZArith SpecFloat QArith.
From Verif Require Import Base BaseLemmas ListLemmas DCSC EdgeList EdgeSpec Apps FileIO FileSpec FileFinal Float32 Double64 FloatText FloatTextScan FloatTextSpec FloatTextProofs.
Local Open Scope Z_scope.

(** ** C84 *)
(** Every rank of a run writes its edges with float weights to text files; afterwards [nr] ranks load them.  They
    get the same edges in the same order, each weight [v] replaced by [f v]: off by at most 10^-8, unchanged from
    1/8 on and where 8 decimals are enough, 0 below half of 10^-8, in the same order (FloatTextSpec.v).  Writing
    what was loaded gives the same files byte for byte, so further trips change nothing more.
    [f] depends on nothing but the weight. *)
Theorem C84_text_float : exists f, through_text finite32 8 (1 # 8) f /\ forall other wide fm d (els : list (elist spec_float)) ls nr,
  binary fm = false -> weights fm = true -> Forall2 holds els ls ->
  (forall el, In el els -> is_int (el_m el) /\ is_int (el_n el)) ->
  (forall e, In e (concat ls) -> is_int (e_src e) /\ is_int (e_dst e) /\ finite32 (e_val e)) ->
  zlen (concat ls) < 2 ^ 31 -> 1 <= nr -> (forall i, zlen els <= i -> file_at d i = None) ->
  let ls' := map (map (reweigh f)) ls in
  exists d', write_edgelist (w_float other) fm d els = Ok d' /\
    (forall els', Forall2 holds els' ls' -> map (@el_m _) els' = map (@el_m _) els -> map (@el_n _) els' = map (@el_n _) els ->
       write_edgelist (w_float other) fm d els' = Ok d') /\
    exists f0, forall fuel, (f0 <= fuel)%nat ->
      let m := if header fm then maxl (map (@el_m _) els) else maxl (map (@e_src _) (concat ls)) in
      let n := if header fm then maxl (map (@el_n _) els) else maxl (map (@e_dst _) (concat ls)) in
      load_edgelist (w_float other) wide fuel fm nr d' = Ok (map (fun r => mkEL (map Some (dealt nr ls' r)) m n (zlen (dealt nr ls' r))) (zrange 0 nr)).
Proof.
  exists (reread 24 128 8). split; [exact through32|]. intros other wide fm d els ls nr Hb Hw.
  exact (text_trip (w_float other) wide fm (reread 24 128 8) finite32 (print_f 8) (scan_f 24 128 other) Hb Hw eq_refl print32 (fun v => text_ok32 other fm v Hb) d els ls nr).
Qed.
Print Assumptions C84_text_float.
(** The same with double weights: 15 decimals, unchanged from 8 on. *)
Theorem C84_text_double : exists f, through_text finite64 15 8 f /\ forall other wide fm d (els : list (elist spec_float)) ls nr,
  binary fm = false -> weights fm = true -> Forall2 holds els ls ->
  (forall el, In el els -> is_int (el_m el) /\ is_int (el_n el)) ->
  (forall e, In e (concat ls) -> is_int (e_src e) /\ is_int (e_dst e) /\ finite64 (e_val e)) ->
  zlen (concat ls) < 2 ^ 31 -> 1 <= nr -> (forall i, zlen els <= i -> file_at d i = None) ->
  let ls' := map (map (reweigh f)) ls in
  exists d', write_edgelist (w_double other) fm d els = Ok d' /\
    (forall els', Forall2 holds els' ls' -> map (@el_m _) els' = map (@el_m _) els -> map (@el_n _) els' = map (@el_n _) els ->
       write_edgelist (w_double other) fm d els' = Ok d') /\
    exists f0, forall fuel, (f0 <= fuel)%nat ->
      let m := if header fm then maxl (map (@el_m _) els) else maxl (map (@e_src _) (concat ls)) in
      let n := if header fm then maxl (map (@el_n _) els) else maxl (map (@e_dst _) (concat ls)) in
      load_edgelist (w_double other) wide fuel fm nr d' = Ok (map (fun r => mkEL (map Some (dealt nr ls' r)) m n (zlen (dealt nr ls' r))) (zrange 0 nr)).
Proof.
  exists (reread 53 1024 15). split; [exact through64|]. intros other wide fm d els ls nr Hb Hw.
  exact (text_trip (w_double other) wide fm (reread 53 1024 15) finite64 (print_f 15) (scan_f 53 1024 other) Hb Hw eq_refl print64 (fun v => text_ok64 other fm v Hb) d els ls nr).
Qed.
Print Assumptions C84_text_double.
(** In binary files every float and every double (infinities and a NaN too) comes back as it was. *)
Theorem C84_binary other wide fm d (els : list (elist spec_float)) ls nr (double : bool) :
  let w := if double then w_double other else w_float other in
  binary fm = true -> weights fm = true -> Forall2 holds els ls ->
  (forall el, In el els -> is_int (el_m el) /\ is_int (el_n el)) ->
  (forall e, In e (concat ls) -> is_int (e_src e) /\ is_int (e_dst e) /\
     (if double then valid_binary 53 1024 (e_val e) else valid_binary 24 128 (e_val e)) = true) ->
  zlen (concat ls) < 2 ^ 31 -> 1 <= nr -> (forall i, zlen els <= i -> file_at d i = None) ->
  exists d', write_edgelist w fm d els = Ok d' /\ exists f0, forall fuel, (f0 <= fuel)%nat ->
    let m := if header fm then maxl (map (@el_m _) els) else maxl (map (@e_src _) (concat ls)) in
    let n := if header fm then maxl (map (@el_n _) els) else maxl (map (@e_dst _) (concat ls)) in
    load_edgelist w wide fuel fm nr d' = Ok (map (fun r => mkEL (map Some (dealt nr ls r)) m n (zlen (dealt nr ls r))) (zrange 0 nr)).
Proof.
  intros w Hb Hw Hh Hd He Hl Hn Ha. destruct (round_trip w wide fm d els ls nr) as (d' & E & f0 & H); auto.
  - intros X. congruence.
  - intros e Ie. destruct (He e Ie) as (H1 & H2 & H3). split; [exact H1|]. split; [exact H2|]. unfold w. destruct double; [apply bin_ok64|apply bin_ok32]; assumption.
  - exists d'. split; [exact E|]. exists f0. intros fuel Hf. specialize (H fuel Hf). cbv zeta in H |- *. rewrite H. f_equal. apply map_ext. intros r. f_equal. unfold back. rewrite Hw, map_id. reflexivity.
Qed.
Print Assumptions C84_binary.

(** Three doubles: the sum of 0.1 and 0.2 as a double, 2^-60 and -2.5.  Written they are 0.300000000000000,
    0.000000000000000 and -2.500000000000000. *)
Definition c84_other (f : stream) : option spec_float * stream := (None, f).
Definition c84_sum : spec_float := S754_finite false 5404319552844596 (-54).
Definition c84_small : spec_float := S754_finite false 4503599627370496 (-112).
Definition c84_25 : spec_float := S754_finite true 5629499534213120 (-51).
Definition c84_l : list (list (edge spec_float)) := [[mkE 1 2 c84_sum; mkE 3 1 c84_small]; [mkE 2 2 c84_25]].
Definition c84_els : list (elist spec_float) := map (fun l => mkEL (map Some l) 3 3 (zlen l)) c84_l.
Definition c84_fm : fmt := mkFmt false true true.
Example C84_example_hypotheses :
  Forall2 holds c84_els c84_l /\ (forall e, In e (concat c84_l) -> is_int (e_src e) /\ is_int (e_dst e) /\ finite64 (e_val e)) /\
  (forall e, In e (concat c84_l) -> valid_binary 53 1024 (e_val e) = true).
Proof.
  split; [repeat constructor; exists []; reflexivity|]. split; cbn; intros e [<-|[<-|[<-|[]]]]; unfold is_int, finite64; cbn; auto; repeat split; lia || reflexivity || exact I.
Qed.
(** the sum comes back as the literal 0.3, the rest of it lost *)
Example C84_example :
  print_f 15 c84_sum = [48; 46; 51] ++ repeat 48 14 /\
  exists d', write_edgelist (w_double c84_other) c84_fm [] c84_els = Ok d' /\
    load_edgelist (w_double c84_other) (fun z => z) 8 c84_fm 1 d' =
      Ok [mkEL [Some (mkE 1 2 lit_03); Some (mkE 3 1 (S754_zero false)); Some (mkE 2 2 c84_25)] 3 3 3] /\ lit_03 <> c84_sum.
Proof. split; [vm_compute; reflexivity|]. eexists. split; [vm_compute; reflexivity|]. split; [vm_compute; reflexivity|]. vm_compute. discriminate. Qed.
