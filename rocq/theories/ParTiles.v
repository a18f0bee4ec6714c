(** The parallel loops of the tile formats that graphs do not use (COOTile.h, CSRTile.h, DCSRTile.h,
    COOSIMD32Tile.h; HybridTile.h has none of its own) as pools of threads, in the manner of
    ParLoop.v.  The sequential versions are in Tiles.v.  The loops inside [#ifdef __DEBUG] are left out,
    and the [assert] of COOSIMD32Tile.h:315, which repeats the check before it. *)
From Verif Require Import Base Segment Conc Search DCSC EdgeList Tiles ParLoop.

Section ParTiles.
  Context {E : Type}.

  (** include/GMDP/matrices/COOTile.h:153-164 and CSRTile.h:141-146, the three [map]s of [coo_new] and
      [csr_new]; arrays: a, ja, ia (CSRTile: jia) *)
  Definition split_t (row_start col_start : Z) (edges : list (edge E)) : list (thread loc4 (cell4 (option E) (option Z) (option Z) unit)) :=
    parfor (zlen edges) (fun i =>
      par e <- plift (rd edges i) ;;
      par _ <- put1 i (Some (e_val e)) ;;
      par _ <- put2 i (Some (e_dst e - col_start)) ;;
      put3 i (Some (e_src e - row_start))).
  (** COOTile.h:172-188 and COOSIMD32Tile.h:200-219, the second [mapR] of [coo_new] and [simd_new];
      [search] is the search in [ia]; array: partition_start *)
  Definition starts_t (search : Z -> R Z) (m rpp np : Z) : list (thread loc4 (cell4 (option Z) unit unit unit)) :=
    parfor np (fun p =>
      let start_row := Z.min (p * rpp) m in
      let end_row := Z.min ((p + 1) * rpp) m in
      par s <- plift (search (start_row + 1)) ;;
      par _ <- plift (search (end_row + 1)) ;;
      put1 p (Some s)).
  (** COOTile.h:196-201 and COOSIMD32Tile.h:373-378, [coo_export]; array: edges *)
  Definition export_t (nnz : Z) (a : list E) (ja ia : list Z) (row_start col_start : Z) : list (thread loc4 (cell4 (option (edge E)) unit unit unit)) :=
    parfor nnz (fun i =>
      par v <- plift (rd a i) ;; par d <- plift (rd ja i) ;; par s <- plift (rd ia i) ;;
      put1 i (Some (mkE (s + row_start) (d + col_start) v))).

  (** CSRTile.h:207-214, the loop of [csr_get_edges]; array: edges *)
  Definition csr_edges_t (t : @csr E) (row_start col_start : Z) : list (thread loc4 (cell4 (option (edge E)) unit unit unit)) :=
    parfor (s_m t) (fun i =>
      par lo <- plift (rd (s_ia t) i) ;; par hi <- plift (rd (s_ia t) (i + 1)) ;;
      ploop lo hi (fun nz (_ : unit) =>
        par d <- plift (rd (s_ja t) (nz - 1)) ;; par v <- plift (rd (s_a t) (nz - 1)) ;;
        put1 (nz - 1) (Some (mkE (i + row_start + 1) (d + col_start) v))) tt).
  (** DCSRTile.h:232-240, the loop of [dcsr_get_edges]; arrays: edges, and what iteration [i] adds to
      nnzcnt *)
  Definition dcsr_edges_t (t : @dcsr E) (row_start col_start : Z) : list (thread loc4 (cell4 (option (edge E)) (option Z) unit unit)) :=
    parfor (d_num_rows t) (fun i =>
      par lo <- plift (rd (d_ia t) i) ;; par hi <- plift (rd (d_ia t) (i + 1)) ;;
      par cnt <- ploop lo hi (fun nz cnt =>
        par r <- plift (rd (d_rows t) i) ;; par d <- plift (rd (d_ja t) nz) ;; par v <- plift (rd (d_a t) nz) ;;
        par _ <- put1 nz (Some (mkE (r + row_start + 1) (d + col_start + 1) v)) ;;
        pret (cnt + 1)) 0 ;;
      put2 i (Some cnt)).

  (** ** COOSIMD32Tile.h *)
  Notation aprog := (@prog (option E) (option Z) Z (option Z)).
  (** lines 282-287, 302-306: [copy_edge]; arrays: a, ja, ia, simd_nnz *)
  Definition copy_edge_t (tmp : list (tedge E)) (start eid cnt : Z) : aprog Z :=
    par e <- plift (rd tmp eid) ;;
    par _ <- put2 (cnt + start) (Some (e_dst (snd e))) ;;
    par _ <- put3 (cnt + start) (e_src (snd e)) ;;
    par _ <- put1 (cnt + start) (Some (e_val (snd e))) ;;
    pret (cnt + 1).
  (** lines 272-291: [rotate] *)
  Fixpoint rotate_t (tmp : list (tedge E)) (borders : list Z) (start : Z) (bins : list bin) (rot full cnt : Z) : aprog (list bin * Z * Z) :=
    match bins with
    | [] => pret ([], full, cnt)
    | b :: rest =>
      par r <- (if 0 <? num_left b then
                  par lo <- plift (rd borders (p32 b)) ;;
                  let eid := lo + num_taken b in
                  let b := mkBin (p32 b) (num_total b) (num_left b - 1) (num_taken b + 1) in
                  par cnt <- copy_edge_t tmp start eid cnt ;;
                  pret (b, rot + 1, if num_left b =? 0 then full - 1 else full, cnt)
                else pret (b, rot, full, cnt)) ;;
      let '(b, rot, full, cnt) := r in
      if rot =? 32 then pret (b :: rest, full, cnt) else
      par q <- rotate_t tmp borders start rest rot full cnt ;;
      let '(rest, full, cnt) := q in
      pret (b :: rest, full, cnt)
    end.
  (** lines 268-292: [rotations] *)
  Fixpoint rotations_t (k : nat) (tmp : list (tedge E)) (borders : list Z) (start : Z) (bins : list bin) (full cnt : Z) : aprog (list bin * Z) :=
    if 32 <=? full then
      match k with
      | O => plift (Err NoFuel)
      | S k =>
        par r <- rotate_t tmp borders start bins 0 full cnt ;;
        let '(bins, full, cnt) := r in
        rotations_t k tmp borders start bins full cnt
      end
    else pret (bins, cnt).
  (** lines 235-252: [simd_borders]; borders is private *)
  Definition borders_t (lo hi start_row nparts : Z) : aprog (list Z) :=
    let room := Z.to_nat (nparts + 1) in
    par st <- ploop lo hi (fun eid (st : list (option Z) * Z) =>
        par r <- get3 eid ;;
        plift (set_borders room (fst st) (snd st) (Z.quot (r - start_row - 1) 32) eid)) (repeat None room, 0) ;;
    par st <- plift (set_borders room (fst st) (snd st) nparts hi) ;;
    plift (mapR need (fst st)).
  (** lines 224-318: [simd_part] *)
  Definition simd_arrays_t (binsrt : list bin -> list bin) (tmp : list (tedge E)) (ps : list Z) (m rpp np : Z)
      : list (thread loc4 (cell4 (option E) (option Z) Z (option Z))) :=
    parfor np (fun p =>
      let start_row := Z.min (p * rpp) m in
      let end_row := Z.min ((p + 1) * rpp) m in
      par lo <- plift (rd ps p) ;; par hi <- plift (rd ps (p + 1)) ;;
      let nparts := Z.quot (end_row - start_row + 31) 32 in
      par borders <- borders_t lo hi start_row nparts ;;
      par bins <- plift (mapR (fun b => do x <- rd borders b ;; do y <- rd borders (b + 1) ;; Ok (mkBin b (y - x) (y - x) 0)) (zrange 0 nparts)) ;;
      let full := zlen (filter (fun b => 0 <? num_total b) bins) in
      par r <- rotations_t (S (Z.to_nat (hi - lo))) tmp borders lo (binsrt bins) full 0 ;;
      let '(bins, nnzsimd) := r in
      par _ <- put4 p (Some nnzsimd) ;;
      par cnt <- peach (fun cnt b =>
        ploop (num_taken b) (num_total b) (fun taken cnt =>
          par x <- plift (rd borders (p32 b)) ;; copy_edge_t tmp lo (x + taken) cnt) cnt) bins nnzsimd ;;
      if negb (cnt =? hi - lo) then plift (Err ExitCall) else pret tt).
End ParTiles.
