(** Properties C01, C20, C27, C34: index arithmetic.  Statements only; proofs in LayoutProofs. *)
From Verif Require Import Base Layout LayoutProofs.

(** C01.  For every thread count, number of ranks (= segments) and vertex count, the two
    relabelling functions are defined on 1..n (no division by zero), map 1..n into 1..n and are
    inverse to each other. *)
Theorem C01_relabel_bijection threads ranks n : 1 <= threads -> 1 <= ranks -> 0 <= n ->
  exists to from : Z -> Z,
    (forall v, 1 <= v <= n ->
       vertexToNative threads ranks n v = Ok (to v) /\ 1 <= to v <= n /\
       nativeToVertex threads ranks n v = Ok (from v) /\ 1 <= from v <= n) /\
    (forall v, 1 <= v <= n -> from (to v) = v /\ to (from v) = v).
Proof. exact (relabel_bijection threads ranks n). Qed.
Print Assumptions C01_relabel_bijection.

(** the relabelling is not the identity *)
Example C01_example : vertexToNative 1 2 70 2 = Ok 3 /\ nativeToVertex 1 2 70 3 = Ok 2 /\ vertexToNative 1 2 70 65 = Ok 65.
Proof. vm_compute. auto. Qed.

(** C20.  Segment boundaries: start at 0, end at n, monotone, interior ones multiples of 256 or
    n; each id of 1..n is mapped to the one segment containing it, other ids to -1; and the
    products formed on the way stay below n + 256*nseg (so no [int] overflow if that fits). *)
Theorem C20_segments_partition n nseg : 0 <= n -> 1 <= nseg ->
  zlen (starts n nseg) = nseg + 1 /\
  rd (starts n nseg) 0 = Ok 0 /\ rd (starts n nseg) nseg = Ok n /\
  (forall i a b, 0 <= i < nseg -> rd (starts n nseg) i = Ok a -> rd (starts n nseg) (i + 1) = Ok b ->
      0 <= a <= b /\ b <= n /\ (a mod 256 = 0 \/ a = n)) /\
  (forall v, 1 <= v <= n -> exists k a b,
      vec_getPartition n nseg v = Ok k /\ 0 <= k < nseg /\
      rd (starts n nseg) k = Ok a /\ rd (starts n nseg) (k + 1) = Ok b /\ a < v <= b /\
      (forall k' a' b', 0 <= k' < nseg -> rd (starts n nseg) k' = Ok a' -> rd (starts n nseg) (k' + 1) = Ok b' ->
         a' < v <= b' -> k' = k)) /\
  (forall v, ~ 1 <= v <= n -> vec_getPartition n nseg v = Ok (-1)) /\
  (forall j, 0 <= j <= nseg -> 0 <= block_size n nseg * j <= n + 256 * nseg).
Proof. exact (segments_partition n nseg). Qed.
Print Assumptions C20_segments_partition.

Example C20_example : starts 1000 3 = [0; 512; 1000; 1000] /\ vec_getPartition 1000 3 513 = Ok 1.
Proof. vm_compute. auto. Qed.

(** C27.  Tile boundaries coincide with vector segment boundaries, each entry lies in exactly
    one tile and [getPartition] returns it; every tile has an owner in 0..ranks-1. *)
Theorem C27_tiles_partition n t : 0 <= n -> 1 <= t ->
  mat_starts n t = starts n t /\
  (forall u v, 1 <= u <= n -> 1 <= v <= n -> exists i j a b c d,
     mat_getPartition n n t t u v = Ok (i, j, i + j * t) /\ 0 <= i < t /\ 0 <= j < t /\
     rd (mat_starts n t) i = Ok a /\ rd (mat_starts n t) (i + 1) = Ok b /\ a < u <= b /\
     rd (mat_starts n t) j = Ok c /\ rd (mat_starts n t) (j + 1) = Ok d /\ c < v <= d /\
     vec_getPartition n t u = Ok i /\ vec_getPartition n t v = Ok j /\
     (forall i' a' b', 0 <= i' < t -> rd (mat_starts n t) i' = Ok a' -> rd (mat_starts n t) (i' + 1) = Ok b' ->
         a' < u <= b' -> i' = i) /\
     (forall j' a' b', 0 <= j' < t -> rd (mat_starts n t) j' = Ok a' -> rd (mat_starts n t) (j' + 1) = Ok b' ->
         a' < v <= b' -> j' = j)).
Proof. exact (tiles_partition n t). Qed.
Print Assumptions C27_tiles_partition.

Theorem C27_tile_owners t nrank : 1 <= t -> 1 <= nrank ->
  exists ids, mat_nodeIds t t nrank = Ok ids /\ zlen ids = t * t /\
   (forall k r, rd ids k = Ok r -> 0 <= r < nrank).
Proof. exact (nodeIds_total t nrank). Qed.
Print Assumptions C27_tile_owners.

Example C27_example : mat_getPartition 1000 1000 3 3 600 5 = Ok (1, 0, 1) /\ mat_nodeIds 3 3 3 = Ok [0; 0; 0; 1; 1; 1; 2; 2; 2].
Proof. vm_compute. auto. Qed.

(** C34.  The two-factor split multiplies back to the rank count and no divisor strictly between
    the first factor and sqrt(ranks) exists; every tile-to-rank map stays in range; with
    ranks x ranks tiles every rank owns a tile. *)
Theorem C34_rank_assignment nrank : 1 <= nrank ->
  (exists a b, factorize_int nrank = Ok (a, b) /\ 1 <= a /\ 1 <= b /\ a * b = nrank /\
     (forall d, a < d -> (d | nrank) -> d * d > nrank \/ d = b)) /\
  (forall tx ty ntx nty, 0 <= tx -> 0 <= ty ->
     (exists r, partition_fn_2d tx ty ntx nty nrank = Ok r /\ 0 <= r < nrank) /\
     (exists r, partition_fn_1d tx ty ntx nty nrank = Ok r /\ 0 <= r < nrank)) /\
  (forall tile ntiles, 0 <= tile -> exists r, vector_partition_fn tile ntiles nrank = Ok r /\ 0 <= r < nrank) /\
  (forall r, 0 <= r < nrank -> exists tx ty, 0 <= tx < nrank /\ 0 <= ty < nrank /\
        partition_fn_2d tx ty nrank nrank nrank = Ok r) /\
  (forall layout, layout = 1 \/ layout = 2 \/ layout = 3 ->
      exists f nt, get_fn_and_tiles layout nrank = Ok (f, nt) /\ 1 <= nt <= nrank).
Proof. exact (rank_assignment nrank). Qed.
Print Assumptions C34_rank_assignment.

Example C34_example : factorize_int 12 = Ok (3, 4) /\ partition_fn_2d 5 4 8 8 12 = Ok 4.
Proof. vm_compute. auto. Qed.
