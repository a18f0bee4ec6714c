(** What the applications are supposed to compute, in terms of the edge list only. *)
From Verif Require Import Base DCSC.

(** how many edges leave and enter a vertex *)
Definition out_degree {E} (es : list (edge E)) (v : Z) : Z := zlen (filter (fun e => e_src e =? v) es).
Definition in_degree {E} (es : list (edge E)) (v : Z) : Z := zlen (filter (fun e => e_dst e =? v) es).

Section AppSpec.
  Variable es : list (edge Z).

  (** [walk u v w h]: from [u] to [v] along [h] edges of total weight [w] *)
  Inductive walk (u : Z) : Z -> Z -> nat -> Prop :=
  | walk_here : walk u u 0 0
  | walk_edge w h e : walk u (e_src e) w h -> In e es -> walk u (e_dst e) (w + e_val e) (S h).
  Definition reachable (u v : Z) : Prop := exists w h, walk u v w h.
  (** [h] is the least number of edges from [u] to [v] *)
  Definition hop_distance (u v : Z) (h : nat) : Prop :=
    (exists w, walk u v w h) /\ forall w' h', walk u v w' h' -> (h <= h')%nat.
  (** [w] is the least weight of a walk from [u] to [v] *)
  Definition distance (u v w : Z) : Prop :=
    (exists h, walk u v w h) /\ forall w' h', walk u v w' h' -> w <= w'.

  (** a walk together with the vertices it visits, last first *)
  Inductive path (u : Z) : list Z -> Z -> Z -> Prop :=
  | path_here : path u [u] u 0
  | path_edge vs w e : path u vs (e_src e) w -> In e es -> path u (e_dst e :: vs) (e_dst e) (w + e_val e).
  (** a path that visits no vertex twice, prolonged by one edge, weighs less than [W] *)
  Definition sums_below (W u : Z) : Prop :=
    forall vs w e, path u vs (e_src e) w -> NoDup vs -> In e es -> w + e_val e < W.
  Definition sums_fit (u : Z) : Prop := sums_below (2 ^ 32 - 1) u.

  (** [v] lies on a cycle or can be reached from one *)
  Definition behind_cycle (v : Z) : Prop := exists x w h w' h', walk x x w (S h) /\ walk x v w' h'.
  Definition acyclic : Prop := forall x w h, walk x x w h -> h = O.
  (** [h]: the largest number of edges of a walk that ends in [v] *)
  Definition longest_walk_to (v : Z) (h : nat) : Prop :=
    (exists x w, walk x v w h) /\ forall x w h', walk x v w h' -> (h' <= h)%nat.

  Definition has_edge (u v : Z) : Prop := exists e, In e es /\ e_src e = u /\ e_dst e = v.
  (** [l] lists, once each, the triples (a, b, c) with edges a->b, b->c, a->c *)
  Definition triangles (l : list (Z * Z * Z)) : Prop :=
    NoDup l /\ forall a b c, In (a, b, c) l <-> has_edge a b /\ has_edge b c /\ has_edge a c.
  (** at most one edge between two vertices in each direction *)
  Definition simple_edges : Prop := NoDup (map (fun e => (e_src e, e_dst e)) es).
End AppSpec.

(** [k] is the number of the vertices of 1..n with property [p] *)
Definition counts (n : Z) (p : Z -> Prop) (k : Z) : Prop :=
  exists l, NoDup l /\ (forall v, In v l <-> 1 <= v <= n /\ p v) /\ k = zlen l.
