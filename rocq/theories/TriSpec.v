(** What src/TriangleCounting.cpp counts on a graph that may have parallel edges and self loops. *)
From Verif Require Import Base DCSC.
Local Open Scope Z_scope.
(** the number of edges from [u] to [v] *)
Definition parallel {E} (es : list (edge E)) (u v : Z) : Z := zlen (filter (fun e => (e_src e =? u) && (e_dst e =? v)) es).
Definition total (l : list Z) : Z := fold_right Z.add 0 l.
(** for each edge a->v and each c in 1..n: the smaller of the numbers of edges a->c and v->c *)
Definition closed_at {E} (n : Z) (es : list (edge E)) (v : Z) : Z :=
  total (map (fun e => total (map (fun c => Z.min (parallel es (e_src e) c) (parallel es v c)) (zrange 1 (n + 1)))) (filter (fun e => e_dst e =? v) es)).
Definition closed {E} (n : Z) (es : list (edge E)) : Z := total (map (closed_at n es) (zrange 1 (n + 1))).
