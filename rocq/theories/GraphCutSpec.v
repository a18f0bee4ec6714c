(** Files of GraphMat's own binary format after a save that was interrupted: how they are found.  A
    file is a sequence of items (GraphBin.v); a cut inside the bytes of an item counts as a cut before
    that item, since the item then cannot be read. *)
From Verif Require Import Base DCSC SpMat GraphBin.

Section Spec.
  Context {E : Type}.
  (** some beginning of what was to be written, which may be all of it, or no file *)
  Definition survived (whole : list (item E)) (found : option (list (item E))) : Prop :=
    found = None \/ exists kept lost, found = Some kept /\ whole = kept ++ lost.
  (** the same, and something is missing *)
  Definition damaged (whole : list (item E)) (found : option (list (item E))) : Prop :=
    found = None \/ exists kept item lost, found = Some kept /\ whole = kept ++ item :: lost.
End Spec.
