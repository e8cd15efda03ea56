(** The GMapping observation probability without a cache, over the reals. *)
From Coq Require Import Reals ZArith.
Local Open Scope R_scope.

(** [best_agreement full agree window sp v]: [v] is the best agreement of the full enough cells at most [window] cells away from
    [sp] on each axis, and 0 if there are none *)
Definition near (window : Z) (sp c : Z * Z) : Prop := (Z.abs (fst c - fst sp) <= window /\ Z.abs (snd c - snd sp) <= window)%Z.
Definition best_agreement (full : Z * Z -> Prop) (agree : Z * Z -> R) (window : Z) (sp : Z * Z) (v : R) : Prop :=
  (forall c, near window sp c -> full c -> agree c <= v) /\
  ((exists c, near window sp c /\ full c /\ v = agree c) \/ v = 0).
