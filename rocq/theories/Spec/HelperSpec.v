(** The minor direction of a scan: the counterpart of [dominating] of DirectionSpec. *)
From Coq Require Import Reals ZArith List.
From Verif.Spec Require Import CellSpec DirectionSpec.
Import ListNotations.
Local Open Scope R_scope.

(** [phi] is the mean of the least populated of [n] equal parts of [0, pi) (of the first one if there are several) *)
Definition least_populated (n : nat) (angles : list R) (phi : R) : Prop :=
  exists i, (i < n)%nat /\
    (forall j, (j < n)%nat -> (length (column n i angles) <= length (column n j angles))%nat) /\
    (forall j, (j < i)%nat -> (length (column n i angles) < length (column n j angles))%nat) /\
    phi = Rmean (column n i angles).
