(** When the levels of a multi-resolution map fit together. *)
From Coq Require Import Reals ZArith List.
From Verif.Base Require Import Outcome Num EReal.
From Verif.Model Require Import Geometry Pyramid.
From Verif.Spec Require Import PyramidSpec.
Import ListNotations.
Local Open Scope R_scope.

Section Consistent.
  Context {C : Type}.
  Variables (proto : C) (impact : C -> ER) (is_unknown : C -> bool).
  (** the cell [f] of the finest level lies inside the cell [c] of the level [l]; in a level of infinite scale, whose cells are the
      whole plane: [f] is a cell of the map *)
  Definition lies_in (finest l : level ER C) (f c : coord) : Prop :=
    match lv_scale l with EInf false => level_has finest f | t => covers (lv_scale finest) t f c end.
  (** no observed finest cell has a greater impact than a coarser cell around it (up to one comparison tolerance), and a coarse cell
      around nothing observed has at least the impact of a cell never observed *)
  Definition consistent (p : pyramid ER C) : Prop :=
    forall finest j l c, nth_error (py_levels p) 0 = Some finest -> (0 < j)%nat -> nth_error (py_levels p) j = Some l -> level_has l c ->
      (forall f, lies_in finest l f c -> is_unknown (lv_cells finest f) = false -> impact_le 1 (impact (lv_cells finest f)) (impact (lv_cells l c))) /\
      ((forall f, lies_in finest l f c -> is_unknown (lv_cells finest f) = true) -> impact_le 1 (impact proto) (impact (lv_cells l c))).
End Consistent.
