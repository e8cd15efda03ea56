(** What the statements about multi-resolution maps say. *)
From Coq Require Import Reals ZArith List.
From Verif.Base Require Import Outcome Num EReal.
From Verif.Model Require Import Geometry Pyramid.
Import ListNotations.
Local Open Scope R_scope.

(** cell [c] of a level of scale [coarse] covers cell [f] of a level of scale [fine]: the square of [f] lies in the square of [c]
    (cell x of scale s spans [s x, s (x + 1)]).  A level of infinite scale has one cell for the whole plane, (0, 0). *)
Definition covers (fine coarse : ER) (f c : coord) : Prop :=
  match fine, coarse with
  | EFin s, EFin t =>
      t * IZR (cx c) <= s * IZR (cx f) /\ s * (IZR (cx f) + 1) <= t * (IZR (cx c) + 1) /\
      t * IZR (cy c) <= s * IZR (cy f) /\ s * (IZR (cy f) + 1) <= t * (IZR (cy c) + 1)
  | EFin _, EInf false => c = (0, 0)%Z
  | _, _ => False
  end.

(** [x]'s impact is at most [y]'s impact plus [n] comparison tolerances *)
Definition impact_le (n : nat) (x y : ER) : Prop :=
  exists a b, x = EFin a /\ y = EFin b /\ a <= b + INR n * (1 / 10000000).

(** a map level contains the cell *)
Definition level_has {D C} (l : level D C) (c : coord) : Prop :=
  (0 <= cx c + cx (lv_origin l) < lv_w l)%Z /\ (0 <= cy c + cy (lv_origin l) < lv_h l)%Z.

(** what a user of a rescalable map can do with it: choose a level by scale or number, write a cell through the plain
    rescalable map or through the M3RSM map, run some of these in a scope with a scoped rescaled view *)
Section Use.
  Context {D C : Type} {ops : DOps D}.
  Variables (proto : C) (grow : Z -> Z -> coord -> coord -> Z * Z * coord) (impact : C -> D) (is_unknown : C -> bool).
  Inductive uses : pyramid D C -> pyramid D C -> Prop :=
  | u_nothing p : uses p p
  | u_rescale p t q r : rescale proto p t = Ok q -> uses q r -> uses p r
  | u_set_scale p i q r : set_scale_id proto p i = Ok q -> uses q r -> uses p r
  | u_write p c f q r : py_write grow p c f = Ok q -> uses q r -> uses p r
  | u_m3_write p fuel c f q r : m3_write proto grow impact is_unknown fuel p c f = Ok q -> uses q r -> uses p r
  | u_scope p body b q r : body p = Ok b -> uses p b -> with_safe_rescaling proto p body = Ok q -> uses q r -> uses p r.
End Use.
