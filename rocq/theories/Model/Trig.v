(** Model of src/core/trigonometry_utils.h [CachedTrigonometryProvider]. *)
From Coq Require Import ZArith List Bool.
From Verif.Base Require Import Outcome Num.
From Verif.Model Require Import MathUtils Geometry Sensor.
Import ListNotations.
Local Open Scope Z_scope.
Local Open Scope outcome_scope.

Section Trig.
  Context {D : Type} {ops : DOps D}.
  Variables (dcos dsin : D -> D).         (* std::cos, std::sin *)

  (** trigonometry_utils.h:80-84 (fields) *)
  Record tcache := mkTC { tc_sin : list D; tc_cos : list D; tc_sb : D; tc_cb : D; tc_min : D; tc_max : D; tc_delta : D }.

  (** trigonometry_utils.h:57-60 *)
  Definition tc_set_base (t : tcache) (a : D) : tcache :=
    mkTC (tc_sin t) (tc_cos t) (dsin a) (dcos a) (tc_min t) (tc_max t) (tc_delta t).
  (** trigonometry_utils.h:39-43 *)
  Definition tc_new : tcache := tc_set_base (mkTC [] [] (dofZ 0) (dofZ 0) (dofZ 0) (dofZ 0) (dofZ 0)) (dofZ 0).

  (** trigonometry_utils.h:74-77: the loop; the angles pushed *)
  Fixpoint tc_angles (fuel : nat) (angle a_max delta : D) : outcome (list D) :=
    if dlt angle a_max then
      match fuel with
      | O => OutOfFuel
      | S fuel => l <- tc_angles fuel (dadd angle delta) a_max delta ;; Ok (angle :: l)
      end
    else Ok [].
  (** trigonometry_utils.h:62-78.  [angles_nm] (line 71) converts a double to int (undefined if it does not fit) and is
      given to [reserve], which has no other effect for a nonnegative count; a negative count makes reserve throw (Abort) *)
  Definition tc_update (fuel : nat) (a_min a_max a_inc : D) (t : tcache) : outcome tcache :=
    if deq a_min (tc_min t) && deq a_max (tc_max t) && deq a_inc (tc_delta t) then Ok t
    else
      nm <- trunc_int (dadd (ddiv (dsub a_max a_min) a_inc) (dofZ 1)) ;;
      _ <- assert_ (0 <=? nm) ;;
      l <- tc_angles fuel a_min a_max a_inc ;;
      Ok (mkTC (map dsin l) (map dcos l) (tc_sb t) (tc_cb t) a_min a_max a_inc).

  (** std::round: half away from zero; [f + 0.5] is exact for |f| < 2^51, beyond that the result does not fit in int anyway *)
  Definition round_int (x : D) : outcome Z :=
    match dfloor x with
    | None => UB
    | Some f =>
        let h := dadd (dofZ f) (dlit 1 2) in
        let up := if dlt x (dofZ 0) then dlt h x else dle h x in
        to_int (Some (if up then f + 1 else f))
    end.
  (** trigonometry_utils.h:47, 53 and the unchecked vector access *)
  Definition tc_lookup (t : tcache) (table : list D) (angle : D) : outcome D :=
    i <- round_int (ddiv (dsub angle (tc_min t)) (tc_delta t)) ;;
    if i <? 0 then UB else match nth_error table (Z.to_nat i) with Some v => Ok v | None => UB end.
  (** trigonometry_utils.h:45-49 *)
  Definition tc_sin_of (t : tcache) (angle : D) : outcome D :=
    c <- tc_lookup t (tc_cos t) angle ;;
    s <- tc_lookup t (tc_sin t) angle ;;
    Ok (dadd (dmul (tc_sb t) c) (dmul (tc_cb t) s)).
  (** trigonometry_utils.h:51-55 *)
  Definition tc_cos_of (t : tcache) (angle : D) : outcome D :=
    c <- tc_lookup t (tc_cos t) angle ;;
    s <- tc_lookup t (tc_sin t) angle ;;
    Ok (dsub (dmul (tc_cb t) c) (dmul (tc_sb t) s)).
  Definition tc_trig (t : tcache) : trig D := mkTrig (tc_cos_of t) (tc_sin_of t).

  (** calls on one provider *)
  Inductive tc_op := TUpdate (a_min a_max a_inc : D) | TBase (a : D).
  Fixpoint tc_run (fuel : nat) (t : tcache) (l : list tc_op) : outcome tcache :=
    match l with
    | [] => Ok t
    | TUpdate a b d :: l => t <- tc_update fuel a b d t ;; tc_run fuel t l
    | TBase a :: l => tc_run fuel (tc_set_base t a) l
    end.
End Trig.
Arguments tcache D : clear implicits.
Arguments tc_op D : clear implicits.
