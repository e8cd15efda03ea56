(** Notions for maps on disk. *)
From Coq Require Import ZArith List.
From Verif.Base Require Import Outcome Num.
From Verif.Model Require Import Geometry Grid PlainMap Serialization MapState MapFile.
From Verif.Spec Require Import MapSpec.
From Verif.Proofs Require Import PlainMapProofs.
Import ListNotations.
Local Open Scope Z_scope.

Section Levels.
  Context {C Ob : Type}.
  Variable cell_upd : C -> Ob -> C.
  (** an unbounded plain map with the prototype [proto] that was constructed with some size and then written in any way; the
      coordinates and sizes keep within int, the number of cells too *)
  Definition used_map (proto : C) (b : pmap C * F64) : Prop :=
    exists w h M (writes : list (map_op C Ob)),
      1 <= w /\ 1 <= h /\ 0 <= M /\ 4 * M + 2 * Z.max w h < 2 ^ 31 /\
      (forall op, In op writes -> within M (w_coord (op_write op))) /\
      unb_run (ops := FOps) cell_upd (pmap_new proto w h) writes = Ok (fst b) /\
      p_w (fst b) * p_h (fst b) < 2 ^ 31 /\ p_w (fst b) <= 2 ^ 30 /\ p_h (fst b) <= 2 ^ 30.
  (** two maps no caller can tell apart by looking at them *)
  Definition same_map (a b : pmap C * F64) : Prop :=
    p_w (fst a) = p_w (fst b) /\ p_h (fst a) = p_h (fst b) /\ p_origin (fst a) = p_origin (fst b) /\ snd a = snd b /\
    forall c, unb_get (fst a) c = unb_get (fst b) c.
End Levels.
