(** Independent descriptions of what grid cells compute. *)
From Coq Require Import Reals List Bool.
Import ListNotations.
Local Open Scope R_scope.

Definition in01 (x : R) : Prop := 0 <= x <= 1.
Definition Rsum (l : list R) : R := fold_right Rplus 0 l.
Definition Rmean (l : list R) : R := Rsum l / INR (length l).

(** *** Dempster-Shafer theory over the frame {empty, occupied}.
    A set of states is given by its two membership bits. *)
Record states := mkStates { may_be_empty : bool; may_be_occupied : bool }.
Definition all_states : list states :=
  [mkStates true true; mkStates true false; mkStates false true; mkStates false false].
Definition st_eqb (a b : states) : bool :=
  eqb (may_be_empty a) (may_be_empty b) && eqb (may_be_occupied a) (may_be_occupied b).
Definition inter (a b : states) : states :=
  mkStates (may_be_empty a && may_be_empty b) (may_be_occupied a && may_be_occupied b).
Definition union (a b : states) : states :=
  mkStates (may_be_empty a || may_be_empty b) (may_be_occupied a || may_be_occupied b).

(** a basic belief assignment: nonnegative masses of the subsets, summing to one *)
Definition mass := states -> R.
Definition bba (m : mass) : Prop := (forall s, 0 <= m s) /\ Rsum (map m all_states) = 1.
(** mass of A = sum over the pairs (B, C) with B op C = A of m1(B) m2(C) *)
Definition combine (op : states -> states -> states) (m1 m2 : mass) : mass :=
  fun a => Rsum (map (fun bc => if st_eqb (op (fst bc) (snd bc)) a then m1 (fst bc) * m2 (snd bc) else 0)
                     (list_prod all_states all_states)).
(** nothing is known / contradiction *)
Definition vacuous : mass := fun a => if st_eqb a (mkStates true true) then 1 else 0.
Definition contradiction_mass : mass := fun a => if st_eqb a (mkStates false false) then 1 else 0.

(** *** naive cells *)
(** an observed occupancy [o] of quality [q] pulls the neutral 1/2 towards [o] *)
Definition quality_adjusted (o q : R) : R := / 2 + (o - / 2) * q.
(** the mean of a list, or a default for the empty one *)
Definition mean_or (dflt : R) (l : list R) : R := match l with [] => dflt | _ => Rmean l end.
