(** How a computation of the model fails, if it does. *)
From Verif.Base Require Import Outcome.

Inductive failure := Aborts | Undefined | RunsOn.
Definition failure_of {A} (r : outcome A) : option failure :=
  match r with
  | Ok _ => None
  | Abort => Some Aborts
  | UB => Some Undefined
  | OutOfFuel => Some RunsOn
  end.
