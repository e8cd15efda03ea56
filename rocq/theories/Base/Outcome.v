(** Outcomes of running modelled C++ code. *)
From Coq Require Import List ZArith.
Import ListNotations.

(** [Ok a]: normal completion.  [Abort]: a failing [assert] (the shipped build keeps asserts:
    /repo/CMakeLists.txt sets "-Wall -O3" and no -DNDEBUG).  [UB]: undefined behaviour
    (out-of-bounds access, double->int conversion out of range, ...).  [OutOfFuel]: the fuel given to a loop that has no
    structural measure was not enough (says nothing about the program). *)
Inductive outcome (A : Type) : Type :=
| Ok (a : A)
| Abort
| UB
| OutOfFuel.
Arguments Ok {A} a.
Arguments Abort {A}.
Arguments UB {A}.
Arguments OutOfFuel {A}.

Definition bind {A B} (m : outcome A) (k : A -> outcome B) : outcome B :=
  match m with
  | Ok a => k a
  | Abort => Abort
  | UB => UB
  | OutOfFuel => OutOfFuel
  end.

Declare Scope outcome_scope.
Delimit Scope outcome_scope with out.
Notation "x <- m ;; k" := (bind m (fun x => k))
  (at level 61, m at next level, right associativity) : outcome_scope.
Notation "' p <- m ;; k" := (bind m (fun p => k))
  (at level 61, p pattern, m at next level, right associativity) : outcome_scope.

(** [assert(b)] *)
Definition assert_ (b : bool) : outcome unit := if b then Ok tt else Abort.

(** 32-bit two's complement [int] range *)
Definition int_min : Z := (- 2 ^ 31)%Z.
Definition int_max : Z := (2 ^ 31 - 1)%Z.
Definition in_int (z : Z) : bool := (int_min <=? z)%Z && (z <=? int_max)%Z.

Lemma bind_Ok_inv {A B} (m : outcome A) (k : A -> outcome B) b :
  bind m k = Ok b -> exists a, m = Ok a /\ k a = Ok b.
Proof. destruct m; simpl; intros H; try discriminate; eauto. Qed.
