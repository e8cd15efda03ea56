(** Model of src/core/math_utils.h, over any double interface. *)
From Coq Require Import ZArith Bool.
From Verif.Base Require Import Outcome Num.
Local Open Scope Z_scope.

Section MathUtils.
  Context {D : Type} {ops : DOps D}.

  (** math_utils.h:9-12 [are_equal(a, b, eps)] *)
  Definition are_equal_eps (a b eps : D) : bool := dle (dabs (dsub a b)) eps.

  (** math_utils.h:18 [Eps = 1e-7] *)
  Definition eq_eps : D := dlit 1 10000000.

  (** math_utils.h:15-20 [are_equal(a, b)] *)
  Definition are_equal (a b : D) : bool :=
    let eps_scale := dmax (dofZ 1) (dmax (dabs a) (dabs b)) in
    are_equal_eps a b (dmul eq_eps eps_scale).

  (** math_utils.h:23 [std::numeric_limits<double>::epsilon()] = 2^-52 *)
  Definition dbl_epsilon : D := dlit 1 (2 ^ 52).

  (** math_utils.h:22-25 *)
  Definition less (a b : D) : bool := dlt a (dadd b dbl_epsilon).

  (** math_utils.h:33-35 *)
  Definition bound_value (left v right : D) : D := dmax left (dmin right v).

  (** math_utils.h:37-39 *)
  Definition less_or_equal (a b : D) : bool := are_equal a b || less a b.

  (** math_utils.h:41-43 *)
  Definition less_or_equal_eps (a b eps : D) : bool := are_equal_eps a b eps || less a b.

  (** math_utils.h:45-47 *)
  Definition are_strictly_ordered (a b c : D) : bool := less a b && less b c.

  (** math_utils.h:49-51 *)
  Definition are_ordered (a b c : D) : bool := less_or_equal a b && less_or_equal b c.
End MathUtils.

(** math_utils.h:61-68 [ge_pow<N>(i)].  [ge_p *= N] multiplies an [int] by an [unsigned]: the product is
    computed modulo 2^32 and converted back to [int] (two's complement). *)
Definition wrap32 (z : Z) : Z :=
  let u := z mod 2 ^ 32 in if u <? 2 ^ 31 then u else u - 2 ^ 32.

Fixpoint ge_pow_loop (fuel : nat) (n i ge_p : Z) : outcome Z :=
  match fuel with
  | O => OutOfFuel
  | S fuel => if ge_p <? i then ge_pow_loop fuel n i (wrap32 (ge_p * n)) else Ok ge_p
  end.
Definition ge_pow (fuel : nat) (n i : Z) : outcome Z := ge_pow_loop fuel n i 1.
