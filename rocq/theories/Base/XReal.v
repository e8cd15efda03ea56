(** A third double interface: exact real arithmetic with a NaN.  [None] is NaN; a division by zero and a square
    root of a negative number give NaN (IEEE would give an infinity for x/0, x <> 0: the model is pessimistic);
    every operation on NaN gives NaN and every comparison with NaN is false.  Used where a property is about exact
    arithmetic and must still exclude divisions by zero. *)
From Coq Require Import Reals ZArith Lra Bool.
From Flocq Require Import Core.
From Verif.Base Require Import Outcome Num.

Definition XR := option R.
Definition xlift2 (f : R -> R -> R) (a b : XR) : XR :=
  match a, b with Some x, Some y => Some (f x y) | _, _ => None end.
Definition xcmp (f : R -> R -> bool) (a b : XR) : bool :=
  match a, b with Some x, Some y => f x y | _, _ => false end.

#[global] Instance XOps : DOps XR := {|
  dofZ := fun z => Some (IZR z);
  dadd := xlift2 Rplus; dsub := xlift2 Rminus; dmul := xlift2 Rmult;
  ddiv := fun a b => match a, b with
                     | Some x, Some y => if Req_EM_T y 0 then None else Some (x / y)%R
                     | _, _ => None end;
  dopp := option_map Ropp; dabs := option_map Rabs;
  dsqrt := fun a => match a with Some x => if Rlt_dec x 0 then None else Some (sqrt x) | None => None end;
  dlt := xcmp R_lt; dle := xcmp R_le; deq := xcmp R_eq;
  disnan := fun a => match a with Some _ => false | None => true end;
  dispinf := fun _ => false;
  dfloor := option_map Zfloor;
  dtrunc := option_map Ztrunc
|}.

Lemma X_div x y : y <> 0%R -> ddiv (Some x : XR) (Some y) = Some (x / y)%R.
Proof. intros H. cbn. destruct (Req_EM_T y 0); [contradiction|reflexivity]. Qed.
Lemma X_lit n d : d <> 0%Z -> (dlit n d : XR) = Some (IZR n / IZR d)%R.
Proof. intros H. unfold dlit. apply X_div. now apply not_0_IZR. Qed.
