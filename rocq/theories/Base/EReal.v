(** Exact real arithmetic with infinities and NaN (zero has no sign; a nonzero number divided by zero is an infinity of its
    sign).  Used where the code works with an infinite scale. *)
From Coq Require Import Reals ZArith Lia Lra Bool.
From Flocq Require Import Core.
From Verif.Base Require Import Outcome Num OrdLaws.
Local Open Scope R_scope.

Inductive ER := EFin (r : R) | EInf (neg : bool) | ENan.

Definition E_neg (r : R) : bool := R_lt r 0.
Definition E_add (a b : ER) : ER :=
  match a, b with
  | EFin x, EFin y => EFin (x + y)
  | EInf s, EFin _ | EFin _, EInf s => EInf s
  | EInf s, EInf t => if eqb s t then EInf s else ENan
  | _, _ => ENan
  end.
Definition E_opp (a : ER) : ER := match a with EFin x => EFin (- x) | EInf s => EInf (negb s) | ENan => ENan end.
Definition E_mul (a b : ER) : ER :=
  match a, b with
  | EFin x, EFin y => EFin (x * y)
  | EInf s, EFin y | EFin y, EInf s => if Req_EM_T y 0 then ENan else EInf (xorb s (E_neg y))
  | EInf s, EInf t => EInf (xorb s t)
  | _, _ => ENan
  end.
Definition E_div (a b : ER) : ER :=
  match a, b with
  | EFin x, EFin y => if Req_EM_T y 0 then (if Req_EM_T x 0 then ENan else EInf (E_neg x)) else EFin (x / y)
  | EFin _, EInf _ => EFin 0
  | EInf s, EFin y => EInf (xorb s (E_neg y))
  | _, _ => ENan
  end.
Definition E_lt (a b : ER) : bool :=
  match a, b with
  | EFin x, EFin y => R_lt x y
  | EInf s, EFin _ => s
  | EFin _, EInf s => negb s
  | EInf s, EInf t => s && negb t
  | _, _ => false
  end.
Definition E_eq (a b : ER) : bool :=
  match a, b with EFin x, EFin y => R_eq x y | EInf s, EInf t => eqb s t | _, _ => false end.

#[global] Instance EOps : DOps ER := {|
  dofZ := fun z => EFin (IZR z);
  dadd := E_add; dsub := fun a b => E_add a (E_opp b); dmul := E_mul; ddiv := E_div; dopp := E_opp;
  dabs := fun a => match a with EFin x => EFin (Rabs x) | EInf _ => EInf false | ENan => ENan end;
  dsqrt := fun a => match a with EFin x => if Rlt_dec x 0 then ENan else EFin (sqrt x) | EInf false => EInf false | _ => ENan end;
  dlt := E_lt; dle := fun a b => E_lt a b || E_eq a b; deq := E_eq;
  disnan := fun a => match a with ENan => true | _ => false end;
  dispinf := fun a => match a with EInf false => true | _ => false end;
  dfloor := fun a => match a with EFin x => Some (Zfloor x) | _ => None end;
  dtrunc := fun a => match a with EFin x => Some (Ztrunc x) | _ => None end
|}.

#[global] Instance E_OrdLaws : OrdLaws EOps.
Proof.
  constructor; cbn; intros;
    repeat match goal with x : ER |- _ => destruct x as [?|[]|] end; cbn in *; try discriminate; auto;
    repeat match goal with
    | H : (_ || _)%bool = true |- _ => apply orb_true_iff in H
    | |- (_ || _)%bool = true => apply orb_true_iff
    end;
    rewrite ?R_lt_true, ?R_eq_true, ?R_lt_false in *; try lra;
    try (destruct H; discriminate); try tauto.
Qed.

(** on finite numbers this is real arithmetic *)
Lemma E_add_fin x y : dadd (EFin x) (EFin y) = EFin (x + y).
Proof. reflexivity. Qed.
Lemma E_sub_fin x y : dsub (EFin x) (EFin y) = EFin (x - y).
Proof. reflexivity. Qed.
Lemma E_div_fin x y : y <> 0 -> ddiv (EFin x) (EFin y) = EFin (x / y).
Proof. intros H. cbn. destruct (Req_EM_T y 0); [contradiction|reflexivity]. Qed.
Lemma E_lit n d : d <> 0%Z -> (dlit n d : ER) = EFin (IZR n / IZR d).
Proof. intros H. unfold dlit. apply E_div_fin. now apply not_0_IZR. Qed.
Lemma E_le_fin x y : dle (EFin x) (EFin y) = true <-> x <= y.
Proof. cbn. rewrite orb_true_iff, R_lt_true, R_eq_true. lra. Qed.
Lemma E_lt_fin x y : dlt (EFin x) (EFin y) = true <-> x < y.
Proof. cbn. apply R_lt_true. Qed.
