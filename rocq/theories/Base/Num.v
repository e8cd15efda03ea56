(** The double interface used by the model, with an exact-real and an IEEE-754 binary64 instance. *)
From Coq Require Import Reals ZArith Lia Lra Bool.
From Flocq Require Import Core IEEE754.BinarySingleNaN IEEE754.Binary IEEE754.Bits.
From Verif.Base Require Import Outcome.
Local Open Scope Z_scope.

(** Operations C++ code performs on [double].  [dfloor]/[dtrunc] return [None] on NaN and infinities. *)
Class DOps (D : Type) := {
  dofZ   : Z -> D;
  dadd   : D -> D -> D;
  dsub   : D -> D -> D;
  dmul   : D -> D -> D;
  ddiv   : D -> D -> D;
  dopp   : D -> D;
  dabs   : D -> D;
  dsqrt  : D -> D;
  dlt    : D -> D -> bool;
  dle    : D -> D -> bool;
  deq    : D -> D -> bool;   (* C++ ==: false on NaN, +0 == -0 *)
  disnan : D -> bool;
  dispinf : D -> bool;       (* is it +infinity *)
  dfloor : D -> option Z;    (* mathematical value of std::floor *)
  dtrunc : D -> option Z     (* mathematical value of std::trunc *)
}.

Declare Scope dbl_scope.
Delimit Scope dbl_scope with dbl.
Notation "a + b" := (dadd a b) : dbl_scope.
Notation "a - b" := (dsub a b) : dbl_scope.
Notation "a * b" := (dmul a b) : dbl_scope.
Notation "a / b" := (ddiv a b) : dbl_scope.
Notation "- a" := (dopp a) : dbl_scope.
Notation "a <? b" := (dlt a b) : dbl_scope.
Notation "a <=? b" := (dle a b) : dbl_scope.
Notation "a =? b" := (deq a b) : dbl_scope.

Section Derived.
  Context {D : Type} {ops : DOps D}.
  (** C++ [std::max(a, b)] is [(a < b) ? b : a], [std::min(a, b)] is [(b < a) ? b : a]. *)
  Definition dmax (a b : D) : D := if dlt a b then b else a.
  Definition dmin (a b : D) : D := if dlt b a then b else a.
  (** A decimal literal [n/d] with exactly representable [n], [d]: correctly rounded by one division. *)
  Definition dlit (n d : Z) : D := ddiv (dofZ n) (dofZ d).
  (** C++ conversion double -> int truncates; UB when the value does not fit (or NaN/inf). *)
  Definition to_int (z : option Z) : outcome Z :=
    match z with
    | Some v => if in_int v then Ok v else UB
    | None => UB
    end.
  (** [int(std::floor(x))] *)
  Definition floor_int (x : D) : outcome Z := to_int (dfloor x).
  (** [int(x)] *)
  Definition trunc_int (x : D) : outcome Z := to_int (dtrunc x).
End Derived.

(** ** Exact reals *)
Definition R_lt (a b : R) : bool := if Rlt_dec a b then true else false.
Definition R_le (a b : R) : bool := if Rle_dec a b then true else false.
Definition R_eq (a b : R) : bool := if Req_EM_T a b then true else false.

#[global] Instance ROps : DOps R := {|
  dofZ := IZR; dadd := Rplus; dsub := Rminus; dmul := Rmult; ddiv := Rdiv;
  dopp := Ropp; dabs := Rabs; dsqrt := sqrt;
  dlt := R_lt; dle := R_le; deq := R_eq;
  disnan := fun _ => false; dispinf := fun _ => false;
  dfloor := fun x => Some (Zfloor x);
  dtrunc := fun x => Some (Ztrunc x)
|}.

Lemma R_lt_true a b : R_lt a b = true <-> (a < b)%R.
Proof. unfold R_lt; destruct (Rlt_dec a b); split; intros; auto; discriminate. Qed.
Lemma R_lt_false a b : R_lt a b = false <-> (b <= a)%R.
Proof. unfold R_lt; destruct (Rlt_dec a b); split; intros; auto; try discriminate; lra. Qed.
Lemma R_le_true a b : R_le a b = true <-> (a <= b)%R.
Proof. unfold R_le; destruct (Rle_dec a b); split; intros; auto; discriminate. Qed.
Lemma R_le_false a b : R_le a b = false <-> (b < a)%R.
Proof. unfold R_le; destruct (Rle_dec a b); split; intros; auto; try discriminate; lra. Qed.
Lemma R_eq_true a b : R_eq a b = true <-> a = b.
Proof. unfold R_eq; destruct (Req_EM_T a b); split; intros; auto; discriminate. Qed.
Lemma R_eq_false a b : R_eq a b = false <-> a <> b.
Proof. unfold R_eq; destruct (Req_EM_T a b); split; intros; auto; try discriminate; congruence. Qed.

Lemma R_dmax a b : dmax a b = Rmax a b.
Proof.
  unfold dmax; cbn. unfold R_lt, Rmax.
  destruct (Rlt_dec a b), (Rle_dec a b); auto; lra.
Qed.
Lemma R_dmin a b : dmin a b = Rmin a b.
Proof.
  unfold dmin; cbn. unfold R_lt, Rmin.
  destruct (Rlt_dec b a), (Rle_dec a b); auto; lra.
Qed.

(** ** IEEE-754 binary64 *)
Definition F64 := binary64.

Definition F_prec_gt_0 : FLX.Prec_gt_0 53 := eq_refl.
Definition F_prec_lt_emax : (53 < 1024)%Z := eq_refl.

Definition F_ofZ (z : Z) : F64 := binary_normalize 53 1024 F_prec_gt_0 F_prec_lt_emax mode_NE z 0 false.
Definition F_lt (a b : F64) : bool := match b64_compare a b with Some Lt => true | _ => false end.
Definition F_le (a b : F64) : bool := match b64_compare a b with Some Lt | Some Eq => true | _ => false end.
Definition F_eq (a b : F64) : bool := match b64_compare a b with Some Eq => true | _ => false end.
Definition F_isnan (a : F64) : bool := is_nan 53 1024 a.
Definition F_ispinf (a : F64) : bool := match a with B754_infinity _ _ false => true | _ => false end.
Definition F_trunc (a : F64) : option Z :=
  match a with
  | B754_zero _ _ _ => Some 0
  | B754_finite _ _ _ _ _ _ => Some (Binary.Btrunc 53 1024 a)
  | _ => None
  end.
(** floor of [(-1)^s * m * 2^e], computed on the mantissa *)
Definition F_floor (a : F64) : option Z :=
  match a with
  | B754_zero _ _ _ => Some 0
  | B754_finite _ _ s m e _ =>
      let sm := if s then Z.neg m else Z.pos m in
      Some (match e with
            | Z0 => sm
            | Zpos _ => sm * 2 ^ e
            | Zneg p => sm / 2 ^ (Zpos p)
            end)
  | _ => None
  end.

#[global] Instance FOps : DOps F64 := {|
  dofZ := F_ofZ;
  dadd := b64_plus mode_NE; dsub := b64_minus mode_NE;
  dmul := b64_mult mode_NE; ddiv := b64_div mode_NE;
  dopp := b64_opp; dabs := b64_abs; dsqrt := b64_sqrt mode_NE;
  dlt := F_lt; dle := F_le; deq := F_eq;
  disnan := F_isnan; dispinf := F_ispinf;
  dfloor := F_floor; dtrunc := F_trunc
|}.

Definition F2R64 (x : F64) : R := B2R 53 1024 x.
Definition F_fin (x : F64) : bool := is_finite 53 1024 x.
