(** Rectangles (C45, C46). *)
From Coq Require Import Reals ZArith List Lia Lra Bool.
From Flocq Require Import Core Relative IEEE754.BinarySingleNaN IEEE754.Binary IEEE754.Bits.
From Verif.Base Require Import Outcome Num F64Facts OrdLaws.
From Verif.Model Require Import MathUtils Geometry.
From Verif.Spec Require Import RectSpec.
From Verif.Proofs Require Import CompareProofs.
Import ListNotations.
Local Open Scope R_scope.

(** ** intersection *)
Definition clip (a b : rect R) : rect R :=
  mkRect (Rmax (bot a) (bot b)) (Rmin (top a) (top b)) (Rmax (left a) (left b)) (Rmin (right a) (right b)).

Lemma in_clip a b p : in_rect (clip a b) p <-> in_rect a p /\ in_rect b p.
Proof.
  unfold in_rect, clip. cbn [left right bot top]. destruct p as [x y]; cbn [fst snd].
  unfold Rmax, Rmin. repeat destruct (Rle_dec _ _); split; intros; lra.
Qed.

Lemma meet_iff a b : proper a -> proper b ->
  (meet a b <-> left a <= right b /\ left b <= right a /\ bot a <= top b /\ bot b <= top a).
Proof.
  unfold proper. intros Ha Hb. split.
  - intros [[x y] [[H1 H2] [H3 H4]]]; cbn in *. lra.
  - intros H. exists (Rmax (left a) (left b), Rmax (bot a) (bot b)). unfold in_rect; cbn.
    unfold Rmax. repeat destruct (Rle_dec _ _); lra.
Qed.

(** the two rectangles' coordinates are pairwise equal or separated by more than the tolerance *)
Definition clear (a b : rect R) : Prop :=
  (forall x y, (x = left a \/ x = right a) -> (y = left b \/ y = right b) -> separated x y) /\
  (forall x y, (x = bot a \/ x = top a) -> (y = bot b \/ y = top b) -> separated x y).
Lemma separated_sym x y : separated x y -> separated y x.
Proof. unfold separated. rewrite tol_sym, Rabs_minus_sym. intuition. Qed.
Lemma clear_sym a b : clear a b -> clear b a.
Proof. intros [H1 H2]. split; intros x y Hx Hy; apply separated_sym; auto. Qed.

Definition inI (l x r : R) : bool := R_le l x && R_le x r.
(** the clipping of rectangle [t] against [a] decided by which of t's sides are in a's ranges *)
Definition corner_pure {D} (bo to_ le ri bo' to' le' ri' : D) (xl xr yb yt : bool) : nat * (D * D * D * D) :=
  let st := (O, (bo, to_, le, ri)) in
  let st := if xl && yb then let '(n, (b, t, l, r)) := st in (S n, (bo', t, le', r)) else st in
  let st := if xr && yb then let '(n, (b, t, l, r)) := st in (S n, (bo', t, l, ri')) else st in
  let st := if xl && yt then let '(n, (b, t, l, r)) := st in (S n, (b, to', le', r)) else st in
  let st := if xr && yt then let '(n, (b, t, l, r)) := st in (S n, (b, to', l, ri')) else st in
  st.
Lemma corner_analysis_pure {D} {ops : DOps D} (a t : rect D) :
  corner_analysis a t = corner_pure (bot a) (top a) (left a) (right a) (bot t) (top t) (left t) (right t)
    (are_ordered (left a) (left t) (right a)) (are_ordered (left a) (right t) (right a))
    (are_ordered (bot a) (bot t) (top a)) (are_ordered (bot a) (top t) (top a)).
Proof. reflexivity. Qed.

(** three corners of a rectangle are never inside another one: that assertion cannot fire *)
Lemma never_three_corners {D} {ops : DOps D} (a t : rect D) : In (fst (corner_analysis a t)) [0%nat; 1%nat; 2%nat; 4%nat].
Proof.
  rewrite corner_analysis_pure. unfold corner_pure.
  destruct (are_ordered _ (left t) _), (are_ordered _ (right t) _), (are_ordered _ (bot t) _), (are_ordered _ (top t) _); cbn; tauto.
Qed.

Lemma ordered_clear l x r : separated l x -> separated x r -> are_ordered l x r = inI l x r.
Proof. intros H1 H2. unfold are_ordered, inI. now rewrite !R_less_or_equal_sep. Qed.

Lemma corner_clear a t : clear a t -> corner_analysis a t =
  corner_pure (bot a) (top a) (left a) (right a) (bot t) (top t) (left t) (right t)
    (inI (left a) (left t) (right a)) (inI (left a) (right t) (right a))
    (inI (bot a) (bot t) (top a)) (inI (bot a) (top t) (top a)).
Proof.
  intros C. destruct (clear_sym _ _ C) as [C1 C2], C as [C3 C4].
  rewrite corner_analysis_pure, !ordered_clear; auto.
Qed.

Lemma mk_rect_R (b t l r : R) : b <= t -> l <= r -> mk_rect b t l r = Ok (mkRect b t l r).
Proof.
  intros H1 H2. unfold mk_rect. cbn [dle ROps].
  replace (R_le b t) with true by (symmetry; now apply R_le_true).
  replace (R_le l r) with true by (symmetry; now apply R_le_true). reflexivity.
Qed.

Lemma inI_true l x r : inI l x r = true <-> l <= x <= r.
Proof. unfold inI. rewrite andb_true_iff, !R_le_true. tauto. Qed.
Lemma inI_false l x r : l <= r -> (inI l x r = false <-> x < l \/ r < x).
Proof. intros H. unfold inI. rewrite andb_false_iff, !R_le_false. tauto. Qed.

Lemma rect_intersect_clear (a b : rect R) : proper a -> proper b -> clear a b ->
  rect_intersect a b =
    if (R_le (left a) (right b) && R_le (left b) (right a) && R_le (bot a) (top b) && R_le (bot b) (top a)) &&
       negb (R_lt (left a) (left b) && R_lt (right b) (right a) && R_lt (bot b) (bot a) && R_lt (top a) (top b)) &&
       negb (R_lt (left b) (left a) && R_lt (right a) (right b) && R_lt (bot a) (bot b) && R_lt (top b) (top a))
    then Ok (clip a b) else Ok (mkRect 0 0 0 0).
Proof.
  intros [Pa Qa] [Pb Qb] C. unfold rect_intersect, intersect_rev.
  rewrite (corner_clear a b C), (corner_clear b a (clear_sym a b C)).
  destruct a as [ab at_ al ar], b as [bb bt bl br]. cbn [left right bot top] in *. unfold clip. cbn [left right bot top].
  clear C.
  destruct (inI al bl ar) eqn:X1; [apply inI_true in X1|apply inI_false in X1; [|lra]];
  (destruct (inI al br ar) eqn:X2; [apply inI_true in X2|apply inI_false in X2; [|lra]]);
  (destruct (inI bl al br) eqn:X3; [apply inI_true in X3|apply inI_false in X3; [|lra]]);
  (destruct (inI bl ar br) eqn:X4; [apply inI_true in X4|apply inI_false in X4; [|lra]]);
  try (exfalso; lra);
  (destruct (inI ab bb at_) eqn:Y1; [apply inI_true in Y1|apply inI_false in Y1; [|lra]]);
  (destruct (inI ab bt at_) eqn:Y2; [apply inI_true in Y2|apply inI_false in Y2; [|lra]]);
  (destruct (inI bb ab bt) eqn:Y3; [apply inI_true in Y3|apply inI_false in Y3; [|lra]]);
  (destruct (inI bb at_ bt) eqn:Y4; [apply inI_true in Y4|apply inI_false in Y4; [|lra]]);
  try (exfalso; lra);
  cbn [corner_pure andb bind];
  repeat match goal with
  | |- context [R_le ?x ?y] => let E := fresh "E" in
      (assert (E : R_le x y = true) by (apply R_le_true; lra)) || (assert (E : R_le x y = false) by (apply R_le_false; lra)); rewrite E; clear E
  | |- context [R_lt ?x ?y] => let E := fresh "E" in
      (assert (E : R_lt x y = true) by (apply R_lt_true; lra)) || (assert (E : R_lt x y = false) by (apply R_lt_false; lra)); rewrite E; clear E
  end; cbn [andb negb].
  all: try (rewrite mk_rect_R by (cbn; lra); cbn [dofZ ROps]; f_equal;
    try reflexivity; unfold Rmax, Rmin; repeat destruct (Rle_dec _ _); f_equal; lra).
  all: repeat match goal with
    | |- context [R_le ?x ?y] => let E := fresh "E" in destruct (R_le x y) eqn:E; [apply R_le_true in E|apply R_le_false in E]; cbn [andb negb]
    | |- context [R_lt ?x ?y] => let E := fresh "E" in destruct (R_lt x y) eqn:E; [apply R_lt_true in E|apply R_lt_false in E]; cbn [andb negb]
    end; first [exfalso; lra | rewrite mk_rect_R by (cbn; lra); reflexivity].
Qed.

(** ** splitting, binary64: the centre is between the sides *)
Lemma F_sub_exact_small (l r : F64) : F_fin l = true -> F_fin r = true -> F2R64 l <= F2R64 r ->
  F2R64 r - F2R64 l < bpow radix2 (-1021) -> fmt64 (F2R64 r - F2R64 l).
Proof.
  intros Fl Fr H Hs.
  assert (FL := F_fmt l). assert (FR := F_fmt r).
  assert (G : forall x, fmt64 x -> exists z, x = IZR z * bpow radix2 (-1074)).
  { intros x Hx. assert (PG : Prec_gt_0 53) by reflexivity.
    destruct (FLT_format_generic radix2 (-1074) 53 x Hx) as [[m e] Em _ He]. cbn in He.
    exists (m * 2 ^ (e + 1074))%Z. rewrite Em. unfold F2R. cbn [Fnum Fexp]. rewrite mult_IZR.
    replace (IZR (2 ^ (e + 1074))) with (bpow radix2 (e + 1074)) by (rewrite <- IZR_Zpower by lia; reflexivity).
    rewrite Rmult_assoc, <- bpow_plus. do 2 f_equal. lia. }
  destruct (G _ FL) as [zl El], (G _ FR) as [zr Er].
  assert (PB := bpow_gt_0 radix2 (-1074)).
  apply generic_format_FLT. exists (Float radix2 (zr - zl) (-1074)); cbn [Fnum Fexp]; [| |lia].
  - rewrite El, Er. unfold F2R. cbn [Fnum Fexp]. rewrite minus_IZR. ring.
  - assert (D : F2R64 r - F2R64 l = IZR (zr - zl) * bpow radix2 (-1074)) by (rewrite El, Er, minus_IZR; ring).
    assert (0 <= zr - zl)%Z.
    { apply le_IZR. apply Rmult_le_reg_r with (bpow radix2 (-1074)); [exact PB|]. rewrite Rmult_0_l, <- D. lra. }
    assert (zr - zl < 2 ^ 53)%Z.
    { apply lt_IZR. apply Rmult_lt_reg_r with (bpow radix2 (-1074)); [exact PB|]. rewrite <- D.
      replace (IZR (2 ^ 53) * bpow radix2 (-1074)) with (bpow radix2 (-1021)); [exact Hs|].
      change (IZR (2 ^ 53)) with (bpow radix2 53). rewrite <- bpow_plus. reflexivity. }
    change (radix2 ^ 53)%Z with (2 ^ 53)%Z. lia.
Qed.

Definition mid (l r : F64) : F64 := dadd l (ddiv (dsub r l) (dofZ 2)).
Lemma mid_between (l r : F64) : F_fin l = true -> F_fin r = true ->
  Rabs (F2R64 l) <= bpow radix2 1022 -> Rabs (F2R64 r) <= bpow radix2 1022 -> F2R64 l <= F2R64 r ->
  F_fin (mid l r) = true /\ F2R64 l <= F2R64 (mid l r) <= F2R64 r.
Proof.
  intros Fl Fr Bl Br H. apply Rabs_le_inv in Bl, Br.
  assert (P : bpow radix2 1023 = 2 * bpow radix2 1022) by (change 1023%Z with (1 + 1022)%Z; rewrite bpow_plus; reflexivity).
  assert (P22 : 0 < bpow radix2 1022) by apply bpow_gt_0.
  destruct (F_sub_correct r l Fr Fl) as [Es Fs].
  { apply (no_ovf_le (bpow radix2 1023)); [apply fmt_bpow; lia|apply bpow1023_lt|]. apply Rabs_le. lra. }
  set (d := F2R64 r - F2R64 l) in *. assert (Hd : 0 <= d <= bpow radix2 1023) by (unfold d; lra).
  assert (Hh : 0 <= rnd d <= bpow radix2 1023) by (apply rnd_between; [apply fmt_0|apply fmt_bpow; lia|exact Hd]).
  destruct (F_ofZ_correct 2 ltac:(cbn; lia)) as [E2 F2].
  destruct (F_div_correct (dsub r l) (dofZ 2) Fs ltac:(rewrite E2; lra)) as [Eq Fq].
  { rewrite Es, E2. apply (no_ovf_le (bpow radix2 1023)); [apply fmt_bpow; lia|apply bpow1023_lt|]. apply Rabs_le. lra. }
  rewrite Es, E2 in Eq.
  assert (K : 0 <= rnd (rnd d / 2) <= d).
  { split; [apply rnd_ge; [apply fmt_0|lra]|].
    destruct (Rlt_or_le d (bpow radix2 (-1021))) as [S|S].
    - assert (FD : fmt64 d) by (apply F_sub_exact_small; auto). rewrite (rnd_id d FD). apply rnd_le_fmt; [exact FD|lra].
    - (* rnd d >= 2^-1021, so rnd d / 2 is a double *)
      assert (L : bpow radix2 (-1021) <= rnd d) by (apply rnd_ge; [apply fmt_bpow; lia|exact S]).
      assert (FH : fmt64 (rnd d / 2)).
      { assert (PG : Prec_gt_0 53) by reflexivity. assert (FRD := rnd_fmt d).
        destruct (FLT_format_generic radix2 (-1074) 53 (rnd d) FRD) as [[m e] Em Hm He]. cbn [Fnum Fexp] in *.
        assert (Le : (-1074 < e)%Z).
        { apply (lt_bpow radix2). apply Rmult_lt_reg_l with (bpow radix2 53); [apply bpow_gt_0|].
          rewrite <- (bpow_plus radix2 53 (-1074)). apply Rle_lt_trans with (rnd d); [exact L|].
          rewrite Em. unfold F2R. cbn [Fnum Fexp]. apply Rmult_lt_compat_r; [apply bpow_gt_0|].
          change (bpow radix2 53) with (IZR (2 ^ 53)). apply IZR_lt. change (radix2 ^ 53)%Z with (2 ^ 53)%Z in Hm. lia. }
        apply generic_format_FLT. exists (Float radix2 m (e - 1)); cbn [Fnum Fexp]; [|exact Hm|lia].
        rewrite Em. unfold F2R. cbn [Fnum Fexp]. unfold Z.sub. rewrite bpow_plus. change (bpow radix2 (- (1))) with (/ 2). unfold Rdiv. ring. }
      rewrite (rnd_id _ FH).
      (* rnd d <= 2 d *)
      destruct (Rle_or_lt (rnd d) (2 * d)) as [A|A]; [lra|exfalso].

      assert (C : Rabs (rnd d - d) <= d).
      { apply Rle_trans with (/ 2 * bpow radix2 (-53 + 1) * Rabs d).
        - apply (relative_error_N_FLT radix2 (-1074) 53 eq_refl). rewrite Rabs_pos_eq by lra.
          change (-1074 + 53 - 1)%Z with (-1022)%Z. apply Rle_trans with (bpow radix2 (-1021)); [apply bpow_le; lia|exact S].
        - rewrite Rabs_pos_eq by lra. assert (bpow radix2 (-53 + 1) <= 1) by (apply (bpow_le radix2 _ 0); lia).
          assert (0 < bpow radix2 (-53 + 1)) by apply bpow_gt_0. nra. }
      apply Rabs_le_inv in C. lra. }
  assert (K' : rnd (rnd d / 2) <= F2R64 r - F2R64 l) by apply K.
  destruct (F_add_correct l (ddiv (dsub r l) (dofZ 2)) Fl Fq) as [Em Fm].
  { rewrite Eq. apply (no_ovf_le (bpow radix2 1022)); [apply fmt_bpow; lia|apply bpow_lt; lia|]. apply Rabs_le. lra. }
  unfold mid. split; [exact Fm|]. rewrite Em, Eq. apply rnd_between; [apply F_fmt|apply F_fmt|lra].
Qed.

Lemma mk_rect_F (b t l r : F64) : F_fin b = true -> F_fin t = true -> F_fin l = true -> F_fin r = true ->
  F2R64 b <= F2R64 t -> F2R64 l <= F2R64 r -> mk_rect b t l r = Ok (mkRect b t l r).
Proof.
  intros F1 F2 F3 F4 H1 H2. unfold mk_rect.
  replace (dle b t) with true by (symmetry; now apply F_le_fin).
  replace (dle l r) with true by (symmetry; now apply F_le_fin). reflexivity.
Qed.
Definition rect_R (r : rect F64) : rect R := mkRect (F2R64 (bot r)) (F2R64 (top r)) (F2R64 (left r)) (F2R64 (right r)).
