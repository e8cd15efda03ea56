(** The moves of the hill climber in binary64. *)
From Coq Require Import ZArith List Bool Lia Reals Lra.
From Flocq Require Import Core Mult_error.
From Verif.Base Require Import Outcome Num F64Facts OrdLaws.
From Verif.Model Require Import MathUtils Geometry PlainMap Sensor Matchers.
From Verif.Spec Require Import MatchSpec ClimbFloatSpec.
From Verif.Proofs Require Import MatcherProofs ClimbProofs TbmFloatProofs.
Import ListNotations.
Local Open Scope R_scope.

Lemma fmt_half_of x : fmt64 x -> bpow radix2 (-1021) <= Rabs x -> fmt64 (x / 2).
Proof.
  intros F H. replace (x / 2) with (x * bpow radix2 (-1)) by (change (bpow radix2 (-1)) with (/ 2); lra).
  apply mult_bpow_exact_FLT; [exact F|]. assert (-1020 <= mag radix2 x)%Z by (apply mag_ge_bpow; exact H). lia.
Qed.
Lemma F_half_exact (x : F64) : F_fin x = true -> bpow radix2 (-1021) <= Rabs (F2R64 x) -> F_fin (half x) = true /\ F2R64 (half x) = F2R64 x / 2.
Proof.
  intros F H. unfold half. destruct (F_dlit_correct 1 2 ltac:(lia) ltac:(lia) ltac:(apply no_ovf_1; lra)) as [LE LF].
  assert (E : rnd (1 / 2) = / 2) by (replace (1 / 2) with (/ 2) by lra; apply rnd_id, fmt_half). change (IZR 1 / IZR 2) with (1 / 2) in LE. rewrite E in LE.
  assert (Q : rnd (F2R64 x * F2R64 (dlit 1 2)) = F2R64 x / 2) by (rewrite LE; change (F2R64 x * / 2) with (F2R64 x / 2); apply rnd_id, fmt_half_of; [apply F_fmt|exact H]).
  destruct (F_mul_correct x (dlit 1 2) F LF) as [ME MF].
  { unfold no_ovf. rewrite Q. unfold Rdiv. rewrite Rabs_mult, (Rabs_right (/ 2)) by lra. assert (B := F_abs_lt x). assert (P := Rabs_pos (F2R64 x)). lra. }
  split; [exact MF|]. rewrite ME. exact Q.
Qed.
Lemma bp_mul a b : bpow radix2 (a + b) = bpow radix2 a * bpow radix2 b. Proof. apply bpow_plus. Qed.
(** the steps are halved exactly *)
Lemma steps_exact (tr : F64) (f : nat) : F_fin tr = true -> bpow radix2 (-900) <= Rabs (F2R64 tr) -> (f <= 100)%nat ->
  F_fin (trf tr f) = true /\ F2R64 (trf tr f) = F2R64 tr / 2 ^ f.
Proof.
  intros F H. induction f as [|f IH]; intros L.
  - cbn [pow]. change (trf tr 0) with tr. split; [exact F|lra].
  - destruct (IH ltac:(lia)) as [F1 E1]. change (trf tr (S f)) with (half (trf tr f)).
    assert (P : 0 < 2 ^ f) by (apply pow_lt; lra).
    destruct (F_half_exact _ F1) as [F2 E2].
    + rewrite E1. unfold Rdiv. rewrite Rabs_mult, Rabs_inv, (Rabs_right (2 ^ f)) by lra.
      assert (U : 2 ^ f <= bpow radix2 100). { assert (Q : bpow radix2 (Z.of_nat f) <= bpow radix2 100) by (apply bpow_le; lia). rewrite <- (bpow_powerRZ radix2 (Z.of_nat f)) in Q || idtac. rewrite bpow_powerRZ in Q. rewrite <- pow_powerRZ in Q. exact Q. }
      assert (I : / bpow radix2 100 <= / 2 ^ f) by (apply Rinv_le; [exact P|exact U]). rewrite <- bpow_opp in I.
      apply Rle_trans with (bpow radix2 (-900) * bpow radix2 (- (100))); [rewrite <- bpow_plus; apply bpow_le; lia|]. apply Rmult_le_compat; try apply bpow_ge_0; assumption.
    + split; [exact F2|]. rewrite E2, E1. cbn [pow]. field. lra.
Qed.

(** multiplying by one, minus one or zero is exact *)
Lemma F_scale (s x : F64) (v : R) : F_fin s = true -> F2R64 s = v -> v = 1 \/ v = -1 \/ v = 0 -> F_fin x = true -> F_fin (dmul s x) = true /\ F2R64 (dmul s x) = v * F2R64 x.
Proof.
  intros Fs Es V Fx. assert (Q : rnd (F2R64 s * F2R64 x) = v * F2R64 x).
  { rewrite Es. apply rnd_id. assert (X := F_fmt x). destruct V as [->|[->| ->]]; [replace (1 * F2R64 x) with (F2R64 x) by ring; exact X|replace (-1 * F2R64 x) with (- F2R64 x) by ring; apply fmt_opp; exact X|rewrite Rmult_0_l; apply fmt_0]. }
  destruct (F_mul_correct s x Fs Fx) as [E F].
  { unfold no_ovf. rewrite Q, Rabs_mult. assert (B := F_abs_lt x). assert (P := Rabs_pos (F2R64 x)). assert (Rabs v <= 1) by (destruct V as [->|[->| ->]]; unfold Rabs; destruct (Rcase_abs _); lra).
    apply Rle_lt_trans with (1 * Rabs (F2R64 x)); [apply Rmult_le_compat_r; assumption|lra]. }
  split; [exact F|]. rewrite E. exact Q.
Qed.
Lemma F_stay (x y : F64) : F_fin x = true -> F_fin y = true -> F2R64 y = 0 -> F_fin (dadd x y) = true /\ F2R64 (dadd x y) = F2R64 x.
Proof.
  intros Fx Fy Ey. assert (Q : rnd (F2R64 x + F2R64 y) = F2R64 x) by (rewrite Ey, Rplus_0_r; apply rnd_id, F_fmt).
  destruct (F_add_correct x y Fx Fy) as [E F]; [unfold no_ovf; rewrite Q; apply F_abs_lt|]. split; [exact F|]. rewrite E. exact Q.
Qed.
Lemma F_go (x y : F64) : F_fin x = true -> F_fin y = true -> Rabs (F2R64 x) <= bpow radix2 1000 -> Rabs (F2R64 y) <= bpow radix2 1000 -> F_fin (dadd x y) = true /\ F2R64 (dadd x y) = rnd (F2R64 x + F2R64 y).
Proof.
  intros Fx Fy Bx By. destruct (F_add_correct x y Fx Fy) as [E F]; [|auto].
  apply (no_ovf_le (bpow radix2 1001)); [apply fmt_bpow; lia|apply bpow_lt; lia|].
  apply Rle_trans with (Rabs (F2R64 x) + Rabs (F2R64 y)); [apply Rabs_triang|]. change 1001%Z with (1000 + 1)%Z. rewrite bpow_plus. change (bpow radix2 1) with 2. lra.
Qed.
Lemma step_bound tr f : Rabs tr <= bpow radix2 1000 -> Rabs (tr / 2 ^ f) <= bpow radix2 1000.
Proof.
  intros H. assert (P : 1 <= 2 ^ f) by (apply pow_R1_Rle; lra). unfold Rdiv. rewrite Rabs_mult, Rabs_inv, (Rabs_right (2 ^ f)) by lra.
  assert (Q : / 2 ^ f <= / 1) by (apply Rinv_le; lra). rewrite Rinv_1 in Q. assert (0 < / 2 ^ f) by (apply Rinv_0_lt_compat; lra). assert (R := Rabs_pos tr). nra.
Qed.
Lemma nbrs_F (tr rot : F64) (f : nat) (b : pose F64) (v : pose R) : F_fin tr = true -> F_fin rot = true ->
  bpow radix2 (-900) <= Rabs (F2R64 tr) <= bpow radix2 1000 -> bpow radix2 (-900) <= Rabs (F2R64 rot) <= bpow radix2 1000 -> (f <= 100)%nat ->
  stands_at b v -> Rabs (px v) <= bpow radix2 1000 -> Rabs (py v) <= bpow radix2 1000 -> Rabs (pth v) <= bpow radix2 1000 ->
  Forall2 stands_at (nbrs tr rot f b) (rounded_moves (F2R64 tr) (F2R64 rot) f v).
Proof.
  intros Ft Fr [B1 B2] [B3 B4] L ((Fx & Ex) & (Fy & Ey) & (Fth & Eth)) BX BY BT.
  destruct (steps_exact tr f Ft B1 L) as [F1 E1]. destruct (steps_exact rot f Fr B3 L) as [F2 E2]. change (trf rot f) with (rotf rot f) in F2, E2.
  assert (H1 := step_bound (F2R64 tr) f B2). assert (H2 := step_bound (F2R64 rot) f B4). rewrite <- E1 in H1. rewrite <- E2 in H2.
  unfold nbrs, rounded_moves. cbn [nbf]. unfold nb, d1_next. cbn [d1_base d1_action d1_tr d1_rot d1_sin d1_cos fst]. rewrite <- E1, <- E2.
  change ((0 + 1 + 1 + 1 + 1 + 1)%Z) with 5%Z. change (0 + 1 + 1 + 1 + 1)%Z with 4%Z. change (0 + 1 + 1 + 1)%Z with 3%Z. change (0 + 1 + 1)%Z with 2%Z.
  change (0 + 1)%Z with 1%Z. change (0 mod 2 =? 0)%Z with true. change (1 mod 2 =? 0)%Z with false. change (2 mod 2 =? 0)%Z with true.
  change (3 mod 2 =? 0)%Z with false. change (4 mod 2 =? 0)%Z with true. change (5 mod 2 =? 0)%Z with false.
  change (0 mod 3 =? 0)%Z with true. change (1 mod 3 =? 0)%Z with false. change (2 mod 3 =? 0)%Z with false.
  change (3 mod 3 =? 0)%Z with true. change (4 mod 3 =? 0)%Z with false. change (5 mod 3 =? 0)%Z with false.
  change (1 mod 3 =? 1)%Z with true. change (2 mod 3 =? 1)%Z with false. change (4 mod 3 =? 1)%Z with true. change (5 mod 3 =? 1)%Z with false.
  cbv iota.
  destruct (F_ofZ_correct 1 ltac:(lia)) as [One Fone]. destruct (F_ofZ_correct 0 ltac:(lia)) as [Zer Fzer]. destruct (F_ofZ_correct (-1) ltac:(lia)) as [Neg Fneg].
  destruct (F_dopp_correct (dofZ 0)) as [Nz Fnz]. rewrite Zer, Ropp_0 in Nz. rewrite Fzer in Fnz.
  generalize dependent (trf tr f). generalize dependent (rotf rot f). intros k Fk Ek Hk h Fh Eh Hh.
  generalize dependent (dofZ 1 : F64). generalize dependent (dopp (dofZ 0 : F64)). generalize dependent (dofZ 0 : F64). generalize dependent (dofZ (-1) : F64). intros mi Neg Fneg z Zer Fzer nz Nz Fnz one One Fone.
  assert (P11 := F_scale one one 1 Fone One (or_introl eq_refl) Fone). assert (P1m := F_scale one mi 1 Fone One (or_introl eq_refl) Fneg).
  assert (Pz1 := F_scale z one 0 Fzer Zer (or_intror (or_intror eq_refl)) Fone). assert (Pzm := F_scale z mi 0 Fzer Zer (or_intror (or_intror eq_refl)) Fneg).
  assert (Pn1 := F_scale nz one 0 Fnz Nz (or_intror (or_intror eq_refl)) Fone). assert (Pnm := F_scale nz mi 0 Fnz Nz (or_intror (or_intror eq_refl)) Fneg).
  rewrite One in P11, Pz1, Pn1. rewrite Neg in P1m, Pzm, Pnm.
  destruct P11 as [A1 A2], P1m as [A3 A4], Pz1 as [A5 A6], Pzm as [A7 A8], Pn1 as [A9 A10], Pnm as [A11 A12].
  assert (M : forall s u : F64, forall w : R, F_fin s = true -> F2R64 s = w -> w = 1 \/ w = -1 \/ w = 0 -> F_fin u = true -> F_fin (dmul s u) = true /\ F2R64 (dmul s u) = w * F2R64 u) by (intros; now apply F_scale).
  assert (Z1 := M _ h 0 A5 ltac:(lra) ltac:(auto) Fh). assert (Z2 := M _ h 0 A7 ltac:(lra) ltac:(auto) Fh). assert (Z3 := M _ h 0 A9 ltac:(lra) ltac:(auto) Fh). assert (Z4 := M _ h 0 A11 ltac:(lra) ltac:(auto) Fh).
  assert (U1 := M _ h 1 A1 ltac:(lra) ltac:(auto) Fh). assert (U2 := M _ h (-1) A3 ltac:(lra) ltac:(auto) Fh). assert (V1 := M _ k 1 Fone One ltac:(auto) Fk). assert (V2 := M _ k (-1) Fneg Neg ltac:(auto) Fk).
  assert (GoX : forall u w, F_fin u = true /\ F2R64 u = w * F2R64 h -> w = 1 \/ w = -1 -> F_fin (dadd (px b) u) = true /\ F2R64 (dadd (px b) u) = rnd (px v + w * F2R64 h)).
  { intros u w (Fu & Eu) W. rewrite <- Ex, <- Eu. apply F_go; [exact Fx|exact Fu|rewrite Ex; exact BX|]. rewrite Eu. destruct W as [->| ->]; [rewrite Rmult_1_l; exact Hh|]. replace (-1 * F2R64 h) with (- F2R64 h) by ring. rewrite Rabs_Ropp. exact Hh. }
  assert (GoY : forall u w, F_fin u = true /\ F2R64 u = w * F2R64 h -> w = 1 \/ w = -1 -> F_fin (dadd (py b) u) = true /\ F2R64 (dadd (py b) u) = rnd (py v + w * F2R64 h)).
  { intros u w (Fu & Eu) W. rewrite <- Ey, <- Eu. apply F_go; [exact Fy|exact Fu|rewrite Ey; exact BY|]. rewrite Eu. destruct W as [->| ->]; [rewrite Rmult_1_l; exact Hh|]. replace (-1 * F2R64 h) with (- F2R64 h) by ring. rewrite Rabs_Ropp. exact Hh. }
  assert (GoT : forall u w, F_fin u = true /\ F2R64 u = w * F2R64 k -> w = 1 \/ w = -1 -> F_fin (dadd (pth b) u) = true /\ F2R64 (dadd (pth b) u) = rnd (pth v + w * F2R64 k)).
  { intros u w (Fu & Eu) W. rewrite <- Eth, <- Eu. apply F_go; [exact Fth|exact Fu|rewrite Eth; exact BT|]. rewrite Eu. destruct W as [->| ->]; [rewrite Rmult_1_l; exact Hk|]. replace (-1 * F2R64 k) with (- F2R64 k) by ring. rewrite Rabs_Ropp. exact Hk. }
  assert (SX : forall u, F_fin u = true /\ F2R64 u = 0 * F2R64 h -> F_fin (dadd (px b) u) = true /\ F2R64 (dadd (px b) u) = px v) by (intros u (Fu & Eu); rewrite <- Ex; apply F_stay; [exact Fx|exact Fu|lra]).
  assert (SY : forall u, F_fin u = true /\ F2R64 u = 0 * F2R64 h -> F_fin (dadd (py b) u) = true /\ F2R64 (dadd (py b) u) = py v) by (intros u (Fu & Eu); rewrite <- Ey; apply F_stay; [exact Fy|exact Fu|lra]).
  replace (px v + F2R64 h) with (px v + 1 * F2R64 h) by ring. replace (px v - F2R64 h) with (px v + -1 * F2R64 h) by ring.
  replace (py v + F2R64 h) with (py v + 1 * F2R64 h) by ring. replace (py v - F2R64 h) with (py v + -1 * F2R64 h) by ring.
  replace (pth v + F2R64 k) with (pth v + 1 * F2R64 k) by ring. replace (pth v - F2R64 k) with (pth v + -1 * F2R64 k) by ring.
  repeat (apply Forall2_cons); [| | | | | |apply Forall2_nil]; unfold stands_at; cbn [px py pth]; (split; [|split]); auto.
Qed.
