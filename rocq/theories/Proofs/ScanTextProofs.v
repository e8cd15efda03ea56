(** Writing and reading decimal text. *)
From Coq Require Import Reals ZArith List Bool Lia Lra.
From Flocq Require Import Core IEEE754.BinarySingleNaN IEEE754.Binary IEEE754.Bits.
From Flocq Require Import Relative.
From Verif.Base Require Import Outcome Num F64Facts.
From Verif.Model Require Import MathUtils Geometry Sensor ScanText.
From Verif.Spec Require Import ScanTextSpec.
Import ListNotations.
Local Open Scope R_scope.

Definition rnd6 (x : R) : R := round radix10 exp6 ZnearestE x.

#[local] Instance exp6_valid : Valid_exp exp6.
Proof. apply FLX_exp_valid. reflexivity. Qed.
#[local] Instance exp6_mono : Monotone_exp exp6.
Proof. apply FLX_exp_monotone. Qed.
#[local] Instance prec6 : Prec_gt_0 6.
Proof. reflexivity. Qed.

Lemma bpow10_pow e :
  bpow radix10 e = match e with Z0 => 1 | Zpos p => 10 ^ (Pos.to_nat p) | Zneg p => / 10 ^ (Pos.to_nat p) end.
Proof.
  destruct e as [|p|p]; [reflexivity| |].
  - cbn. rewrite Zpower_pos_nat. rewrite Zpower_nat_Z. rewrite <- pow_IZR. reflexivity.
  - cbn. f_equal. rewrite Zpower_pos_nat. rewrite Zpower_nat_Z. rewrite <- pow_IZR. reflexivity.
Qed.

Lemma six_digits_format d : six_digits d <-> generic_format radix10 exp6 d.
Proof.
  split.
  - intros [m [e [Hm ->]]]. apply generic_format_FLX. exists (Float radix10 m e).
    + unfold F2R; cbn [Fnum Fexp]. rewrite bpow10_pow. destruct e; unfold Rdiv; try rewrite Rmult_1_r; reflexivity.
    + cbn. exact Hm.
  - intros H. apply FLX_format_generic in H; [|reflexivity]. destruct H as [[m e] -> Hm].
    exists m, e. split; [exact Hm|]. unfold F2R; cbn [Fnum Fexp]. rewrite bpow10_pow.
    destruct e; unfold Rdiv; try rewrite Rmult_1_r; reflexivity.
Qed.

Lemma rnd_nonneg r : 0 <= r -> 0 <= rnd r.
Proof. intros H. apply rnd_ge; [apply fmt_0|exact H]. Qed.
Lemma rnd6_nonneg r : 0 <= r -> 0 <= rnd6 r.
Proof. intros H. apply round_ge_generic; [typeclasses eauto|typeclasses eauto|apply generic_format_0|exact H]. Qed.

Lemma nearest_double_correct neg r : 0 <= r -> rnd r < fmax_bound ->
  F2R64 (nearest_double neg r) = (if neg then - rnd r else rnd r) /\
  F_fin (nearest_double neg r) = true /\ Bsign 53 1024 (nearest_double neg r) = neg.
Proof.
  intros Hr Ho. unfold nearest_double.
  set (m := ZnearestE (scaled_mantissa radix2 fexp64 r)). set (e := cexp radix2 fexp64 r).
  assert (Hv : F2R (Float radix2 (cond_Zopp neg m) e) = if neg then - rnd r else rnd r).
  { rewrite F2R_cond_Zopp. unfold rnd, round. fold m. fold e. destruct neg; reflexivity. }
  assert (Hid : rnd (if neg then - rnd r else rnd r) = if neg then - rnd r else rnd r).
  { apply rnd_id. destruct neg; [apply fmt_opp|]; apply rnd_fmt. }
  assert (Hp := rnd_nonneg r Hr).
  generalize (binary_normalize_correct 53 1024 F_prec_gt_0 F_prec_lt_emax mode_NE (cond_Zopp neg m) e neg).
  cbv zeta. rewrite Hv. change (round radix2 (SpecFloat.fexp 53 1024) (round_mode mode_NE)) with rnd. rewrite Hid.
  rewrite Rlt_bool_true.
  - intros [H1 [H2 H3]]. split; [exact H1|]. split; [exact H2|].
    rewrite H3. destruct (Rcompare_spec (if neg then - rnd r else rnd r) 0); destruct neg; try reflexivity; lra.
  - fold fmax_bound. destruct neg; [rewrite Rabs_Ropp|]; rewrite Rabs_pos_eq; assumption.
Qed.

(** the largest six-digit decimal below 2^1024 *)
Lemma rnd6_max r : 0 <= r -> r <= bpow radix2 1024 -> rnd6 r <= F2R (Float radix10 179769 303).
Proof.
  intros H0 Hr. set (u := F2R (Float radix10 179769 303)).
  assert (Fu : generic_format radix10 exp6 u).
  { apply generic_format_FLX. exists (Float radix10 179769 303); [reflexivity|]. cbn. lia. }
  assert (Hu : 0 < u) by (apply F2R_gt_0; cbn; lia).
  assert (Hm : mag radix10 u = 309%Z :> Z).
  { apply mag_unique. rewrite Rabs_pos_eq by lra. unfold u, F2R; cbn [Fnum Fexp].
    change (309 - 1)%Z with (5 + 303)%Z. change 309%Z with (6 + 303)%Z. rewrite !bpow_plus.
    assert (P := bpow_gt_0 radix10 303).
    change (bpow radix10 5) with 100000. change (bpow radix10 6) with 1000000. nra. }
  assert (Hs : succ radix10 exp6 u = u + bpow radix10 303).
  { rewrite succ_eq_pos by lra. rewrite ulp_neq_0 by lra. unfold cexp, exp6, FLX_exp. rewrite Hm. reflexivity. }
  apply round_N_le_midp; [typeclasses eauto|exact Fu|].
  rewrite Hs. apply Rle_lt_trans with (bpow radix2 1024); [exact Hr|].
  replace ((u + (u + bpow radix10 303)) / 2) with (IZR (179769 * 10 ^ 303 * 2 + 10 ^ 303) / 2).
  2:{ unfold u, F2R; cbn [Fnum Fexp]. replace (bpow radix10 303) with (IZR (10 ^ 303)) by exact (IZR_Zpower radix10 303 ltac:(lia)).
      rewrite plus_IZR, !mult_IZR. field. }
  replace (bpow radix2 1024) with (IZR (2 ^ 1024)) by exact (IZR_Zpower radix2 1024 ltac:(lia)).
  apply Rmult_lt_reg_r with 2; [lra|]. unfold Rdiv. rewrite Rmult_assoc, Rinv_l, Rmult_1_r by lra.
  rewrite <- mult_IZR. apply IZR_lt. vm_compute. reflexivity.
Qed.

Lemma rnd6_no_ovf (x : F64) : rnd (rnd6 (Rabs (F2R64 x))) < fmax_bound.
Proof.
  assert (H := rnd6_max (Rabs (F2R64 x)) (Rabs_pos _) (Rlt_le _ _ (F_abs_lt x))).
  apply Rle_lt_trans with (IZR (9007199254740991 * 2 ^ 971)).
  - apply rnd_le_fmt.
    + apply generic_format_FLT. exists (Float radix2 9007199254740991 971).
      * unfold F2R; cbn [Fnum Fexp]. rewrite mult_IZR. f_equal.
      * cbn [Fnum]. vm_compute. reflexivity.
      * cbn [Fexp]. lia.
    + apply Rle_trans with (1 := H). unfold F2R; cbn [Fnum Fexp]. replace (bpow radix10 303) with (IZR (10 ^ 303)) by exact (IZR_Zpower radix10 303 ltac:(lia)).
      rewrite <- mult_IZR. apply IZR_le. vm_compute. discriminate.
  - unfold fmax_bound. replace (bpow radix2 1024) with (IZR (2 ^ 1024)) by exact (IZR_Zpower radix2 1024 ltac:(lia)). apply IZR_lt. vm_compute. reflexivity.
Qed.

(** what a double becomes after being written and read *)
Definition trip (x : F64) : F64 := nearest_double (Bsign 53 1024 x) (rnd6 (Rabs (F2R64 x))).

Lemma trip_correct x : F_fin x = true ->
  F2R64 (trip x) = (if Bsign 53 1024 x then - rnd (rnd6 (Rabs (F2R64 x))) else rnd (rnd6 (Rabs (F2R64 x)))) /\
  F_fin (trip x) = true /\ Bsign 53 1024 (trip x) = Bsign 53 1024 x.
Proof. intros _. apply nearest_double_correct; [apply rnd6_nonneg, Rabs_pos|apply rnd6_no_ovf]. Qed.

Lemma F2R_sign x : F_fin x = true ->
  F2R64 x = if Bsign 53 1024 x then - Rabs (F2R64 x) else Rabs (F2R64 x).
Proof.
  destruct x as [s| | |s m e H]; try discriminate; intros _; unfold F2R64; cbn [B2R Bsign].
  - rewrite Rabs_R0. destruct s; lra.
  - assert (P : 0 < F2R (Float radix2 (Zpos m) e)) by (apply F2R_gt_0; reflexivity).
    change (cond_Zopp s (Zpos m)) with (cond_Zopp s (Zpos m)). rewrite F2R_cond_Zopp.
    destruct s; cbn [cond_Ropp]; [rewrite Rabs_Ropp|]; rewrite Rabs_pos_eq; lra.
Qed.

Lemma read_printed x d0 ws : F_fin x = true ->
  read_double d0 (mkIS true (print_double x :: ws)) = (trip x, mkIS true ws).
Proof.
  intros Fx. unfold read_double. cbn [is_good is_rest].
  assert (E : exists m e, print_double x = WDec (Bsign 53 1024 x) m e /\
              F2R (Float radix10 m e) = rnd6 (Rabs (F2R64 x))).
  { destruct x as [s| | |s m e H]; try discriminate.
    - exists 0%Z, 0%Z. split; [reflexivity|]. unfold F2R64; cbn [B2R]. rewrite Rabs_R0.
      unfold rnd6. rewrite round_0 by typeclasses eauto. apply F2R_0.
    - eexists _, _. split; [reflexivity|]. reflexivity. }
  destruct E as [m [e [-> E]]]. rewrite E. fold (trip x).
  destruct (trip_correct x Fx) as [_ [H _]]. rewrite H. reflexivity.
Qed.

Lemma print_nonfin x d0 ws : F_fin x = false ->
  read_double d0 (mkIS true (print_double x :: ws)) = (dofZ 0, mkIS false ws).
Proof. destruct x; try discriminate; reflexivity. Qed.

Lemma rnd_nearest y x : fmt64 x -> Rabs (rnd y - y) <= Rabs (x - y).
Proof. intros H. apply (round_N_pt radix2 fexp64 (fun z => negb (Z.even z)) y). exact H. Qed.
Lemma rnd6_nearest x d : generic_format radix10 exp6 d -> Rabs (rnd6 x - x) <= Rabs (d - x).
Proof. intros H. apply (round_N_pt radix10 exp6 (fun z => negb (Z.even z)) x). exact H. Qed.

Lemma rnd6_err x : Rabs (rnd6 x - x) <= / 200000 * Rabs x.
Proof.
  assert (H := relative_error_N_FLX radix10 6 ltac:(reflexivity) (fun z => negb (Z.even z)) x).
  apply Rle_trans with (1 := H). apply Rmult_le_compat_r; [apply Rabs_pos|].
  assert (B : bpow radix10 (- (6) + 1) = / 100000) by reflexivity. rewrite B. lra.
Qed.

Lemma trip_about x : F_fin x = true -> about x (trip x).
Proof.
  intros Fx. destruct (trip_correct x Fx) as [H1 [H2 H3]].
  split; [exact H2|]. split; [exact H3|].
  set (a := Rabs (F2R64 x)) in *.
  assert (Fa : fmt64 a) by (apply fmt_abs, F_fmt).
  assert (E : Rabs (rnd (rnd6 a) - a) <= / 100000 * a).
  { assert (A := rnd_nearest (rnd6 a) a Fa). assert (B := rnd6_err a).
    rewrite (Rabs_pos_eq a) in B by apply Rabs_pos.
    rewrite Rabs_minus_sym in A.
    replace (rnd (rnd6 a) - a) with ((rnd (rnd6 a) - rnd6 a) + (rnd6 a - a)) by ring.
    apply Rle_trans with (1 := Rabs_triang _ _).
    rewrite Rabs_minus_sym in A. rewrite (Rabs_minus_sym a) in A. lra. }
  rewrite H1, (F2R_sign x Fx). fold a. destruct (Bsign 53 1024 x); [|exact E].
  replace (- rnd (rnd6 a) - - a) with (- (rnd (rnd6 a) - a)) by ring. rewrite Rabs_Ropp. exact E.
Qed.

(** ** which doubles are restored *)

(** in the range of subnormal numbers doubles are evenly spaced *)
Lemma rnd_small y : Rabs y < bpow radix2 (-1021) ->
  rnd y = IZR (ZnearestE (y * bpow radix2 1074)) * bpow radix2 (-1074).
Proof.
  intros H. destruct (Req_dec y 0) as [->|N].
  { rewrite rnd_0, Rmult_0_l. assert (Z0 : ZnearestE 0 = 0%Z) by (apply (Znearest_imp _ 0 0); rewrite Rminus_0_r, Rabs_R0; lra).
    rewrite Z0. ring. }
  unfold rnd, round, F2R, scaled_mantissa; cbn [Fnum Fexp].
  assert (E : cexp radix2 fexp64 y = (-1074)%Z).
  { unfold cexp, fexp64, FLT_exp. assert (M := mag_le_bpow radix2 y (-1021) N H). lia. }
  rewrite E. reflexivity.
Qed.

Lemma ZnearestE_closer n d y :
  ZnearestE d = n -> Rabs (y - IZR n) <= Rabs (d - IZR n) -> ZnearestE y = n.
Proof.
  intros Hd Hy.
  assert (B : Rabs (d - IZR n) <= / 2) by (rewrite <- Hd; apply Znearest_half).
  destruct (Rlt_or_le (Rabs (y - IZR n)) (/ 2)) as [L|L]; [apply Znearest_imp; exact L|].
  assert (E : Rabs (d - IZR n) = / 2) by lra.
  assert (Ey : Rabs (y - IZR n) = / 2) by lra.
  assert (Ev : Z.even n = true).
  { assert (Hcase : d = IZR n + / 2 \/ d = IZR (n - 1) + / 2).
    { rewrite minus_IZR. destruct (Rcase_abs (d - IZR n)) as [C|C].
      - right. rewrite Rabs_left in E by exact C. lra.
      - left. rewrite Rabs_right in E by exact C. lra. }
    destruct Hcase as [Hc|Hc].
    - unfold Znearest in Hd. assert (Fl : Zfloor d = n).
      { apply Zfloor_imp. rewrite plus_IZR. lra. }
      assert (Ce : Zceil d = (n + 1)%Z).
      { apply Zceil_imp. rewrite plus_IZR, minus_IZR, plus_IZR. lra. }
      rewrite Fl, Ce in Hd. rewrite Rcompare_Eq in Hd by lra.
      destruct (Z.even n); [reflexivity|cbn in Hd; lia].
    - unfold Znearest in Hd. assert (Fl : Zfloor d = (n - 1)%Z).
      { apply Zfloor_imp. rewrite plus_IZR. lra. }
      assert (Ce : Zceil d = n).
      { apply Zceil_imp. rewrite minus_IZR in *. lra. }
      rewrite Fl, Ce in Hd. rewrite Rcompare_Eq in Hd by lra.
      destruct (Z.even (n - 1)) eqn:Q; [cbn in Hd; lia|].
      rewrite Z.even_sub in Q. destruct (Z.even n); [reflexivity|discriminate]. }
  destruct (Rcase_abs (y - IZR n)) as [C|C].
  - rewrite Rabs_left in Ey by exact C.
    assert (Hc : y = IZR (n - 1) + / 2) by (rewrite minus_IZR; lra).
    unfold Znearest. assert (Fl : Zfloor y = (n - 1)%Z).
    { apply Zfloor_imp. rewrite plus_IZR. lra. }
    assert (Ce : Zceil y = n).
    { apply Zceil_imp. rewrite minus_IZR in *. lra. }
    rewrite Fl, Ce, Rcompare_Eq by lra. rewrite Z.even_sub, Ev. reflexivity.
  - rewrite Rabs_right in Ey by exact C.
    unfold Znearest. assert (Fl : Zfloor y = n).
    { apply Zfloor_imp. rewrite plus_IZR. lra. }
    assert (Ce : Zceil y = (n + 1)%Z).
    { apply Zceil_imp. rewrite plus_IZR, minus_IZR, plus_IZR. lra. }
    rewrite Fl, Ce, Rcompare_Eq by lra. rewrite Ev. reflexivity.
Qed.

Lemma bpow_1074 : bpow radix2 1074 * bpow radix2 (-1074) = 1.
Proof. rewrite <- bpow_plus. reflexivity. Qed.

Lemma half_ulp_small x : 0 < x -> bpow radix2 (-1023) <= x -> ulp radix2 fexp64 x <= x * / 1048576.
Proof.
  intros Hx Hb. rewrite ulp_neq_0 by lra. unfold cexp, fexp64, FLT_exp.
  assert (M : bpow radix2 (mag radix2 x - 1) <= x).
  { destruct (mag radix2 x) as [k Hk]. cbn. rewrite <- (Rabs_pos_eq x) by lra. apply Hk. lra. }
  destruct (Z.max_spec (mag radix2 x - 53) (-1074)) as [[C ->]|[C ->]].
  - apply Rle_trans with (bpow radix2 (-1023) * / 1048576); [|nra].
    change (/ 1048576) with (bpow radix2 (-20)). rewrite <- bpow_plus. apply bpow_le. lia.
  - apply Rle_trans with (bpow radix2 (mag radix2 x - 1) * / 1048576); [|nra].
    change (/ 1048576) with (bpow radix2 (-20)). rewrite <- bpow_plus. apply bpow_le. lia.
Qed.

(** two different six-digit decimals are at least one millionth apart *)
Lemma six_digits_gap a b : generic_format radix10 exp6 a -> generic_format radix10 exp6 b -> 0 < a -> a < b ->
  / 1000000 * b <= b - a.
Proof.
  intros Fa Fb Ha Hab.
  assert (P : a <= Generic_fmt.round radix10 exp6 Zfloor a) by (rewrite round_generic; [lra|typeclasses eauto|exact Fa]).
  assert (S : succ radix10 exp6 a <= b) by (apply succ_le_lt; [typeclasses eauto|exact Fa|exact Fb|exact Hab]).
  rewrite succ_eq_pos in S by lra.
  assert (U : / 1000000 * b <= b - a); [|exact U].
  assert (L : a <= ulp radix10 exp6 a * 1000000 - ulp radix10 exp6 a).
  { (* the mantissa of [a] is at most 999999 *)
    assert (E := Fa). unfold generic_format in E. set (m := Ztrunc (scaled_mantissa radix10 exp6 a)) in E.
    rewrite ulp_neq_0 by lra. unfold F2R in E; cbn [Fnum Fexp] in E.
    assert (Bp := bpow_gt_0 radix10 (cexp radix10 exp6 a)).
    assert (Mm : (m <= 999999)%Z).
    { assert (A : a < bpow radix10 (mag radix10 a)).
      { destruct (mag radix10 a) as [k Hk]. cbn. rewrite <- (Rabs_pos_eq a) at 1 by lra. apply Hk. lra. }
      assert (B : IZR m * bpow radix10 (cexp radix10 exp6 a) < 1000000 * bpow radix10 (cexp radix10 exp6 a)).
      { change 1000000 with (bpow radix10 6). rewrite <- bpow_plus. unfold cexp at 2, exp6, FLX_exp.
        replace (6 + (mag radix10 a - 6))%Z with (mag radix10 a : Z) by lia.
        apply Rle_lt_trans with (2 := A). right. symmetry. exact E. }
      apply Rmult_lt_reg_r in B; [|exact Bp]. change 1000000 with (IZR 1000000) in B. apply lt_IZR in B. lia. }
    apply IZR_le in Mm. rewrite E at 1. nra. }
  assert (Bp : 0 <= ulp radix10 exp6 a) by apply ulp_ge_0.
  lra.
Qed.

Lemma restored_pos x d : fmt64 x -> 0 < x -> generic_format radix10 exp6 d -> rnd d = x -> rnd (rnd6 x) = x.
Proof.
  intros Fx Hx Fd Hd.
  assert (F6 : generic_format radix10 exp6 (rnd6 x)) by (apply generic_format_round; typeclasses eauto).
  assert (C := rnd6_nearest x d Fd).
  destruct (Rlt_or_le x (bpow radix2 (-1022))) as [S|S].
  - (* evenly spaced doubles: a closer decimal rounds alike *)
    assert (P := bpow_gt_0 radix2 1074). assert (Q := bpow_gt_0 radix2 (-1074)).
    assert (E2 : bpow radix2 (-1021) = bpow radix2 (-1022) * 2) by reflexivity || (change 2 with (bpow radix2 1); rewrite <- bpow_plus; reflexivity).
    assert (Dd : Rabs d < bpow radix2 (-1021)).
    { assert (D0 : 0 < d).
      { destruct (Rlt_or_le 0 d) as [L|L]; [exact L|]. assert (W := rnd_le_fmt 0 d fmt_0 L). lra. }
      rewrite Rabs_pos_eq by lra.
      destruct (Rlt_or_le d (bpow radix2 (-1021))) as [L|L]; [exact L|].
      assert (W := rnd_ge (bpow radix2 (-1021)) d (fmt_bpow (-1021) ltac:(lia)) L). lra. }
    assert (D6 : Rabs (rnd6 x) < bpow radix2 (-1021)).
    { assert (W := rnd6_err x). rewrite (Rabs_pos_eq x) in W by lra. apply Rabs_le_inv in W.
      apply Rabs_lt. lra. }
    rewrite (rnd_small _ Dd) in Hd. rewrite (rnd_small _ D6).
    set (n := ZnearestE (d * bpow radix2 1074)) in *.
    assert (En : IZR n = x * bpow radix2 1074).
    { rewrite <- Hd, Rmult_assoc, (Rmult_comm (bpow radix2 (-1074))), bpow_1074. ring. }
    rewrite (ZnearestE_closer n (d * bpow radix2 1074) (rnd6 x * bpow radix2 1074)); [exact Hd|reflexivity|].
    rewrite En. replace (rnd6 x * bpow radix2 1074 - x * bpow radix2 1074) with ((rnd6 x - x) * bpow radix2 1074) by ring.
    replace (d * bpow radix2 1074 - x * bpow radix2 1074) with ((d - x) * bpow radix2 1074) by ring.
    rewrite !Rabs_mult. apply Rmult_le_compat_r; [apply Rabs_pos|exact C].
  - (* decimals are much further apart than doubles: it is the same decimal *)
    assert (D : Rabs (d - x) <= x * / 1048576 * / 2).
    { assert (W := error_le_half_ulp_round radix2 fexp64 (fun z => negb (Z.even z)) d).
      change (round radix2 fexp64 (Znearest (fun z => negb (Z.even z))) d) with (rnd d) in W.
      rewrite Hd in W. rewrite Rabs_minus_sym.
      assert (U := half_ulp_small x Hx ltac:(apply Rle_trans with (2 := S); apply bpow_le; lia)). lra. }
    assert (E : rnd6 x = d); [|rewrite E; exact Hd].
    apply Rabs_le_inv in D. assert (C' : Rabs (rnd6 x - x) <= x * / 1048576 * / 2).
    { apply Rle_trans with (1 := C). apply Rabs_le. lra. }
    apply Rabs_le_inv in C'.
    destruct (Rtotal_order (rnd6 x) d) as [L|[L|L]]; [exfalso|exact L|exfalso].
    + assert (G := six_digits_gap _ _ F6 Fd ltac:(lra) L). lra.
    + assert (G := six_digits_gap _ _ Fd F6 ltac:(lra) L). lra.
Qed.

Lemma rnd6_opp x : rnd6 (- x) = - rnd6 x.
Proof. unfold rnd6. apply round_NE_opp. Qed.

Lemma F64_eq_of x y : F_fin x = true -> F_fin y = true -> F2R64 x = F2R64 y ->
  Bsign 53 1024 x = Bsign 53 1024 y -> x = y.
Proof. intros A B C D. apply B2R_Bsign_inj; assumption. Qed.

Lemma trip_restores x : F_fin x = true -> (trip x = x <-> six_digit_double x).
Proof.
  intros Fx. destruct (trip_correct x Fx) as [H1 [H2 H3]]. set (a := Rabs (F2R64 x)) in *.
  assert (Sx := F2R_sign x Fx). fold a in Sx.
  assert (Fa : fmt64 a) by (apply fmt_abs, F_fmt).
  split.
  - intros E. rewrite E in H1. exists (if Bsign 53 1024 x then - rnd6 a else rnd6 a). split.
    + apply six_digits_format. destruct (Bsign 53 1024 x); [apply generic_format_opp|];
        apply generic_format_round; typeclasses eauto.
    + rewrite H1. destruct (Bsign 53 1024 x); [rewrite rnd_opp|]; reflexivity.
  - intros [d [Hd E]]. apply six_digits_format in Hd.
    assert (R : rnd (rnd6 a) = a).
    { assert (Ha : 0 <= a) by apply Rabs_pos. destruct (Req_dec a 0) as [Z|Z].
      - rewrite Z. unfold rnd6. rewrite round_0 by typeclasses eauto. apply rnd_0.
      - destruct (Bsign 53 1024 x).
        + apply (restored_pos a (- d)); [exact Fa|lra|apply generic_format_opp; exact Hd|rewrite rnd_opp; lra].
        + apply (restored_pos a d); [exact Fa|lra|exact Hd|lra]. }
    apply F64_eq_of; [exact H2|exact Fx| |exact H3]. rewrite H1, R. symmetry. exact Sx.
Qed.

Lemma trip_six x : F_fin x = true -> six_digit_double (trip x).
Proof.
  intros Fx. destruct (trip_correct x Fx) as [H1 [H2 H3]]. set (a := Rabs (F2R64 x)) in *.
  exists (if Bsign 53 1024 x then - rnd6 a else rnd6 a). split.
  - apply six_digits_format. destruct (Bsign 53 1024 x); [apply generic_format_opp|];
      apply generic_format_round; typeclasses eauto.
  - rewrite H1. destruct (Bsign 53 1024 x); [rewrite rnd_opp|]; reflexivity.
Qed.

Lemma trip_stable x : F_fin x = true -> trip (trip x) = trip x.
Proof.
  intros Fx. apply trip_restores; [apply trip_correct; exact Fx|apply trip_six; exact Fx].
Qed.

(** ** scans *)
Section Scans.
  Variable datan2 : F64 -> F64 -> F64.
  Definition trip_point (p : scan_point F64) : scan_point F64 :=
    sp_make_polar (trip (sp_range p)) (trip (sp_angle datan2 p)) (sp_occ p).

  Lemma read_points_written pts ws : Forall (sp_finite datan2) pts ->
    read_points (length pts) (mkIS true (concat (map (write_point datan2) pts) ++ ws)) =
    Ok (map trip_point pts, mkIS true ws).
  Proof.
    induction 1 as [|p pts [H1 H2] _ IH]; [reflexivity|].
    cbn [map concat length read_points]. unfold write_point at 1. cbn [app].
    rewrite (read_printed _ _ _ H1), (read_printed _ _ _ H2). cbn [read_bool is_good is_rest].
    rewrite IH. reflexivity.
  Qed.

  Lemma load_scan_finite pts : Forall (sp_finite datan2) pts ->
    load_scan (dump_scan datan2 pts) = Ok (map trip_point pts).
  Proof.
    intros H. unfold load_scan, dump_scan, read_scan, write_scan. cbn [read_count is_good is_rest].
    rewrite Nat2Z.id. rewrite <- (app_nil_r (concat _)), (read_points_written pts [] H). reflexivity.
  Qed.

  Lemma trip_point_about p : sp_finite datan2 p -> point_about datan2 p (trip_point p).
  Proof.
    intros [H1 H2]. unfold point_about, trip_point, sp_make_polar; cbn [sp_occ sp_polar sp_factor].
    split; [reflexivity|]. split; [exact (trip_about _ H1)|]. split; [exact (trip_about _ H2)|].
    split; reflexivity.
  Qed.

  Lemma read_points_bad n ws : (0 < n)%nat -> read_points n (mkIS false ws) = UB.
  Proof. destruct n; [lia|]. reflexivity. Qed.

  Lemma read_points_nonfinite pts ws : ~ Forall (sp_finite datan2) pts ->
    read_points (length pts) (mkIS true (concat (map (write_point datan2) pts) ++ ws)) = UB.
  Proof.
    induction pts as [|p pts IH]; [intros H; exfalso; apply H; constructor|].
    intros H. cbn [map concat length read_points]. unfold write_point at 1. cbn [app].
    destruct (F_fin (sp_range p)) eqn:F1.
    - rewrite (read_printed _ _ _ F1). destruct (F_fin (sp_angle datan2 p)) eqn:F2.
      + rewrite (read_printed _ _ _ F2). cbn [read_bool is_good is_rest].
        rewrite IH; [reflexivity|]. intros G. apply H. constructor; [split; assumption|exact G].
      + rewrite (print_nonfin _ _ _ F2). reflexivity.
    - rewrite (print_nonfin _ _ _ F1). reflexivity.
  Qed.

  Lemma load_scan_nonfinite pts : ~ Forall (sp_finite datan2) pts ->
    load_scan (dump_scan datan2 pts) = UB.
  Proof.
    intros H. unfold load_scan, dump_scan, read_scan, write_scan. cbn [read_count is_good is_rest].
    rewrite Nat2Z.id. rewrite <- (app_nil_r (concat _)), (read_points_nonfinite pts [] H). reflexivity.
  Qed.

  (** fewer words than points need *)
  Lemma read_points_short pts : forall k, (k < 3 * length pts)%nat ->
    read_points (length pts) (mkIS true (firstn k (concat (map (write_point datan2) pts)))) = UB.
  Proof.
    induction pts as [|p pts IH]; intros k Hk; [cbn in Hk; lia|].
    cbn [map concat length]. unfold write_point at 1. cbn [app].
    destruct k as [|[|[|k]]].
    - reflexivity.
    - cbn [firstn read_points]. destruct (F_fin (sp_range p)) eqn:F1.
      + rewrite (read_printed _ _ _ F1). reflexivity.
      + rewrite (print_nonfin _ _ _ F1). reflexivity.
    - cbn [firstn read_points]. destruct (F_fin (sp_range p)) eqn:F1.
      + rewrite (read_printed _ _ _ F1). destruct (F_fin (sp_angle datan2 p)) eqn:F2.
        * rewrite (read_printed _ _ _ F2). reflexivity.
        * rewrite (print_nonfin _ _ _ F2). reflexivity.
      + rewrite (print_nonfin _ _ _ F1). reflexivity.
    - cbn [firstn read_points]. destruct (F_fin (sp_range p)) eqn:F1.
      + rewrite (read_printed _ _ _ F1). destruct (F_fin (sp_angle datan2 p)) eqn:F2.
        * rewrite (read_printed _ _ _ F2). cbn [read_bool is_good is_rest].
          rewrite IH by (cbn [length] in Hk; lia). reflexivity.
        * rewrite (print_nonfin _ _ _ F2). reflexivity.
      + rewrite (print_nonfin _ _ _ F1). reflexivity.
  Qed.

  Lemma dump_scan_length pts : length (dump_scan datan2 pts) = S (3 * length pts).
  Proof.
    unfold dump_scan, write_scan. cbn [length]. f_equal.
    induction pts as [|p pts IH]; [reflexivity|]. cbn [map concat length]. rewrite app_length, IH. cbn [write_point length]. lia.
  Qed.

  Lemma trip_point_trip p : sp_finite datan2 p -> trip_point (trip_point p) = trip_point p.
  Proof.
    intros [H1 H2]. unfold trip_point at 1.
    change (sp_range (trip_point p)) with (trip (sp_range p)).
    change (sp_angle datan2 (trip_point p)) with (trip (sp_angle datan2 p)).
    rewrite (trip_stable _ H1), (trip_stable _ H2). reflexivity.
  Qed.
  Lemma trip_point_finite p : sp_finite datan2 p -> sp_finite datan2 (trip_point p).
  Proof.
    intros [H1 H2]. split; [apply (trip_correct _ H1)|apply (trip_correct _ H2)].
  Qed.
End Scans.
