(** World/cell conversions over exact reals and over binary64 (C02, C03, C04). *)
From Coq Require Import Reals ZArith List Lia Lra Bool.
From Flocq Require Import Core Plus_error Relative IEEE754.BinarySingleNaN IEEE754.Binary IEEE754.Bits.
From Verif.Base Require Import Outcome Num F64Facts.
From Verif.Model Require Import MathUtils Geometry Grid.
From Verif.Spec Require Import GeometrySpec.
From Verif.Proofs Require Import ListFacts BresenhamProofs GridProofs.
Import ListNotations.
Local Open Scope R_scope.

(** ** Exact reals *)
Lemma to_int_Ok z v : to_int z = Ok v <-> z = Some v /\ in_int v = true.
Proof.
  unfold to_int. destruct z as [w|]; [destruct (in_int w) eqn:E|]; split.
  - intros H; inversion H; subst; auto.
  - intros [H _]; inversion H; reflexivity.
  - discriminate.
  - intros [H H']; inversion H; subst; congruence.
  - discriminate.
  - intros [H _]; discriminate.
Qed.

Lemma Zfloor_iff x z : Zfloor x = z <-> IZR z <= x < IZR z + 1.
Proof.
  split.
  - intros <-. split; [apply Zfloor_lb | apply Zfloor_ub].
  - intros [H1 H2]. apply Zfloor_imp. rewrite plus_IZR. split; assumption.
Qed.

Lemma div_floor_iff x s z : 0 < s -> (IZR z <= x / s < IZR z + 1 <-> s * IZR z <= x < s * (IZR z + 1)).
Proof.
  intros Hs. assert (Hx : x = s * (x / s)) by (field; lra).
  split; intros [H1 H2].
  - rewrite Hx. split; [apply Rmult_le_compat_l; lra | apply Rmult_lt_compat_l; lra].
  - split.
    + apply Rmult_le_reg_l with s; [assumption|]. rewrite <- Hx. assumption.
    + apply Rmult_lt_reg_l with s; [assumption|]. rewrite <- Hx. assumption.
Qed.

Lemma world_to_cell_R_iff (s : R) (p : point R) (c : coord) : 0 < s ->
  (world_to_cell s p = Ok c <->
   in_int (fst c) = true /\ in_int (snd c) = true /\
   s * IZR (fst c) <= fst p < s * (IZR (fst c) + 1) /\
   s * IZR (snd c) <= snd p < s * (IZR (snd c) + 1)).
Proof.
  intros Hs. destruct p as [x y], c as [i j]. unfold world_to_cell, ptx, pty; cbn [fst snd].
  cbn [dispinf ROps negb andb assert_ bind]. unfold floor_int. cbn [dfloor ddiv ROps].
  rewrite <- !div_floor_iff by assumption. rewrite <- !Zfloor_iff.
  destruct (to_int (Some (Zfloor (x / s)))) as [vx| | |] eqn:Ex; cbn [bind].
  - destruct (to_int (Some (Zfloor (y / s)))) as [vy| | |] eqn:Ey; cbn [bind].
    + apply to_int_Ok in Ex, Ey. destruct Ex as [Ex Ix], Ey as [Ey Iy]. inversion Ex; inversion Ey; subst.
      split; [intros H; inversion H; subst; auto | intros [_ [_ [-> ->]]]; reflexivity].
    + split; [discriminate|]. intros [_ [I2 [_ <-]]]. unfold to_int in Ey. rewrite I2 in Ey. discriminate.
    + split; [discriminate|]. intros [_ [I2 [_ <-]]]. unfold to_int in Ey. rewrite I2 in Ey. discriminate.
    + split; [discriminate|]. intros [_ [I2 [_ <-]]]. unfold to_int in Ey. rewrite I2 in Ey. discriminate.
  - split; [discriminate|]. intros [I2 [_ [<- _]]]. unfold to_int in Ex. rewrite I2 in Ex. discriminate.
  - split; [discriminate|]. intros [I2 [_ [<- _]]]. unfold to_int in Ex. rewrite I2 in Ex. discriminate.
  - split; [discriminate|]. intros [I2 [_ [<- _]]]. unfold to_int in Ex. rewrite I2 in Ex. discriminate.
Qed.

Lemma cell_to_world_R (s : R) (c : coord) :
  cell_to_world s c = (s * (IZR (fst c) + 1 / 2), s * (IZR (snd c) + 1 / 2)).
Proof. reflexivity. Qed.

Lemma world_to_cell_center_R (s : R) (c : coord) : 0 < s ->
  in_int (fst c) = true -> in_int (snd c) = true -> world_to_cell s (cell_to_world s c) = Ok c.
Proof.
  intros Hs I1 I2. apply world_to_cell_R_iff; [assumption|].
  rewrite cell_to_world_R; cbn [fst snd]. split; [assumption|]. split; [assumption|].
  split; split; (apply Rmult_le_compat_l || apply Rmult_lt_compat_l); lra.
Qed.

Lemma world_cell_bounds_R (s : R) (c : coord) : 0 < s ->
  world_cell_bounds s c =
  Ok (mkRect (s * IZR (snd c)) (s * (IZR (snd c) + 1)) (s * IZR (fst c)) (s * (IZR (fst c) + 1))).
Proof.
  intros Hs. unfold world_cell_bounds, mk_rect, cx, cy. cbn [dle dmul dofZ ROps].
  rewrite !plus_IZR.
  assert (H1 : R_le (s * IZR (snd c)) (s * (IZR (snd c) + 1)) = true)
    by (apply R_le_true; apply Rmult_le_compat_l; lra).
  assert (H2 : R_le (s * IZR (fst c)) (s * (IZR (fst c) + 1)) = true)
    by (apply R_le_true; apply Rmult_le_compat_l; lra).
  rewrite H1, H2. reflexivity.
Qed.

(** a point that no int cell contains makes the conversion undefined *)
Lemma world_to_cell_R_total (s : R) (p : point R) : 0 < s ->
  (exists c, world_to_cell s p = Ok c) \/ world_to_cell s p = UB.
Proof.
  intros Hs. unfold world_to_cell, floor_int. cbn [dispinf ROps negb andb assert_ bind dfloor to_int].
  destruct (in_int (Zfloor (ddiv (ptx p) s))); cbn [bind]; [|auto].
  destruct (in_int (Zfloor (ddiv (pty p) s))); cbn [bind]; [|auto].
  left. eexists. reflexivity.
Qed.

Lemma mono_cells_R s x y i j : 0 < s ->
  s * IZR i <= x < s * (IZR i + 1) -> s * IZR j <= y < s * (IZR j + 1) -> x <= y -> (i <= j)%Z.
Proof.
  intros Hs [H1 H2] [H3 H4] Hxy.
  assert (H : s * IZR i < s * (IZR j + 1)) by lra.
  apply Rmult_lt_reg_l in H; [|assumption].
  rewrite <- plus_IZR in H. apply lt_IZR in H. lia.
Qed.

Theorem world_to_cells_path_R (s : R) (sg : segment R) (b e : coord) : 0 < s ->
  world_to_cell s (sbeg sg) = Ok b -> world_to_cell s (send sg) = Ok e ->
  exists l, world_to_cells s sg = Ok l /\ cell_path b e l.
Proof.
  intros Hs Hb He. apply world_to_cells_path; auto;
  apply world_to_cell_R_iff in Hb; apply world_to_cell_R_iff in He; try assumption;
  destruct Hb as [_ [_ [B1 B2]]], He as [_ [_ [E1 E2]]]; unfold dir_consistent, ptx, pty;
  cbn [dlt dofZ dsub ROps].
  - destruct (R_lt 0 (fst (send sg) - fst (sbeg sg))) eqn:E.
    + apply R_lt_true in E. apply (mono_cells_R s (fst (sbeg sg)) (fst (send sg))); auto; lra.
    + apply R_lt_false in E. apply (mono_cells_R s (fst (send sg)) (fst (sbeg sg))); auto; lra.
  - destruct (R_lt 0 (snd (send sg) - snd (sbeg sg))) eqn:E.
    + apply R_lt_true in E. apply (mono_cells_R s (snd (sbeg sg)) (snd (send sg))); auto; lra.
    + apply R_lt_false in E. apply (mono_cells_R s (snd (send sg)) (snd (sbeg sg))); auto; lra.
Qed.

(** ** binary64 *)
Lemma ovf_NE s : BinarySingleNaN.binary_overflow 53 1024 mode_NE s = SpecFloat.S754_infinity s.
Proof. destruct s; reflexivity. Qed.

Lemma B2FF_ovf (x : F64) s : B2FF 53 1024 x = Binary.binary_overflow 53 1024 mode_NE s ->
  x = B754_infinity 53 1024 s.
Proof.
  unfold Binary.binary_overflow. rewrite ovf_NE. cbn.
  destruct x; cbn; intros H; try discriminate. inversion H. reflexivity.
Qed.

Lemma F_sign_false (x : F64) : Bsign 53 1024 x = false -> 0 <= F2R64 x.
Proof.
  destruct x as [s|s|s pl H|s m e H]; cbn; intros ->; unfold F2R64; cbn; try lra.
  unfold F2R; cbn. apply Rmult_le_pos; [apply IZR_le; lia | apply bpow_ge_0].
Qed.
Lemma F_sign_true (x : F64) : Bsign 53 1024 x = true -> F2R64 x <= 0.
Proof.
  destruct x as [s|s|s pl H|s m e H]; cbn; intros ->; unfold F2R64; cbn; try lra.
  unfold F2R; cbn. assert (IZR (Z.neg m) <= 0) by (apply IZR_le; lia).
  assert (Hb := bpow_gt_0 radix2 e). nra.
Qed.

(** The sign test of a difference of finite doubles is exact, even when it overflows or underflows. *)
Lemma F_sub_pos (a b : F64) : F_fin a = true -> F_fin b = true ->
  (dlt (dofZ 0) (dsub b a) = true <-> F2R64 a < F2R64 b).
Proof.
  intros Fa Fb.
  destruct (F_ofZ_correct 0 ltac:(cbn; lia)) as [Z0 ZF].
  generalize (Bminus_correct 53 1024 eq_refl eq_refl binop_nan_pl64 mode_NE b a Fb Fa).
  intros H. ovf_case H.
  - destruct H as [H1 [H2 _]].
    rewrite F_lt_fin; [|exact ZF|exact H2]. rewrite Z0.
    change (F2R64 (dsub b a)) with (B2R 53 1024 (Binary.Bminus 53 1024 eq_refl eq_refl binop_nan_pl64 mode_NE b a)).
    rewrite H1.
    match goal with |- context [round ?r ?f ?m ?v] => change (round r f m v) with (rnd v) end.
    fold (F2R64 a) (F2R64 b).
    split; intros Hlt.
    + apply Rnot_le_lt. intros Hle. assert (Hr : rnd (F2R64 b - F2R64 a) <= rnd 0) by (apply rnd_le; lra).
      rewrite rnd_0 in Hr. lra.
    + assert (Hn : rnd (F2R64 b - F2R64 a) <> 0).
      { unfold Rminus. apply (round_plus_neq_0 radix2 fexp64 ZnearestE).
        - apply F_fmt.
        - apply fmt_opp, F_fmt.
        - lra. }
      assert (Hr : rnd 0 <= rnd (F2R64 b - F2R64 a)) by (apply rnd_le; lra).
      rewrite rnd_0 in Hr. lra.
  - destruct H as [H1 H2]. apply B2FF_ovf in H1.
    assert (Hop : (dsub b a : F64) = B754_infinity 53 1024 (Bsign 53 1024 b)) by exact H1.
    rewrite Hop.
    fold (F2R64 a) (F2R64 b) in E.
    match type of E with context [round ?r ?f ?m ?v] => change (round r f m v) with (rnd v) in E end.
    assert (Hne : F2R64 b - F2R64 a <> 0).
    { intros E0. rewrite E0, rnd_0, Rabs_R0 in E. assert (Hp := bpow_gt_0 radix2 1024). lra. }
    destruct (Bsign 53 1024 b) eqn:Sb.
    + assert (Sa : Bsign 53 1024 a = false) by (destruct (Bsign 53 1024 a); [discriminate|reflexivity]).
      assert (A := F_sign_false _ Sa). assert (B := F_sign_true _ Sb).
      split; [cbn; discriminate | intros; lra].
    + assert (Sa : Bsign 53 1024 a = true) by (destruct (Bsign 53 1024 a); [reflexivity|discriminate]).
      assert (A := F_sign_true _ Sa). assert (B := F_sign_false _ Sb).
      split; [intros; lra | cbn; reflexivity].
Qed.

(** If the floor of a quotient is defined, then the quotient is finite and correctly rounded. *)
Lemma F_div_floor (x s : F64) z : F_fin x = true -> F2R64 s <> 0 -> dfloor (ddiv x s) = Some z ->
  z = Zfloor (rnd (F2R64 x / F2R64 s)).
Proof.
  intros Fx Hs Hz.
  generalize (Bdiv_correct 53 1024 eq_refl eq_refl binop_nan_pl64 mode_NE x s Hs).
  intros H. ovf_case H.
  - destruct H as [H1 [H2 _]].
    assert (Fq : F_fin (ddiv x s) = true) by (unfold F_fin in *; rewrite <- Fx; exact H2).
    rewrite (F_floor_correct _ Fq) in Hz. inversion Hz. f_equal. exact H1.
  - apply B2FF_ovf in H.
    assert (Hop : (ddiv x s : F64) = B754_infinity 53 1024 (xorb (Bsign 53 1024 x) (Bsign 53 1024 s))) by exact H.
    rewrite Hop in Hz. discriminate.
Qed.

Lemma F_world_to_cell_inv (s : F64) (p : point F64) c : F2R64 s <> 0 ->
  F_fin (ptx p) = true -> F_fin (pty p) = true -> world_to_cell s p = Ok c ->
  fst c = Zfloor (rnd (F2R64 (ptx p) / F2R64 s)) /\ snd c = Zfloor (rnd (F2R64 (pty p) / F2R64 s)).
Proof.
  intros Hs Fx Fy H. unfold world_to_cell in H.
  apply bind_Ok_inv in H. destruct H as [[] [_ H]].
  apply bind_Ok_inv in H. destruct H as [vx [Hx H]].
  apply bind_Ok_inv in H. destruct H as [vy [Hy H]]. inversion H; subst; cbn [fst snd].
  apply to_int_Ok in Hx, Hy. destruct Hx as [Hx _], Hy as [Hy _].
  split; eapply F_div_floor; eauto.
Qed.

Lemma rnd_div_mono s x y : 0 < s -> x <= y -> (Zfloor (rnd (x / s)) <= Zfloor (rnd (y / s)))%Z.
Proof.
  intros Hs Hxy. apply Zfloor_le. apply rnd_le. unfold Rdiv. apply Rmult_le_compat_r; [|assumption].
  left. now apply Rinv_0_lt_compat.
Qed.

Lemma F_dir_consistent (s a b : F64) : 0 < F2R64 s -> F_fin a = true -> F_fin b = true ->
  dir_consistent a b (Zfloor (rnd (F2R64 a / F2R64 s))) (Zfloor (rnd (F2R64 b / F2R64 s))).
Proof.
  intros Hs Fa Fb. unfold dir_consistent.
  destruct (dlt (dofZ 0) (dsub b a)) eqn:E.
  - apply F_sub_pos in E; auto. apply rnd_div_mono; lra.
  - apply rnd_div_mono; [assumption|]. apply Rnot_lt_le. intros H.
    apply (F_sub_pos a b Fa Fb) in H. congruence.
Qed.


Theorem world_to_cells_path_F64 (s : F64) (sg : segment F64) (b e : coord) :
  F_fin s = true -> 0 < F2R64 s -> fin_point (sbeg sg) -> fin_point (send sg) ->
  world_to_cell s (sbeg sg) = Ok b -> world_to_cell s (send sg) = Ok e ->
  exists l, world_to_cells s sg = Ok l /\ cell_path b e l.
Proof.
  intros Fs Hs [Fb1 Fb2] [Fe1 Fe2] Hb He.
  apply world_to_cells_path; auto;
  apply F_world_to_cell_inv in Hb; try assumption; try lra;
  apply F_world_to_cell_inv in He; try assumption; try lra;
  destruct Hb as [B1 B2], He as [E1 E2].
  - rewrite B1, E1. now apply F_dir_consistent.
  - rewrite B2, E2. now apply F_dir_consistent.
Qed.

(** *** centre of a cell maps back to the cell, in double precision *)
Lemma rel_err (x : R) : bpow radix2 (-1022) <= Rabs x ->
  exists eps, Rabs eps <= bpow radix2 (-53) /\ rnd x = x * (1 + eps).
Proof.
  intros Hx.
  destruct (relative_error_N_FLT_ex radix2 (-1074) 53 eq_refl (fun x => negb (Z.even x)) x Hx)
    as [eps [H1 H2]].
  exists eps. split; [|exact H2].
  replace (bpow radix2 (-53)) with (/ 2 * bpow radix2 (-53 + 1)); [exact H1|].
  replace (-53 + 1)%Z with (1 + -53)%Z by lia. rewrite bpow_plus. 
  change (bpow radix2 1) with 2. field.
Qed.

Lemma int_R z : in_int z = true -> Rabs (IZR z + / 2) <= IZR (2 ^ 31).
Proof.
  unfold in_int, int_min, int_max. intros H. apply andb_true_iff in H. destruct H as [H1 H2].
  apply Z.leb_le in H1, H2. apply Rabs_le.
  assert (A1 : IZR (- 2 ^ 31) <= IZR z) by (apply IZR_le; assumption).
  assert (A2 : IZR z <= IZR (2 ^ 31 - 1)) by (apply IZR_le; assumption).
  rewrite opp_IZR in A1. rewrite minus_IZR in A2. lra.
Qed.

Lemma half_int_abs z : / 2 <= Rabs (IZR z + / 2).
Proof.
  destruct (Z_lt_le_dec z 0) as [H|H].
  - assert (IZR z <= -1) by (apply IZR_le; lia). rewrite Rabs_left; lra.
  - assert (0 <= IZR z) by (apply IZR_le; lia). rewrite Rabs_right; lra.
Qed.

Lemma F_half : F2R64 (dlit 1 2 : F64) = / 2 /\ F_fin (dlit 1 2 : F64) = true.
Proof.
  destruct (F_dlit_correct 1 2) as [H1 H2]; [cbn; lia|cbn; lia| |].
  - apply no_ovf_1. lra.
  - split; [|exact H2]. rewrite H1. replace (1 / 2) with (/ 2) by lra. apply rnd_id, fmt_half.
Qed.

Lemma F_center_coord (s : F64) (z : Z) : F_fin s = true ->
  bpow radix2 (-900) <= F2R64 s <= bpow radix2 900 -> in_int z = true ->
  let w := dmul s (dadd (dofZ z) (dlit 1 2)) in
  F_fin w = true /\ dfloor (ddiv w s) = Some z.
Proof.
  intros Fs [Hs1 Hs2] Iz w.
  assert (Hs0 : 0 < F2R64 s) by (assert (H := bpow_gt_0 radix2 (-900)); lra).
  assert (Iz' := Iz). unfold in_int, int_min, int_max in Iz'. apply andb_true_iff in Iz'.
  destruct Iz' as [I1 I2]. apply Z.leb_le in I1, I2.
  destruct (F_ofZ_correct z) as [Ez Fz].
  { assert (2 ^ 31 <= 2 ^ 53)%Z by (apply Z.pow_le_mono_r; lia). lia. }
  destruct F_half as [Eh Fh].
  assert (Ib := int_R z Iz). assert (Hh := half_int_abs z).
  assert (Hb31 : IZR (2 ^ 31) = bpow radix2 31) by reflexivity.
  rewrite Hb31 in Ib.
  (* z + 1/2 is exact *)
  assert (Hfmt : fmt64 (IZR z + / 2)).
  { apply generic_format_FLT. exists (Float radix2 (2 * z + 1) (-1)); cbn [Fnum Fexp].
    - unfold F2R; cbn [Fnum Fexp]. rewrite plus_IZR, mult_IZR. change (bpow radix2 (-1)) with (/ 2). lra.
    - change (2 ^ 53)%Z with 9007199254740992%Z. change (2 ^ 31)%Z with 2147483648%Z in *.
      change (radix2 ^ 53)%Z with 9007199254740992%Z. lia.
    - lia. }
  destruct (F_add_correct (dofZ z) (dlit 1 2) Fz Fh) as [Ea Fa].
  { rewrite Ez, Eh. apply (no_ovf_le (bpow radix2 31)); [apply fmt_bpow; lia | apply bpow_lt; lia | exact Ib]. }
  rewrite Ez, Eh, (rnd_id _ Hfmt) in Ea.
  set (h := IZR z + / 2) in *.
  assert (Habs : Rabs (F2R64 s * h) = F2R64 s * Rabs h) by (rewrite Rabs_mult, (Rabs_right (F2R64 s)); lra).
  assert (Hv1 : bpow radix2 (-901) <= Rabs (F2R64 s * h)).
  { rewrite Habs. replace (-901)%Z with (-900 + -1)%Z by lia. rewrite bpow_plus.
    change (bpow radix2 (-1)) with (/ 2).
    apply Rmult_le_compat; [apply bpow_ge_0 | lra | exact Hs1 | exact Hh]. }
  assert (Hv2 : Rabs (F2R64 s * h) <= bpow radix2 931).
  { rewrite Habs. replace 931%Z with (900 + 31)%Z by lia. rewrite bpow_plus.
    apply Rmult_le_compat; [lra | apply Rabs_pos | exact Hs2 | exact Ib]. }
  assert (No : no_ovf (F2R64 s * h)).
  { apply (no_ovf_le (bpow radix2 931)); [apply fmt_bpow; lia | apply bpow_lt; lia | exact Hv2]. }
  destruct (F_mul_correct s (dadd (dofZ z) (dlit 1 2)) Fs Fa) as [Em Fm].
  { rewrite Ea. exact No. }
  rewrite Ea in Em. fold w in Em, Fm.
  destruct (rel_err (F2R64 s * h)) as [e1 [He1 Er1]].
  { apply Rle_trans with (bpow radix2 (-901)); [apply bpow_le; lia | exact Hv1]. }
  assert (Hsmall : bpow radix2 (-53) <= / 1024).
  { apply Rle_trans with (bpow radix2 (-10)); [apply bpow_le; lia | right; reflexivity]. }
  assert (He1' := Rabs_le_inv _ _ He1).
  assert (Hdiv : F2R64 w / F2R64 s = h * (1 + e1)).
  { rewrite Em, Er1. field. lra. }
  assert (Hq1 : bpow radix2 (-1022) <= Rabs (h * (1 + e1))).
  { rewrite Rabs_mult. rewrite (Rabs_right (1 + e1)) by lra.
    apply Rle_trans with (bpow radix2 (-2)).
    - apply bpow_le; lia.
    - change (bpow radix2 (-2)) with (/ 4). nra. }
  assert (Hq2 : Rabs (h * (1 + e1)) <= bpow radix2 32).
  { rewrite Rabs_mult. rewrite (Rabs_right (1 + e1)) by lra.
    replace 32%Z with (31 + 1)%Z by lia. rewrite bpow_plus. change (bpow radix2 1) with 2.
    assert (Hp := bpow_gt_0 radix2 31). assert (0 <= Rabs h) by apply Rabs_pos.
    apply Rmult_le_compat; lra. }
  destruct (rel_err _ Hq1) as [e2 [He2 Er2]].
  assert (He2' := Rabs_le_inv _ _ He2).
  destruct (F_div_correct w s Fm) as [Ed Fd]; [lra| |].
  { rewrite Hdiv. apply (no_ovf_le (bpow radix2 32)); [apply fmt_bpow; lia | apply bpow_lt; lia | exact Hq2]. }
  split; [exact Fm|].
  rewrite (F_floor_correct _ Fd), Ed, Hdiv, Er2. f_equal.
  apply Zfloor_iff.
  assert (Hd : Rabs (h * (1 + e1) * (1 + e2) - h) <= / 4).
  { replace (h * (1 + e1) * (1 + e2) - h) with (h * (e1 + e2 + e1 * e2)) by ring.
    rewrite Rabs_mult.
    assert (Hee : Rabs (e1 + e2 + e1 * e2) <= 3 * bpow radix2 (-53)).
    { eapply Rle_trans; [apply Rabs_triang|]. eapply Rle_trans.
      - apply Rplus_le_compat_r. apply Rabs_triang.
      - rewrite Rabs_mult.
        assert (Rabs e1 * Rabs e2 <= bpow radix2 (-53) * 1).
        { apply Rmult_le_compat; try apply Rabs_pos; lra. }
        lra. }
    apply Rle_trans with (bpow radix2 31 * (3 * bpow radix2 (-53))).
    - apply Rmult_le_compat; auto; apply Rabs_pos.
    - replace (bpow radix2 31 * (3 * bpow radix2 (-53))) with (3 * (bpow radix2 31 * bpow radix2 (-53))) by ring.
      rewrite <- bpow_plus. replace (31 + -53)%Z with (-22)%Z by lia.
      apply Rle_trans with (3 * bpow radix2 (-10)); [apply Rmult_le_compat_l; [lra|apply bpow_le; lia]|].
      change (bpow radix2 (-10)) with (/ 1024). lra. }
  apply Rabs_le_inv in Hd. unfold h in *. lra.
Qed.

Theorem world_to_cell_center_F64 (s : F64) (c : coord) : F_fin s = true ->
  bpow radix2 (-900) <= F2R64 s <= bpow radix2 900 ->
  in_int (fst c) = true -> in_int (snd c) = true ->
  world_to_cell s (cell_to_world s c) = Ok c.
Proof.
  intros Fs Hs I1 I2. destruct c as [i j]; cbn [fst snd] in *.
  destruct (F_center_coord s i Fs Hs I1) as [F1 E1].
  destruct (F_center_coord s j Fs Hs I2) as [F2 E2].
  unfold world_to_cell, cell_to_world, ptx, pty, cx, cy; cbn [fst snd].
  assert (P1 : forall v : F64, F_fin v = true -> dispinf v = false)
    by (intros v; destruct v; cbn; auto; discriminate).
  rewrite (P1 _ F1), (P1 _ F2). cbn [negb andb assert_ bind]. unfold floor_int.
  rewrite E1, E2. cbn [to_int]. rewrite I1, I2. reflexivity.
Qed.
