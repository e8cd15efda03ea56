(** TBM cells in binary64: masses, occupancies and discrepancies stay in [0,1]. *)
From Coq Require Import Reals ZArith List Bool Lra Lia.
From Flocq Require Import Core Plus_error Relative IEEE754.BinarySingleNaN IEEE754.Binary IEEE754.Bits.
From Verif.Base Require Import Outcome Num F64Facts.
From Verif.Model Require Import MathUtils Geometry PlainMap Cells.
From Verif.Spec Require Import CellSpec.
From Verif.Proofs Require Import CellProofs.
Import ListNotations.
Local Open Scope R_scope.

Notation hh := (bpow radix2 (-53)).
Lemma hh_pos : 0 < hh. Proof. apply bpow_gt_0. Qed.
Lemma hh_small : hh < / 1000000.
Proof. change hh with (/ IZR (2 ^ 53)). apply Rinv_lt_contravar; [lra|]. change (2 ^ 53)%Z with 9007199254740992%Z. lra. Qed.
Lemma b54 : bpow radix2 (-54) = hh / 2.
Proof. replace hh with (2 * bpow radix2 (-54)); [lra|]. change 2 with (bpow radix2 1). rewrite <- bpow_plus. reflexivity. Qed.
Lemma b52 : bpow radix2 (-52) = 2 * hh.
Proof. change 2 with (bpow radix2 1). rewrite <- bpow_plus. reflexivity. Qed.

Lemma F_zero : F2R64 (dofZ 0) = 0 /\ F_fin (dofZ 0 : F64) = true.
Proof. apply F_ofZ_correct. lia. Qed.
Lemma F_two : F2R64 (dofZ 2) = 2 /\ F_fin (dofZ 2 : F64) = true.
Proof. apply F_ofZ_correct. lia. Qed.

(** rounding down to 1, tie included *)
Lemma rnd_tie : rnd (1 + hh) = 1.
Proof.
  destruct (F_dlit_correct 1 (2 ^ 53)) as [E F]; try lia.
  { apply no_ovf_1. assert (0 < 1 / IZR (2 ^ 53) < 1); [|lra]. change (1 / IZR (2 ^ 53)) with (1 * hh).
    assert (H := hh_pos). assert (G := hh_small). lra. }
  assert (E' : F2R64 (dlit 1 (2 ^ 53)) = hh).
  { rewrite E. change (1 / IZR (2 ^ 53)) with (1 * hh). rewrite Rmult_1_l. apply rnd_id, fmt_bpow. lia. }
  assert (K : deq (dadd (dofZ 1) (dlit 1 (2 ^ 53))) (dofZ 1 : F64) = true) by (vm_compute; reflexivity).
  destruct F_one as [E1 F1].
  destruct (F_add_correct (dofZ 1) (dlit 1 (2 ^ 53)) F1 F) as [A FA].
  { rewrite E1, E'. apply (no_ovf_le 2); [apply (fmt_IZR 2); lia| |].
    - change 2 with (bpow radix2 1). apply bpow_lt. lia.
    - assert (H := hh_pos). assert (G := hh_small). apply Rabs_le. lra. }
  apply F_eq_fin in K; auto. rewrite A, E1, E' in K. exact K.
Qed.
Lemma rnd_le_1' x : x <= 1 + hh -> rnd x <= 1.
Proof. intros H. rewrite <- rnd_tie. now apply rnd_le. Qed.

Lemma rnd_err x : 0 <= x <= 1 -> x - hh / 2 <= rnd x <= x + hh / 2.
Proof.
  intros [H0 H1]. destruct (Req_dec x 1) as [->|N1]; [rewrite (rnd_id 1 fmt_1); assert (P := hh_pos); lra|].
  destruct (Req_dec x 0) as [->|Hne].
  - rewrite rnd_0. assert (P := hh_pos). lra.
  - assert (E := error_le_half_ulp radix2 fexp64 (fun x => negb (Z.even x)) x).
    assert (U : ulp radix2 fexp64 x <= hh).
    { rewrite ulp_neq_0 by auto. apply bpow_le. unfold cexp.
      assert (M : (mag radix2 x <= 0)%Z).
      { apply mag_le_bpow; auto. rewrite Rabs_pos_eq by auto. change (bpow radix2 0) with 1. lra. }
      change (-53)%Z with (fexp64 0). apply fexp64_monotone. exact M. }
    unfold rnd in *. apply Rabs_le_inv in E. lra.
Qed.

Lemma fmt_lt_1 q : fmt64 q -> q < 1 -> q <= 1 - hh.
Proof.
  intros Hq L. apply pred_ge_gt with (beta := radix2) (fexp := fexp64) in L; auto with typeclass_instances; [|apply fmt_1].
  change 1 with (bpow radix2 0) in L at 1. rewrite pred_bpow in L. exact L.
Qed.
Lemma fmt_double x : fmt64 x -> fmt64 (2 * x).
Proof.
  intros H. apply FLT_format_generic in H; [|reflexivity]. destruct H as [[m e] E1 E2 E3].
  apply generic_format_FLT. exists (Float radix2 m (e + 1)); cbn [Fnum Fexp] in *; auto; [|lia].
  rewrite E1. unfold F2R. cbn [Fnum Fexp]. rewrite bpow_plus. change (bpow radix2 1) with 2. ring.
Qed.

#[local] Instance prec53 : Prec_gt_0 53 := eq_refl.
(** sum of two doubles: relative error below 2^-53, no underflow *)
Lemma add_rel x y : fmt64 x -> fmt64 y -> 0 <= x + y ->
  (x + y) * (1 - hh) <= rnd (x + y) <= (x + y) * (1 + hh).
Proof.
  intros Hx Hy S. destruct (FLT_plus_error_N_ex radix2 (-1074) 53 (fun x => negb (Z.even x)) x y Hx Hy) as (e & He & E).
  assert (P := hh_pos). assert (B : u_ro radix2 53 / (1 + u_ro radix2 53) <= hh).
  { assert (U : u_ro radix2 53 = hh).
    { unfold u_ro. replace hh with (/ 2 * bpow radix2 (-52)); [reflexivity|rewrite b52; lra]. }
    rewrite U. apply Rmult_le_reg_r with (1 + hh); [lra|]. unfold Rdiv. rewrite Rmult_assoc, Rinv_l by lra. nra. }
  apply Rabs_le_inv in He. fold fexp64 in E. unfold rnd. rewrite E. split; apply Rmult_le_compat_l; lra.
Qed.
Lemma rel_err x : bpow radix2 (-1022) <= x -> x * (1 - hh) <= rnd x <= x * (1 + hh).
Proof.
  intros H. assert (P : 0 < bpow radix2 (-1022)) by apply bpow_gt_0.
  assert (E := relative_error_N_FLT radix2 (-1074) 53 eq_refl (fun x => negb (Z.even x)) x).
  rewrite Rabs_pos_eq in E by lra.
  assert (H' : bpow radix2 (-1074 + 53 - 1) <= x) by exact H. specialize (E H').
  fold fexp64 in E. fold (rnd x) in E. apply Rabs_le_inv in E.
  change (- (53) + 1)%Z with (-52)%Z in E. rewrite b52 in E. lra.
Qed.

(** finite doubles of [0, n] *)
Definition fnn (n : Z) (x : F64) : Prop := F_fin x = true /\ 0 <= F2R64 x <= IZR n.
Lemma f01_fnn x : f01 x <-> fnn 1 x. Proof. reflexivity. Qed.
Lemma no_ovf_small n r : (0 <= n <= 1000)%Z -> - IZR n <= r <= IZR n -> no_ovf r.
Proof.
  intros Hn H. apply (no_ovf_le (IZR n)); [apply fmt_IZR; lia| |now apply Rabs_le].
  apply Rle_lt_trans with (IZR 1000); [apply IZR_le; lia|].
  apply Rle_lt_trans with (bpow radix2 10); [change (bpow radix2 10) with (IZR 1024); apply IZR_le; lia|apply bpow_lt; lia].
Qed.
Lemma fnn_add n m x y : (0 <= n <= 500)%Z -> (0 <= m <= 500)%Z -> fnn n x -> fnn m y ->
  fnn (n + m) (dadd x y) /\ F2R64 (dadd x y) = rnd (F2R64 x + F2R64 y).
Proof.
  intros Hn Hm [Fx Hx] [Fy Hy].
  assert (B : 0 <= F2R64 x + F2R64 y <= IZR (n + m)) by (rewrite plus_IZR; lra).
  destruct (F_add_correct x y Fx Fy) as [E F].
  { apply (no_ovf_small (n + m)); [lia|lra]. }
  split; [|exact E]. split; [exact F|]. rewrite E. apply rnd_between; auto; [apply fmt_0|apply fmt_IZR; lia].
Qed.
Lemma add_ge_l x y : fmt64 x -> 0 <= y -> x <= rnd (x + y).
Proof. intros Hx Hy. apply rnd_ge; auto. lra. Qed.
Lemma f01_mul x y : f01 x -> f01 y -> f01 (dmul x y) /\ F2R64 (dmul x y) = rnd (F2R64 x * F2R64 y).
Proof.
  intros [Fx Hx] [Fy Hy]. unfold in01 in *.
  assert (B : 0 <= F2R64 x * F2R64 y <= 1) by nra.
  destruct (F_mul_correct x y Fx Fy) as [E F]; [apply no_ovf_1; lra|].
  split; [|exact E]. split; auto. rewrite E. apply rnd_between; auto; [apply fmt_0|apply fmt_1].
Qed.
Lemma f01_div n x t : fnn n x -> F2R64 x <= F2R64 t -> 0 < F2R64 t ->
  f01 (ddiv x t) /\ F2R64 (ddiv x t) = rnd (F2R64 x / F2R64 t).
Proof.
  intros [Fx Hx] L T.
  assert (B : 0 <= F2R64 x / F2R64 t <= 1).
  { split; [apply Rle_mult_inv_pos; lra|]. apply Rmult_le_reg_r with (F2R64 t); auto.
    unfold Rdiv. rewrite Rmult_assoc, Rinv_l by lra. lra. }
  destruct (F_div_correct x t Fx) as [E F]; [lra|apply no_ovf_1; lra|].
  split; [|exact E]. split; auto. rewrite E. apply rnd_between; auto; [apply fmt_0|apply fmt_1].
Qed.
Lemma f01_1 : f01 (dofZ 1). Proof. destruct F_one as [E F]. split; auto. rewrite E. unfold in01; lra. Qed.
Lemma f01_0 : f01 (dofZ 0). Proof. destruct F_zero as [E F]. split; auto. rewrite E. unfold in01; lra. Qed.
Lemma f01_sub1 x : f01 x -> f01 (dsub (dofZ 1) x) /\ F2R64 (dsub (dofZ 1) x) = rnd (1 - F2R64 x).
Proof.
  intros [Fx Hx]. unfold in01 in *. destruct F_one as [E1 F1].
  destruct (F_sub_correct (dofZ 1) x F1 Fx) as [E F]; [rewrite E1; apply no_ovf_1; lra|].
  rewrite E1 in E. split; [|exact E]. split; auto. rewrite E. apply rnd_between; [apply fmt_0|apply fmt_1|lra].
Qed.

(** ** belief assignments *)
Definition R4 (t : tbm F64) : R := F2R64 (t_unknown t) + F2R64 (t_empty t) + F2R64 (t_occupied t) + F2R64 (t_conflict t).
Definition tnn (n : Z) (t : tbm F64) : Prop :=
  fnn n (t_unknown t) /\ fnn n (t_empty t) /\ fnn n (t_occupied t) /\ fnn n (t_conflict t).
(** masses in [0,1], sum within 2^-50 of one *)
Definition tok (t : tbm F64) : Prop := tnn 1 t /\ Rabs (R4 t - 1) <= 8 * hh.

Lemma default_tok : tok tbm_default.
Proof.
  split.
  - unfold tnn, tbm_default; cbn [t_unknown t_empty t_occupied t_conflict].
    split; [exact f01_1|]. split; [exact f01_0|]. split; exact f01_0.
  - unfold R4, tbm_default. cbn [t_unknown t_empty t_occupied t_conflict].
    rewrite (proj1 F_one), (proj1 F_zero). assert (P := hh_pos). apply Rabs_le. lra.
Qed.

(** dividing nonnegative numbers by their (rounded) sum *)
Lemma quot_sum s w : 0 < w -> s * (1 - 3 * hh) <= w <= s * (1 + 4 * hh) -> 1 - 4 * hh <= s / w <= 1 + 4 * hh.
Proof.
  intros Hw [H1 H2]. assert (P := hh_pos). assert (S := hh_small).
  assert (Es : s = s / w * w) by (field; lra). set (k := s / w) in *.
  rewrite Es in H1, H2.
  assert (L1 : k * (1 - 3 * hh) <= 1) by nra.
  assert (L2 : 1 <= k * (1 + 4 * hh)) by nra. split; nra.
Qed.

Lemma norm_tok n t : (1 <= n <= 100)%Z -> tnn n t -> tok (tbm_normalize t).
Proof.
  intros Hn (Hu & He & Ho & Hc). unfold tbm_normalize.
  destruct (fnn_add n n (t_unknown t) (t_empty t)) as [N1 E1]; auto; try lia.
  destruct (fnn_add (n + n) n (dadd (t_unknown t) (t_empty t)) (t_occupied t)) as [N2 E2]; auto; try lia.
  destruct (fnn_add (n + n + n) n (dadd (dadd (t_unknown t) (t_empty t)) (t_occupied t)) (t_conflict t)) as [N3 E3]; auto; try lia.
  set (tot := dadd (dadd (dadd (t_unknown t) (t_empty t)) (t_occupied t)) (t_conflict t)) in *.
  destruct F_zero as [E0 F0].
  destruct (deq tot (dofZ 0)) eqn:Q; [apply default_tok|].
  assert (T0 : F2R64 tot <> 0).
  { intros K. assert (deq tot (dofZ 0) = true); [|congruence]. apply F_eq_fin; [apply N3|exact F0|]. rewrite E0. exact K. }
  assert (T : 0 < F2R64 tot) by (destruct N3 as [_ ?]; lra).
  set (s1 := dadd (t_unknown t) (t_empty t)) in *. set (s2 := dadd s1 (t_occupied t)) in *.
  assert (Gu : F2R64 (t_unknown t) <= F2R64 s1) by (rewrite E1; apply add_ge_l; [apply F_fmt|apply He]).
  assert (Ge : F2R64 (t_empty t) <= F2R64 s1) by (rewrite E1, Rplus_comm; apply add_ge_l; [apply F_fmt|apply Hu]).
  assert (G1 : F2R64 s1 <= F2R64 s2) by (rewrite E2; apply add_ge_l; [apply F_fmt|apply Ho]).
  assert (Go : F2R64 (t_occupied t) <= F2R64 s2) by (rewrite E2, Rplus_comm; apply add_ge_l; [apply F_fmt|apply N1]).
  assert (G2 : F2R64 s2 <= F2R64 tot) by (rewrite E3; apply add_ge_l; [apply F_fmt|apply Hc]).
  assert (Gc : F2R64 (t_conflict t) <= F2R64 tot) by (rewrite E3, Rplus_comm; apply add_ge_l; [apply F_fmt|apply N2]).
  destruct (f01_div n (t_unknown t) tot Hu) as [Du EDu]; try lra.
  destruct (f01_div n (t_empty t) tot He) as [De EDe]; try lra.
  destruct (f01_div n (t_occupied t) tot Ho) as [Do EDo]; try lra.
  destruct (f01_div n (t_conflict t) tot Hc) as [Dc EDc]; try lra.
  split; [split; [exact Du|split; [exact De|split; [exact Do|exact Dc]]]|].
  unfold R4. cbn [t_unknown t_empty t_occupied t_conflict]. rewrite EDu, EDe, EDo, EDc.
  assert (Q1 : forall x, 0 <= F2R64 x -> F2R64 x <= F2R64 tot -> 0 <= F2R64 x / F2R64 tot <= 1).
  { intros x Hx L. split; [apply Rle_mult_inv_pos; lra|]. apply Rmult_le_reg_r with (F2R64 tot); auto.
    unfold Rdiv. rewrite Rmult_assoc, Rinv_l by lra. lra. }
  assert (Bu := rnd_err _ (Q1 (t_unknown t) (proj1 (proj2 Hu)) ltac:(lra))).
  assert (Be := rnd_err _ (Q1 (t_empty t) (proj1 (proj2 He)) ltac:(lra))).
  assert (Bo := rnd_err _ (Q1 (t_occupied t) (proj1 (proj2 Ho)) ltac:(lra))).
  assert (Bc := rnd_err _ (Q1 (t_conflict t) (proj1 (proj2 Hc)) ltac:(lra))).
  assert (K : 1 - 4 * hh <= R4 t / F2R64 tot <= 1 + 4 * hh).
  { apply quot_sum; auto.
    destruct Hu as [_ Hu], He as [_ He], Ho as [_ Ho], Hc as [_ Hc].
    assert (A1 := add_rel (F2R64 (t_unknown t)) (F2R64 (t_empty t)) (F_fmt _) (F_fmt _) ltac:(lra)). rewrite <- E1 in A1.
    assert (A2 := add_rel (F2R64 s1) (F2R64 (t_occupied t)) (F_fmt _) (F_fmt _) ltac:(lra)). rewrite <- E2 in A2.
    assert (A3 := add_rel (F2R64 s2) (F2R64 (t_conflict t)) (F_fmt _) (F_fmt _) ltac:(lra)). rewrite <- E3 in A3.
    unfold R4. assert (P := hh_pos). assert (S := hh_small).
    set (u := F2R64 (t_unknown t)) in *. set (e := F2R64 (t_empty t)) in *. set (o := F2R64 (t_occupied t)) in *.
    set (c := F2R64 (t_conflict t)) in *. set (v1 := F2R64 s1) in *. set (v2 := F2R64 s2) in *. set (v3 := F2R64 tot) in *.
    clearbody u e o c v1 v2 v3. clear - Hu He Ho Hc A1 A2 A3 P S.
    assert (L2 : (u + e + o) * (1 - 2 * hh) <= v2).
    { apply Rle_trans with (((u + e) * (1 - hh) + o) * (1 - hh)); [|apply Rle_trans with ((v1 + o) * (1 - hh)); [apply Rmult_le_compat_r; lra|lra]].
      assert (0 <= (u + e) * hh * hh) by (apply Rmult_le_pos; [apply Rmult_le_pos; lra|lra]). assert (0 <= o * hh) by (apply Rmult_le_pos; lra). nra. }
    assert (U2 : v2 <= (u + e + o) * (1 + 5 / 2 * hh)).
    { apply Rle_trans with (((u + e) * (1 + hh) + o) * (1 + hh)); [apply Rle_trans with ((v1 + o) * (1 + hh)); [lra|apply Rmult_le_compat_r; lra]|].
      assert (0 <= (u + e) * hh) by (apply Rmult_le_pos; lra). assert ((u + e) * hh * hh <= (u + e) * hh * / 2) by (apply Rmult_le_compat_l; lra).
      assert (0 <= o * hh) by (apply Rmult_le_pos; lra). nra. }
    split.
    - apply Rle_trans with (((u + e + o) * (1 - 2 * hh) + c) * (1 - hh)); [|apply Rle_trans with ((v2 + c) * (1 - hh)); [apply Rmult_le_compat_r; lra|lra]].
      assert (0 <= (u + e + o) * hh * hh) by (apply Rmult_le_pos; [apply Rmult_le_pos; lra|lra]). assert (0 <= c * hh) by (apply Rmult_le_pos; lra). nra.
    - apply Rle_trans with (((u + e + o) * (1 + 5 / 2 * hh) + c) * (1 + hh)); [apply Rle_trans with ((v2 + c) * (1 + hh)); [lra|apply Rmult_le_compat_r; lra]|].
      assert (0 <= (u + e + o) * hh) by (apply Rmult_le_pos; lra).
      assert ((u + e + o) * hh * hh <= (u + e + o) * hh * / 10) by (apply Rmult_le_compat_l; lra).
      assert (0 <= c * hh) by (apply Rmult_le_pos; lra). nra. }
  unfold R4, Rdiv in K. rewrite !Rmult_plus_distr_r in K. unfold Rdiv in *. assert (P := hh_pos). apply Rabs_le. lra.
Qed.

(** conflict normalisation: what comes out, with the unrounded data kept *)
Lemma normconf_spec t : tnn 1 t ->
  tbm_normalize_conflict t = tbm_default \/
  exists w, 0 < w /\ F2R64 (t_occupied t) <= w /\ F2R64 (t_unknown t) <= w /\ F2R64 (t_empty t) <= w /\
    (F2R64 (t_unknown t) + F2R64 (t_occupied t)) * (1 - hh) <= w /\
    (F2R64 (t_unknown t) + F2R64 (t_empty t) + F2R64 (t_occupied t)) * (1 - 3 * hh) <= w <=
    (F2R64 (t_unknown t) + F2R64 (t_empty t) + F2R64 (t_occupied t)) * (1 + 4 * hh) /\
    let n := tbm_normalize_conflict t in
    f01 (t_unknown n) /\ F2R64 (t_unknown n) = rnd (F2R64 (t_unknown t) / w) /\
    f01 (t_empty n) /\ F2R64 (t_empty n) = rnd (F2R64 (t_empty t) / w) /\
    f01 (t_occupied n) /\ F2R64 (t_occupied n) = rnd (F2R64 (t_occupied t) / w) /\
    t_conflict n = dofZ 0.
Proof.
  intros (Hu & He & Ho & Hc). unfold tbm_normalize_conflict.
  destruct (fnn_add 1 1 (t_unknown t) (t_empty t)) as [N1 E1]; auto; try lia.
  destruct (fnn_add 2 1 (dadd (t_unknown t) (t_empty t)) (t_occupied t)) as [N2 E2]; auto; try lia.
  set (s1 := dadd (t_unknown t) (t_empty t)) in *. set (tot := dadd s1 (t_occupied t)) in *.
  destruct F_zero as [E0 F0].
  destruct (deq tot (dofZ 0)) eqn:Q; [left; reflexivity|right].
  assert (T0 : F2R64 tot <> 0).
  { intros K. assert (deq tot (dofZ 0) = true); [|congruence]. apply F_eq_fin; [apply N2|exact F0|]. rewrite E0. exact K. }
  assert (T : 0 < F2R64 tot) by (destruct N2 as [_ ?]; lra).
  assert (Gu : F2R64 (t_unknown t) <= F2R64 s1) by (rewrite E1; apply add_ge_l; [apply F_fmt|apply He]).
  assert (Ge : F2R64 (t_empty t) <= F2R64 s1) by (rewrite E1, Rplus_comm; apply add_ge_l; [apply F_fmt|apply Hu]).
  assert (G1 : F2R64 s1 <= F2R64 tot) by (rewrite E2; apply add_ge_l; [apply F_fmt|apply Ho]).
  assert (Go : F2R64 (t_occupied t) <= F2R64 tot) by (rewrite E2, Rplus_comm; apply add_ge_l; [apply F_fmt|apply N1]).
  exists (F2R64 tot). split; [exact T|]. split; [lra|]. split; [lra|]. split; [lra|].
  destruct (f01_div 1 (t_unknown t) tot Hu) as [Du EDu]; try lra.
  destruct (f01_div 1 (t_empty t) tot He) as [De EDe]; try lra.
  destruct (f01_div 1 (t_occupied t) tot Ho) as [Do EDo]; try lra.
  split; [|split].
  - apply Rle_trans with (rnd (F2R64 (t_unknown t) + F2R64 (t_occupied t))).
    + apply add_rel; try apply F_fmt. destruct Hu as [_ ?], Ho as [_ ?]. lra.
    + rewrite E2. apply rnd_le. lra.
  - destruct Hu as [_ Hu], He as [_ He], Ho as [_ Ho].
    assert (A1 := add_rel (F2R64 (t_unknown t)) (F2R64 (t_empty t)) (F_fmt _) (F_fmt _) ltac:(lra)). rewrite <- E1 in A1.
    assert (A2 := add_rel (F2R64 s1) (F2R64 (t_occupied t)) (F_fmt _) (F_fmt _) ltac:(lra)). rewrite <- E2 in A2.
    assert (P := hh_pos). assert (S := hh_small).
    set (u := F2R64 (t_unknown t)) in *. set (e := F2R64 (t_empty t)) in *. set (o := F2R64 (t_occupied t)) in *.
    set (v1 := F2R64 s1) in *. set (v2 := F2R64 tot) in *.
    clearbody u e o v1 v2. clear - Hu He Ho A1 A2 P S.
    assert (X1 : 0 <= (u + e) * hh) by (apply Rmult_le_pos; lra). assert (X2 : 0 <= o * hh) by (apply Rmult_le_pos; lra).
    assert (X3 : 0 <= (u + e) * hh * hh) by (apply Rmult_le_pos; lra).
    assert (X4 : (u + e) * hh * hh <= (u + e) * hh * / 2) by (apply Rmult_le_compat_l; lra).
    split.
    + apply Rle_trans with (((u + e) * (1 - hh) + o) * (1 - hh)); [nra|].
      apply Rle_trans with ((v1 + o) * (1 - hh)); [apply Rmult_le_compat_r; lra|lra].
    + apply Rle_trans with (((u + e) * (1 + hh) + o) * (1 + hh)); [apply Rle_trans with ((v1 + o) * (1 + hh)); [lra|apply Rmult_le_compat_r; lra]|nra].
  - cbn [t_unknown t_empty t_occupied t_conflict]. cbv zeta.
    split; [exact Du|]. split; [exact EDu|]. split; [exact De|]. split; [exact EDe|]. split; [exact Do|]. split; [exact EDo|reflexivity].
Qed.
Lemma quot01 x w : 0 < w -> 0 <= x <= w -> 0 <= x / w <= 1.
Proof.
  intros T [H L]. split; [apply Rle_mult_inv_pos; lra|]. apply Rmult_le_reg_r with w; auto.
  unfold Rdiv. rewrite Rmult_assoc, Rinv_l by lra. lra.
Qed.
Lemma normconf_tok t : tnn 1 t -> tok (tbm_normalize_conflict t) /\ t_conflict (tbm_normalize_conflict t) = dofZ 0.
Proof.
  intros H. destruct (normconf_spec t H) as [->|(w & W & Lo & Lu & Le & _ & SW & Hn)]; [split; [apply default_tok|reflexivity]|].
  cbv zeta in Hn. set (n := tbm_normalize_conflict t) in *.
  destruct Hn as (Fu & Eu & Fe & Ee & Fo & Eo & Ec). split; [|exact Ec].
  split; [split; [exact Fu|split; [exact Fe|split; [exact Fo|rewrite Ec; exact f01_0]]]|].
  unfold R4. rewrite Eu, Ee, Eo, Ec, (proj1 F_zero).
  destruct H as ([_ Hu] & [_ He] & [_ Ho] & _).
  assert (Bu := rnd_err _ (quot01 _ w W (conj (proj1 Hu) Lu))).
  assert (Be := rnd_err _ (quot01 _ w W (conj (proj1 He) Le))).
  assert (Bo := rnd_err _ (quot01 _ w W (conj (proj1 Ho) Lo))).
  assert (K := quot_sum _ w W SW). unfold Rdiv in *. rewrite !Rmult_plus_distr_r in K. assert (P := hh_pos).
  apply Rabs_le. lra.
Qed.

(** combinations *)
Lemma acc_tnn n t id v : (0 <= n <= 100)%Z -> tnn n t -> f01 v -> tnn (n + 1) (tbm_acc t id v).
Proof.
  intros Hn (Hu & He & Ho & Hc) Hv.
  assert (W : forall x, fnn n x -> fnn (n + 1) x) by (intros x [F ?]; split; auto; rewrite plus_IZR; lra).
  assert (A : forall x, fnn n x -> fnn (n + 1) (dadd x v)) by (intros x Hx; apply (fnn_add n 1 x v); auto; lia).
  unfold tbm_acc. destruct (id =? 0)%Z, (id =? 1)%Z, (id =? 2)%Z; unfold tnn; cbn [t_unknown t_empty t_occupied t_conflict]; auto 6.
Qed.
Lemma get_f01 t i : tnn 1 t -> f01 (tbm_get t i).
Proof. intros (Hu & He & Ho & Hc). unfold tbm_get. destruct (i =? 0)%Z, (i =? 1)%Z, (i =? 2)%Z; auto. Qed.
Lemma combine_tok f l r : tnn 1 l -> tnn 1 r -> tok (tbm_combine f l r).
Proof.
  intros Hl Hr. unfold tbm_combine. apply (norm_tok 16); [lia|]. cbn [fold_left].
  assert (Z0 : tnn 0 (mkTbm (dofZ 0) (dofZ 0) (dofZ 0) (dofZ 0) : tbm F64)).
  { destruct F_zero as [E F]. assert (fnn 0 (dofZ 0)) by (split; auto; rewrite E; lra).
    unfold tnn. cbn [t_unknown t_empty t_occupied t_conflict]. auto. }
  change 16%Z with (0+1+1+1+1+1+1+1+1+1+1+1+1+1+1+1+1)%Z.
  do 16 (apply acc_tnn; [lia| |apply f01_mul; apply get_f01; auto]). exact Z0.
Qed.

(** observations *)
Definition fgood_obs (a : aoo F64) : Prop :=
  occ_valid (a_occ a) = false \/ (f01 (prob_occ (a_occ a)) /\ f01 (est_quality (a_occ a)) /\ f01 (a_quality a)).
Lemma aoo2tbm_tok a : fgood_obs a -> tok (aoo2tbm a).
Proof.
  intros Ha. unfold aoo2tbm. destruct (occ_valid (a_occ a)) eqn:V; [|apply default_tok].
  destruct Ha as [Ha|(Hp & He & Hq0)]; [congruence|].
  destruct (f01_mul _ _ He Hq0) as [Hq _]. set (q := dmul (est_quality (a_occ a)) (a_quality a)) in *.
  set (p := prob_occ (a_occ a)) in *.
  destruct (f01_mul p q Hp Hq) as [Ho Eo]. set (o := dmul p q) in *.
  destruct (f01_sub1 p Hp) as [Hm Em]. set (m := dsub (dofZ 1) p) in *.
  destruct (f01_mul m q Hm Hq) as [Hee Ee]. set (e := dmul m q) in *.
  destruct (f01_sub1 o Ho) as [Hr Er]. set (r := dsub (dofZ 1) o) in *.
  assert (P := hh_pos). assert (Sm := hh_small).
  assert (L : F2R64 e <= F2R64 r).
  { rewrite Ee, Er. destruct Hp as [_ Hp], Hq as [_ Hq], Hm as [_ Hm]. unfold in01 in *.
    destruct (Req_dec (F2R64 q) 1) as [Q1|Q1].
    - (* both are 1 - p, rounded *)
      rewrite Q1, Rmult_1_r, Eo, Q1, Rmult_1_r, (rnd_id (F2R64 p)) by apply F_fmt.
      rewrite <- Em, rnd_id by apply F_fmt. apply Rle_refl.
    - apply rnd_le. assert (Lq := fmt_lt_1 _ (F_fmt q) ltac:(lra)).
      assert (B1 := rnd_err (F2R64 p * F2R64 q) ltac:(nra)). rewrite <- Eo in B1.
      assert (B2 := rnd_err (1 - F2R64 p) ltac:(lra)). rewrite <- Em in B2. nra. }
  assert (Su : f01 (dsub r e) /\ F2R64 (dsub r e) = rnd (F2R64 r - F2R64 e)).
  { destruct Hr as [Fr Hr], Hee as [Fe He']. unfold in01 in *.
    destruct (F_sub_correct r e Fr Fe) as [E F]; [apply no_ovf_1; lra|].
    split; [|exact E]. split; auto. rewrite E. apply rnd_between; [apply fmt_0|apply fmt_1|lra]. }
  destruct Su as [Hu Eu]. split.
  - split; [exact Hu|]. split; [exact Hee|]. split; [exact Ho|exact f01_0].
  - unfold R4. cbn [t_unknown t_empty t_occupied t_conflict]. rewrite (proj1 F_zero), Eu.
    destruct Hr as [_ Hr], Hee as [_ He'], Ho as [_ Ho']. unfold in01 in *.
    assert (B1 := rnd_err (F2R64 r - F2R64 e) ltac:(lra)).
    assert (B2 := rnd_err (1 - F2R64 o) ltac:(lra)). rewrite <- Er in B2. apply Rabs_le. lra.
Qed.

(** ** cells *)
Definition fok (c : tcell F64) : Prop := tok (tc_belief c).
Lemma tcell_upd_tok conv c a : fok c -> fgood_obs a -> fok (tcell_upd conv c a).
Proof.
  intros Hc Ha. unfold tcell_upd. destruct (occ_valid (a_occ a)); [|exact Hc]. unfold fok. cbn [tc_belief].
  apply normconf_tok. apply combine_tok; [apply Hc|apply aoo2tbm_tok; auto].
Qed.
Lemma tcell_run_tok conv h : forall c, fok c -> Forall fgood_obs h -> fok (fold_left (tcell_upd conv) h c).
Proof.
  induction h as [|a h IH]; intros c Hc Hh; [exact Hc|]. inversion_clear Hh. cbn [fold_left].
  apply IH; auto. apply tcell_upd_tok; auto.
Qed.

(** the unknown mass spread evenly *)
Lemma F_half_mul x : f01 x -> f01 (dmul dhalf x) /\ F2R64 (dmul dhalf x) = rnd (F2R64 x / 2).
Proof.
  intros H. destruct F_half as [E F]. destruct (f01_mul dhalf x) as [A B]; auto.
  - split; auto. rewrite E. unfold in01; lra.
  - split; auto. rewrite B, E. f_equal. lra.
Qed.
Lemma even_normconf t : tnn 1 t -> f01 (prob_occ (occ_unknown_even (tbm_normalize_conflict t))).
Proof.
  intros H. assert (K := proj1 (normconf_tok t H)). destruct K as [(Ku & _ & Ko & _) _].
  set (n := tbm_normalize_conflict t) in *.
  assert (G : F2R64 (t_occupied n) + F2R64 (dmul dhalf (t_unknown n)) <= 1 + hh).
  { rewrite (proj2 (F_half_mul _ Ku)). assert (P := hh_pos). assert (Sm := hh_small).
    destruct (normconf_spec t H) as [E|(w & W & Lo & Lu & _ & SW & _ & Hn)].
    - fold n in E. rewrite E. cbn [tbm_default t_occupied t_unknown]. rewrite (proj1 F_zero), (proj1 F_one).
      replace (1 / 2) with (/ 2) by lra. rewrite rnd_id by apply fmt_half. lra.
    - cbv zeta in Hn. fold n in Hn. destruct Hn as (_ & Eu & _ & _ & _ & Eo & _).
      destruct H as ([_ Hu] & _ & [_ Ho] & _).
      assert (Bu := quot01 _ w W (conj (proj1 Hu) Lu)). assert (Bo := quot01 _ w W (conj (proj1 Ho) Lo)).
      set (x := F2R64 (t_occupied t) / w) in *. set (y := F2R64 (t_unknown t) / w) in *.
      assert (S1 : (x + y) * (1 - hh) <= 1).
      { unfold x, y. apply Rmult_le_reg_r with w; auto.
        replace ((F2R64 (t_occupied t) / w + F2R64 (t_unknown t) / w) * (1 - hh) * w)
          with ((F2R64 (t_unknown t) + F2R64 (t_occupied t)) * (1 - hh)) by (field; lra). lra. }
      rewrite Eu, Eo. destruct (Rle_lt_dec y (2 * hh)) as [Y|Y].
      + assert (A : rnd y <= 2 * hh) by (apply rnd_le_fmt; auto; rewrite <- b52; apply fmt_bpow; lia).
        assert (B : rnd (rnd y / 2) <= hh) by (apply rnd_le_fmt; [apply fmt_bpow; lia|lra]).
        assert (C : rnd x <= 1) by (apply rnd_le_fmt; [apply fmt_1|lra]). lra.
      + assert (M : bpow radix2 (-1022) <= hh) by (apply bpow_le; lia).
        assert (A := rel_err y ltac:(lra)).
        assert (Y2 : 2 * hh <= rnd y) by (apply rnd_ge; [rewrite <- b52; apply fmt_bpow; lia|lra]).
        assert (B := rel_err (rnd y / 2) ltac:(lra)).
        assert (C := rnd_err x ltac:(lra)).
        assert (D : rnd (rnd y / 2) <= y / 2 * (1 + 3 * hh)).
        { apply Rle_trans with (rnd y / 2 * (1 + hh)); [lra|].
          apply Rle_trans with (y * (1 + hh) / 2 * (1 + hh)); [apply Rmult_le_compat_r; lra|]. nra. }
        assert (x <= 1 + hh + 2 * hh * hh - y).
        { assert (x + y <= 1 + hh + 2 * hh * hh); [|lra]. apply Rmult_le_reg_r with (1 - hh); [lra|]. nra. }
        assert (Z1 : 2 * hh * (1 - 3 * hh) <= y * (1 - 3 * hh)) by (apply Rmult_le_compat_r; lra).
        assert (Z2 : hh * hh <= hh * / 1000000) by (apply Rmult_le_compat_l; lra). nra. }
  unfold occ_unknown_even. cbn [prob_occ].
  destruct (fnn_add 1 1 (t_occupied n) (dmul dhalf (t_unknown n))) as [[F B] E]; try lia; [exact Ko|apply F_half_mul; exact Ku|].
  split; auto. split; [apply B|]. rewrite E. apply rnd_le_1'. exact G.
Qed.
Lemma even_run h : forall c, fok c -> f01 (c_prob (tc_cell c)) -> Forall fgood_obs h ->
  f01 (c_prob (tc_cell (fold_left (tcell_upd occ_unknown_even) h c))).
Proof.
  induction h as [|a h IH]; intros c Hc Hp Hh; [exact Hp|]. inversion_clear Hh. cbn [fold_left].
  apply IH; auto; [apply tcell_upd_tok; auto|]. unfold tcell_upd. destruct (occ_valid (a_occ a)); [|exact Hp].
  apply even_normconf. apply combine_tok; [apply Hc|apply aoo2tbm_tok; auto].
Qed.

(** the consistent cell: a probability whenever some mass is not unknown *)
Lemma consistent_prob t : tnn 1 t ->
  (F2R64 (t_occupied t) = 0 /\ F2R64 (t_empty t) = 0) \/ f01 (prob_occ (occ_consistent t)).
Proof.
  intros (_ & He & Ho & _). destruct (fnn_add 1 1 (t_occupied t) (t_empty t)) as [N E]; auto; try lia.
  destruct (Req_dec (F2R64 (dadd (t_occupied t) (t_empty t))) 0) as [Z|Z].
  - left. assert (A := add_ge_l _ _ (F_fmt (t_occupied t)) (proj1 (proj2 He))).
    assert (B := add_ge_l _ _ (F_fmt (t_empty t)) (proj1 (proj2 Ho))). rewrite (Rplus_comm (F2R64 (t_empty t))) in B.
    rewrite <- E, Z in A, B. destruct He as [_ He], Ho as [_ Ho]. lra.
  - right. unfold occ_consistent. cbn [prob_occ]. apply (f01_div 1); [exact Ho| |].
    + rewrite E. apply add_ge_l; [apply F_fmt|apply He].
    + destruct N as [_ N]. lra.
Qed.

(** discrepancies *)
Lemma tcell_disc_f01 c a : fok c -> fgood_obs a -> f01 (tcell_discrepancy c a).
Proof.
  intros [(Hu & He & Ho & Hc) _] Ha. destruct (aoo2tbm_tok a Ha) as [(Hu' & He' & Ho' & Hc') _].
  unfold tcell_discrepancy. set (that := aoo2tbm a) in *. set (b := tc_belief c) in *.
  assert (Cc : f01 (t_conflict (conjunctive that b))).
  { destruct (combine_tok Z.lor that b) as [(_ & _ & _ & Q) _]; [unfold tnn; auto|unfold tnn; auto|exact Q]. }
  destruct (fnn_add 1 1 (t_unknown that) (t_unknown b)) as [[Ft Bt] Et]; auto; try lia.
  change (1 + 1)%Z with 2%Z in Bt. destruct F_two as [E2 F2].
  set (tu := dadd (t_unknown that) (t_unknown b)) in *.
  assert (Du : f01 (ddiv tu (dofZ 2)) /\ F2R64 (ddiv tu (dofZ 2)) = rnd (F2R64 tu / 2)).
  { destruct (f01_div 2 tu (dofZ 2)) as [A B]; [split; auto|rewrite E2; lra|rewrite E2; lra|]. rewrite E2 in B. auto. }
  destruct Du as [Du Eu]. set (un := ddiv tu (dofZ 2)) in *.
  destruct (f01_sub1 un Du) as [Dk Ek]. set (k := dsub (dofZ 1) un) in *.
  assert (Dd : f01 (dabs (dsub (t_occupied that) (t_occupied b)))).
  { destruct Ho as [Fo Ho], Ho' as [Fo' Ho']. destruct (F_sub_correct (t_occupied that) (t_occupied b) Fo' Fo) as [A B].
    - apply no_ovf_1. lra.
    - destruct (F_dabs_correct (dsub (t_occupied that) (t_occupied b))) as [A' B']. split; [rewrite B'; exact B|].
      rewrite A', A. split; [apply Rabs_pos|]. apply Rabs_le. apply rnd_between; [apply fmt_opp, fmt_1|apply fmt_1|lra]. }
  destruct (fnn_add 1 1 (t_conflict (conjunctive that b)) _ ltac:(lia) ltac:(lia) Cc Dd) as [[Fs Bs] _].
  change (1 + 1)%Z with 2%Z in Bs.
  set (s := dadd (t_conflict (conjunctive that b)) (dabs (dsub (t_occupied that) (t_occupied b)))) in *.
  destruct Dk as [Fk Bk]. unfold in01 in Bk.
  assert (M : 0 <= F2R64 k * F2R64 s <= 2 * F2R64 k) by nra.
  destruct (F_mul_correct k s Fk Fs) as [Em Fm]; [apply (no_ovf_small 2); [lia|lra]|].
  assert (Bm : 0 <= F2R64 (dmul k s) <= 2 * F2R64 k).
  { rewrite Em. apply rnd_between; auto; [apply fmt_0|apply fmt_double, F_fmt]. }
  destruct (F_div_correct (dmul k s) (dofZ 2) Fm) as [Ekd Fkd]; [rewrite E2; lra|rewrite E2; apply no_ovf_1; lra|].
  rewrite E2 in Ekd. set (kd := ddiv (dmul k s) (dofZ 2)) in *.
  assert (Bkd : 0 <= F2R64 kd <= F2R64 k).
  { rewrite Ekd. apply rnd_between; [apply fmt_0|apply F_fmt|lra]. }
  destruct (f01_div 2 un (dofZ 2)) as [Dh Eh]; [split; [apply Du|destruct Du as [_ [? ?]]; lra]|rewrite E2; destruct Du as [_ [? ?]]; lra|rewrite E2; lra|].
  rewrite E2 in Eh.
  assert (Dkd : f01 kd) by (split; [exact Fkd|unfold in01; lra]).
  destruct (fnn_add 1 1 (ddiv un (dofZ 2)) kd ltac:(lia) ltac:(lia) Dh Dkd) as [[Ff Bf] Ef].
  split; [exact Ff|]. split; [apply Bf|]. rewrite Ef. apply rnd_le_1'.
  destruct Du as [_ Du]. unfold in01 in Du. assert (P := hh_pos).
  assert (A := rnd_err (F2R64 un / 2) ltac:(lra)). rewrite <- Eh in A.
  assert (B := rnd_err (1 - F2R64 un) ltac:(lra)). rewrite <- Ek in B. lra.
Qed.
Lemma cred_disc_f01 c a : fok c -> fgood_obs a -> f01 (cred_discrepancy c a).
Proof.
  intros [Hc _] Ha. destruct (aoo2tbm_tok a Ha) as [Ht _]. unfold cred_discrepancy.
  destruct (combine_tok Z.land (aoo2tbm a) (tc_belief c) Ht Hc) as [(_ & _ & Q & _) _]. apply f01_sub1. exact Q.
Qed.
Lemma plain_disc_f01 (c : gcell F64) (a : aoo F64) : f01 (c_prob c) -> f01 (prob_occ (a_occ a)) -> f01 (gcell_discrepancy c a).
Proof.
  intros [F H] [F' H']. unfold in01 in *. unfold gcell_discrepancy.
  destruct (F_sub_correct _ _ F F') as [A B]; [apply no_ovf_1; lra|].
  destruct (F_dabs_correct (dsub (c_prob c) (prob_occ (a_occ a)))) as [A' B']. split; [rewrite B'; exact B|].
  rewrite A', A. split; [apply Rabs_pos|]. apply Rabs_le. apply rnd_between; [apply fmt_opp, fmt_1|apply fmt_1|lra].
Qed.

Lemma hh_2_53 : hh = / 2 ^ 53.
Proof. change hh with (bpow radix2 (- (53))). rewrite bpow_opp, bpow_powerRZ. reflexivity. Qed.
Lemma p49 : / 2 ^ 49 = 16 * hh.
Proof. rewrite hh_2_53. replace (2 ^ 53) with (2 ^ 49 * 16) by ring. field. Qed.
Lemma consistent_nan t : tnn 1 t -> F2R64 (t_occupied t) = 0 /\ F2R64 (t_empty t) = 0 ->
  disnan (prob_occ (occ_consistent t)) = true.
Proof.
  intros (_ & He & Ho & _) [Zo Ze]. destruct (fnn_add 1 1 (t_occupied t) (t_empty t)) as [[F N] E]; auto; try lia.
  rewrite Zo, Ze, Rplus_0_l, rnd_0 in E. unfold occ_consistent. cbn [prob_occ].
  destruct Ho as [Fo _]. set (q := dadd (t_occupied t) (t_empty t)) in *.
  assert (Z : forall x : F64, F_fin x = true -> F2R64 x = 0 -> exists s, x = B754_zero 53 1024 s).
  { intros [s|s|s pl|s m e B] Fx Ex; try discriminate; [exists s; reflexivity|]. exfalso.
    unfold F2R64, B2R in Ex. apply eq_0_F2R in Ex. destruct s; discriminate. }
  destruct (Z _ Fo Zo) as (s1 & ->). destruct (Z _ F E) as (s2 & ->). reflexivity.
Qed.
Definition q_ok (o : occup F64) : Prop := F_fin (est_quality o) = true /\ 0 <= F2R64 (est_quality o) <= 1 + 16 * hh.
Lemma consistent_quality t : tok t -> q_ok (occ_consistent t).
Proof.
  intros [(Hu & He & Ho & Hc) S]. destruct (fnn_add 1 1 (t_occupied t) (t_empty t)) as [[F N] E]; auto; try lia.
  split; [exact F|]. split; [apply N|]. cbn [occ_consistent est_quality]. rewrite E.
  unfold R4 in S. apply Rabs_le_inv in S. destruct Hu as [_ Hu], He as [_ He], Ho as [_ Ho], Hc as [_ Hc].
  assert (A := add_rel _ _ (F_fmt (t_occupied t)) (F_fmt (t_empty t)) ltac:(lra)).
  assert (P := hh_pos). assert (Sm := hh_small). nra.
Qed.
