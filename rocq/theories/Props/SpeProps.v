(** C29, C30: scan probability and observation probability estimators. *)
From Coq Require Import Reals ZArith List Lia Lra Bool.
From Flocq Require Import Core IEEE754.Binary IEEE754.Bits.
From Verif.Base Require Import Outcome Num F64Facts OrdLaws.
From Verif.Model Require Import MathUtils Geometry Grid Sensor Spe.
From Verif.Spec Require Import GeometrySpec GridSpec SpeSpec.
From Verif.Proofs Require Import GridProofs GridNumProofs RasterProofs SpeProofs.
Import ListNotations.
Local Open Scope Z_scope.

(** C29, exact arithmetic.  [mass_sum]/[weight_sum] (Spec/SpeSpec.v) add up p*w*f and w over one row per scan point; [None]
    is the NaN of an unknown probability.  Estimator, weighting, trigonometry and pose are arbitrary. *)
Theorem C29_scan_probability_is_the_weighted_mean :
  forall (dcos dsin : R -> R) (datan2 : R -> R -> R) (aoo_prob : point R -> rect R -> outcome R) (weight : Z -> outcome R)
    (pose_pt : point R) (tp : trig R) (prerotated : bool) (analysis_area : rect R) (pts : list (scan_point R)) (res : option R),
  estimate_scan dcos dsin datan2 aoo_prob weight pose_pt tp prerotated analysis_area pts = Ok res ->
  exists rows, length rows = length pts /\
    (forall k s, nth_error pts k = Some s -> exists r, nth_error rows k = Some r /\
        point_prob dcos dsin datan2 aoo_prob pose_pt tp prerotated analysis_area s = Ok (r_p r) /\
        weight (Z.of_nat k) = Ok (r_w r) /\ r_f r = sp_factor s) /\
    (res = None <-> weight_sum rows = 0%R) /\
    (forall v, res = Some v -> v = (mass_sum rows / weight_sum rows)%R).
Proof.
  intros dcos dsin datan2 aoo_prob weight pose_pt tp prerotated area pts res E. unfold estimate_scan in E.
  apply bind_Ok_inv in E as ([tot w] & EL & E). apply estimate_loop_rows in EL as (rows & HL & HR & Et & Ew).
  exists rows. split; [exact HL|]. split; [exact HR|].
  assert (Et' : tot = mass_sum rows) by (rewrite Et; cbn [dofZ ROps]; ring).
  assert (Ew' : w = weight_sum rows) by (rewrite Ew; cbn [dofZ ROps]; ring). clear Et Ew. subst tot w.
  cbn [deq ddiv dofZ ROps] in E. destruct (R_eq (weight_sum rows) 0) eqn:Z0; injection E as <-.
  - apply R_eq_true in Z0. split; [tauto|discriminate].
  - apply R_eq_false in Z0. split; [split; [discriminate|contradiction]|]. now intros v [= <-].
Qed.
Print Assumptions C29_scan_probability_is_the_weighted_mean.

(** with factors 1 (every scan point the library's sensors, filters and rotations make) it is between any bounds of the
    point probabilities, in particular in [0,1] *)
Theorem C29_mean_is_between_the_bounds_of_its_points :
  forall (dcos dsin : R -> R) (datan2 : R -> R -> R) (aoo_prob : point R -> rect R -> outcome R) (weight : Z -> outcome R)
    (pose_pt : point R) (tp : trig R) (prerotated : bool) (analysis_area : rect R) (pts : list (scan_point R)) (v lo hi : R),
  (forall s, In s pts -> sp_factor s = 1%R) ->
  (forall s p, In s pts -> point_prob dcos dsin datan2 aoo_prob pose_pt tp prerotated analysis_area s = Ok p -> (lo <= p <= hi)%R) ->
  (forall k w, weight k = Ok w -> (0 <= w)%R) ->
  estimate_scan dcos dsin datan2 aoo_prob weight pose_pt tp prerotated analysis_area pts = Ok (Some v) -> (lo <= v <= hi)%R.
Proof.
  intros dcos dsin datan2 aoo_prob weight pose_pt tp prerotated area pts v lo hi HF HP HW E.
  destruct (C29_scan_probability_is_the_weighted_mean _ _ _ _ _ _ _ _ _ _ _ E) as (rows & HL & HR & HN & HV).
  assert (B : (lo * weight_sum rows <= mass_sum rows <= hi * weight_sum rows /\ 0 <= weight_sum rows)%R).
  { apply mean_bounds. intros r Hr. apply In_nth_error in Hr as [k Hk].
    destruct (nth_error pts k) as [s|] eqn:Hs.
    - destruct (HR k s Hs) as (r' & A & B & C & F). rewrite Hk in A. injection A as <-.
      apply nth_error_In in Hs. split; [now apply (HP s)|]. split; [now apply (HW (Z.of_nat k))|]. rewrite F. now apply HF.
    - exfalso. apply nth_error_None in Hs. assert (nth_error rows k <> None) by congruence. apply nth_error_Some in H. lia. }
  assert (NZ : weight_sum rows <> 0%R) by (intros C; apply HN in C; discriminate).
  rewrite (HV v eq_refl). destruct B as [B P].
  split; (apply Rmult_le_reg_r with (weight_sum rows); [lra|]); unfold Rdiv; rewrite Rmult_assoc, Rinv_l by exact NZ; lra.
Qed.
Print Assumptions C29_mean_is_between_the_bounds_of_its_points.

(** the same range in binary64, rounding and overflow included: weights are any finite nonnegative doubles; NaN can only
    come from an infinite total weight *)
Theorem C29_binary64_probability_is_in_range :
  forall (dcos dsin : F64 -> F64) (datan2 : F64 -> F64 -> F64) (aoo_prob : point F64 -> rect F64 -> outcome F64)
    (weight : Z -> outcome F64) (pose_pt : point F64) (tp : trig F64) (prerotated : bool) (analysis_area : rect F64)
    (pts : list (scan_point F64)) (v : F64),
  (forall s, In s pts -> F_fin (sp_factor s) = true /\ F2R64 (sp_factor s) = 1%R) ->
  (forall s p, In s pts -> point_prob dcos dsin datan2 aoo_prob pose_pt tp prerotated analysis_area s = Ok p ->
     F_fin p = true /\ (0 <= F2R64 p <= 1)%R) ->
  (forall k w, weight k = Ok w -> F_fin w = true /\ (0 <= F2R64 w)%R) ->
  estimate_scan dcos dsin datan2 aoo_prob weight pose_pt tp prerotated analysis_area pts = Ok (Some v) ->
  disnan v = true \/ (F_fin v = true /\ (0 <= F2R64 v <= 1)%R).
Proof.
  intros dcos dsin datan2 aoo_prob weight pose_pt tp prerotated area pts v HF HP HW E.
  unfold estimate_scan in E. apply bind_Ok_inv in E as ([tot w] & EL & E).
  apply estimate_loop_F in EL; auto.
  - destruct (deq w (dofZ 0)) eqn:NZ; [discriminate|]. injection E as <-. now apply mean_div.
  - left. destruct (F_ofZ_correct 0 ltac:(cbn; lia)) as [Z0 ZF]. rewrite Z0. split; [exact ZF|]. split; [exact ZF|lra].
Qed.
Print Assumptions C29_binary64_probability_is_in_range.

Theorem C29_binary64_probability_is_in_range_for_unit_weights :
  forall (dcos dsin : F64 -> F64) (datan2 : F64 -> F64 -> F64) (aoo_prob : point F64 -> rect F64 -> outcome F64)
    (weight : Z -> outcome F64) (pose_pt : point F64) (tp : trig F64) (prerotated : bool) (analysis_area : rect F64)
    (pts : list (scan_point F64)) (v : F64),
  Z.of_nat (length pts) <= 2 ^ 53 ->
  (forall s, In s pts -> F_fin (sp_factor s) = true /\ F2R64 (sp_factor s) = 1%R) ->
  (forall s p, In s pts -> point_prob dcos dsin datan2 aoo_prob pose_pt tp prerotated analysis_area s = Ok p ->
     F_fin p = true /\ (0 <= F2R64 p <= 1)%R) ->
  (forall k w, weight k = Ok w -> F_fin w = true /\ (0 <= F2R64 w <= 1)%R) ->
  estimate_scan dcos dsin datan2 aoo_prob weight pose_pt tp prerotated analysis_area pts = Ok (Some v) ->
  F_fin v = true /\ (0 <= F2R64 v <= 1)%R.
Proof.
  intros dcos dsin datan2 aoo_prob weight pose_pt tp prerotated area pts v HL HF HP HW E.
  unfold estimate_scan in E. apply bind_Ok_inv in E as ([tot w] & EL & E).
  destruct (F_ofZ_correct 0 ltac:(cbn; lia)) as [Z0 ZF].
  assert (FW : F_fin w = true).
  { apply (estimate_loop_tw_le weight (point_prob dcos dsin datan2 aoo_prob pose_pt tp prerotated area) pts HW 0 (dofZ 0) (dofZ 0) tot w 0); auto; try lia.
    rewrite Z0. lra. }
  apply estimate_loop_F in EL; auto.
  - destruct (deq w (dofZ 0)) eqn:NZ; [discriminate|]. injection E as <-. now apply (proj1 (mean_div tot w EL NZ)).
  - intros i x Hx. destruct (HW i x Hx). split; [assumption|lra].
  - left. rewrite Z0. split; [exact ZF|]. split; [exact ZF|lra].
Qed.
Print Assumptions C29_binary64_probability_is_in_range_for_unit_weights.

(** the factor of a point multiplies the numerator only: two points with probability 1, weight 1 and factor 2 (what M3RSM
    makes of four points of one cell) score 2, outside [0,1] *)
Theorem C29_factors_leave_the_unit_interval_refuted :
  exists (pts : list (scan_point R)) (weight : Z -> outcome R) (aoo_prob : point R -> rect R -> outcome R) (v : R),
    (forall s, In s pts -> sp_factor s = 2%R) /\ (forall p a, aoo_prob p a = Ok 1%R) /\ (forall k, weight k = Ok 1%R) /\
    estimate_scan (fun x => x) (fun x => x) (fun x _ => x) aoo_prob weight (0, 0)%R (mkTrig (fun _ => Ok 1%R) (fun _ => Ok 0%R)) false
      (mkRect 0 0 0 0)%R pts = Ok (Some v) /\ (1 < v)%R.
Proof.
  exists [mkSP true 1 0 2 true; mkSP true 1 0 2 true]%R, (fun _ => Ok 1%R), (fun _ _ => Ok 1%R), 2%R.
  split; [intros s [<-|[<-|[]]]; reflexivity|]. split; [reflexivity|]. split; [reflexivity|]. split; [|lra].
  unfold estimate_scan, estimate_loop, point_prob, sp_move_origin_tp, move_center, mk_rect, vside_len, hside_len, sp_range, sp_angle, ptx, pty.
  cbn [bind sp_polar sp_u sp_v tp_cos tp_sin bot top left right dle dadd dsub dmul ddiv dofZ ROps fst snd].
  replace (R_le (0 + 1 * 0 - (0 - 0) / 2) (0 + 1 * 0 + (0 - 0) / 2)) with true by (symmetry; apply R_le_true; lra).
  replace (R_le (0 + 1 * 1 - (0 - 0) / 2) (0 + 1 * 1 + (0 - 0) / 2)) with true by (symmetry; apply R_le_true; lra).
  cbn [andb bind sp_factor deq ROps]. replace (R_eq (0 + 1 + 1) 0) with false by (symmetry; apply R_eq_false; lra).
  do 2 f_equal. field.
Qed.
Print Assumptions C29_factors_leave_the_unit_interval_refuted.

(** the filtered scan is exactly, in order, the raw points with an index divisible by the skip rate that are occupied, not
    farther than the usable range, and fall into a cell of the map *)
Theorem C29_filter_keeps_exactly_the_usable_points :
  forall (D : Type) (ops : DOps D) (C : Type) (datan2 : D -> D -> D) (m : omap D C) (skip_rate : Z) (max_range : D)
    (pose_pt : point D) (tp : trig D) (raw pts : list (scan_point D)),
  filter_scan datan2 m skip_rate max_range pose_pt tp raw = Ok pts ->
  select (fun i s => (skip_rate = 0 \/ i mod skip_rate = 0) /\ sp_occ s = true /\
      are_strictly_ordered (dofZ 0) max_range (sp_range s) = false /\
      exists p c, sp_move_origin_tp datan2 pose_pt tp s = Ok p /\ world_to_cell (om_scale m) p = Ok c /\ om_has m c = true)
    0 raw pts.
Proof. intros. now apply filter_loop_select. Qed.
Print Assumptions C29_filter_keeps_exactly_the_usable_points.

(** [EvenSPW] weights sum to one; [VinySlamSPW] weights are nonnegative *)
Theorem C29_even_weights_make_the_plain_mean :
  forall (dcos dsin : R -> R) (datan2 : R -> R -> R) (aoo_prob : point R -> rect R -> outcome R)
    (pose_pt : point R) (tp : trig R) (prerotated : bool) (analysis_area : rect R) (pts : list (scan_point R)),
  pts <> [] -> (forall s, In s pts -> sp_factor s = 1%R) ->
  (forall s, In s pts -> exists q, point_prob dcos dsin datan2 aoo_prob pose_pt tp prerotated analysis_area s = Ok q) ->
  exists v, estimate_scan dcos dsin datan2 aoo_prob (even_weight pts) pose_pt tp prerotated analysis_area pts = Ok (Some v) /\
    exists qs, Forall2 (fun s q => point_prob dcos dsin datan2 aoo_prob pose_pt tp prerotated analysis_area s = Ok q) pts qs /\
      v = (fold_right Rplus 0 qs / IZR (Z.of_nat (length pts)))%R.
Proof.
  intros dcos dsin datan2 aoo_prob pose_pt tp prerotated area pts HN HF HP. unfold estimate_scan.
  set (N := IZR (Z.of_nat (length pts))). assert (PN : (0 < N)%R) by (apply IZR_lt; destruct pts; [congruence|cbn [length]; lia]).
  assert (G : forall l, (forall s, In s l -> sp_factor s = 1%R) ->
     (forall s, In s l -> exists q, point_prob dcos dsin datan2 aoo_prob pose_pt tp prerotated area s = Ok q) ->
     forall i a b, exists qs, Forall2 (fun s q => point_prob dcos dsin datan2 aoo_prob pose_pt tp prerotated area s = Ok q) l qs /\
       estimate_loop (even_weight pts) (point_prob dcos dsin datan2 aoo_prob pose_pt tp prerotated area) i l a b =
       Ok (a + fold_right Rplus 0 qs / N, b + IZR (Z.of_nat (length l)) / N)%R).
  { clear HF HP. induction l as [|s l IH]; intros HF HP i a b.
    - exists []. split; [constructor|]. cbn. do 2 f_equal; field; lra.
    - destruct (HP s (or_introl eq_refl)) as [q Eq].
      destruct (IH (fun s H => HF s (or_intror H)) (fun s H => HP s (or_intror H)) (i + 1) (a + q * (1 / N) * 1)%R (b + 1 / N)%R) as (qs & F & E).
      exists (q :: qs). split; [now constructor|]. cbn [estimate_loop]. rewrite Eq. cbn [bind even_weight].
      cbn [dadd dmul ddiv dofZ ROps]. rewrite (HF s (or_introl eq_refl)). fold N. rewrite E. cbn [length fold_right].
      do 2 f_equal; [field; lra|]. rewrite Nat2Z.inj_succ, succ_IZR. field. lra. }
  destruct (G pts HF HP 0 (dofZ 0) (dofZ 0)) as (qs & F & E). rewrite E. cbn [bind]. fold N.
  replace (dofZ 0 + N / N)%R with 1%R by (cbn [dofZ ROps]; field; lra).
  cbn [deq dofZ ROps ddiv]. replace (R_eq 1 0) with false by (symmetry; apply R_eq_false; lra).
  eexists. split; [reflexivity|]. exists qs. split; [exact F|]. field. lra.
Qed.
Print Assumptions C29_even_weights_make_the_plain_mean.

Theorem C29_viny_weights_are_nonnegative :
  forall (dcos dsin : R -> R) (datan2 : R -> R -> R) (pts : list (scan_point R)) (k : Z) (w : R),
  viny_weight dcos dsin datan2 pts k = Ok w -> (0 <= w)%R.
Proof.
  intros dcos dsin datan2 pts k w. unfold viny_weight. destruct (nth_error pts (Z.to_nat k)) as [s|]; [|discriminate].
  intros [= <-]. cbn [dmul dadd dabs dsqrt ROps]. apply Rmult_le_pos; [|apply sqrt_pos].
  do 2 (match goal with |- context [if ?b then _ else _] => destruct b end; [cbn; lra|]).
  assert (A := Rabs_pos (dsin (sp_angle datan2 s))). assert (B := Rabs_pos (dcos (sp_angle datan2 s))). lra.
Qed.
Print Assumptions C29_viny_weights_are_nonnegative.

Definition ok_is (o : outcome F64) (v : F64) : bool := match o with Ok x => deq x v | _ => false end.
Example C29_case :
  let z := dofZ 0 : F64 in let one := dofZ 1 : F64 in
  let pts := [mkSP true one z one true; mkSP true (dofZ 2) z one true; mkSP true (dofZ 4) z one true] in
  match estimate_scan (fun x => x) (fun x => x) (fun x _ => x) (fun p _ => Ok (ddiv one (ptx p))) (even_weight pts) (z, z)
    (mkTrig (fun _ => Ok one) (fun _ => Ok z)) false (mkRect z z z z) pts with
  | Ok (Some v) => dlt (dlit 1 2) v && dlt v (dlit 2 3) && forallb (fun s => deq (sp_factor s) one) pts
  | _ => false end = true.
Proof. vm_compute. reflexivity. Qed.

(** C30.  The area maximum bounds every rasterised cell of the area from above and is attained (or zero); binary64 *)
Theorem C30_max_estimate_is_the_maximum_binary64 :
  forall (C : Type) (impact : C -> outcome F64) (m : omap F64 C) (fuel : nat) (area : rect F64) (v : F64),
  max_pe impact m fuel area = Ok v ->
  exists cells, area_cells m fuel area = Ok cells /\
    disnan v = false /\ dle (dofZ 0) v = true /\
    (forall c, In c cells -> exists i, cell_impact impact m c = Ok i /\ dle i v = true) /\
    (v = dofZ 0 \/ exists c, In c cells /\ cell_impact impact m c = Ok v).
Proof.
  intros C impact m fuel area v E. unfold max_pe in E. apply bind_Ok_inv in E as (cells & EC & E). exists cells. split; [exact EC|].
  apply (max_loop_spec impact m (F_cell_impact_nan impact m)) in E as (NV & L & F & W); [|reflexivity].
  split; [exact NV|]. split; [apply le_not_lt_; auto|]. split; [|exact W].
  intros c Hc. destruct (F c Hc) as (i & Ei & Hi). exists i. split; [exact Ei|]. apply le_not_lt_; auto. eapply F_cell_impact_nan; eauto.
Qed.
Print Assumptions C30_max_estimate_is_the_maximum_binary64.

Theorem C30_max_estimate_is_the_maximum :
  forall (C : Type) (impact : C -> outcome R) (m : omap R C) (fuel : nat) (area : rect R) (v : R),
  max_pe impact m fuel area = Ok v ->
  exists cells, area_cells m fuel area = Ok cells /\ (0 <= v)%R /\
    (forall c, In c cells -> exists i, cell_impact impact m c = Ok i /\ (i <= v)%R) /\
    (v = 0%R \/ exists c, In c cells /\ cell_impact impact m c = Ok v).
Proof.
  intros C impact m fuel area v E. unfold max_pe in E. apply bind_Ok_inv in E as (cells & EC & E). exists cells. split; [exact EC|].
  apply (@max_loop_spec R ROps _ C impact m (fun _ _ _ => eq_refl)) in E as (_ & L & F & W); [|reflexivity].
  split; [now apply R_lt_false in L|]. split; [|exact W].
  intros c Hc. destruct (F c Hc) as (i & Ei & Hi). exists i. split; [exact Ei|]. now apply R_lt_false in Hi.
Qed.
Print Assumptions C30_max_estimate_is_the_maximum.

(** the obstacle estimate never exceeds the area maximum: for an area with two positive sides, or a single point, that
    contains the obstacle *)
Theorem C30_obstacle_estimate_is_at_most_the_maximum :
  forall (C : Type) (impact : C -> outcome R) (m : omap R C) (fuel : nat) (area : rect R) (obstacle : point R) (vo vm : R),
  (0 < om_scale m)%R ->
  (left area < right area /\ bot area < top area \/ left area = right area /\ bot area = top area)%R ->
  (left area <= ptx obstacle <= right area)%R -> (bot area <= pty obstacle <= top area)%R ->
  obstacle_pe impact m obstacle = Ok vo -> max_pe impact m fuel area = Ok vm -> (vo <= vm)%R.
Proof.
  intros C impact m fuel area ob vo vm Hs HA Hx Hy EO EM.
  destruct (C30_max_estimate_is_the_maximum _ _ _ _ _ _ EM) as (cells & EC & _ & HB & _).
  unfold obstacle_pe in EO. apply bind_Ok_inv in EO as (c & Ec & EO).
  assert (IN : In c cells).
  { destruct HA as [[H1 H2]|[H1 H2]].
    - apply (area_cells_R m fuel area cells Hs H1 H2 EC). exists ob.
      apply world_to_cell_spec_R in Ec as [_ Hc]; [|exact Hs]. unfold ptx, pty in *. auto.
    - destruct (area_cells_point_R m fuel area cells Hs H1 H2 EC) as (c' & Ec' & ->). left.
      assert (E : ob = (left area, bot area)) by (destruct ob as [a b]; unfold ptx, pty in *; cbn in *; f_equal; lra).
      rewrite E in Ec. congruence. }
  destruct (HB c IN) as (i & Ei & Hi). rewrite EO in Ei. injection Ei as <-. exact Hi.
Qed.
Print Assumptions C30_obstacle_estimate_is_at_most_the_maximum.

(** the restriction to areas that are not degenerate is needed: a zero-width, positive-height area is walked as one cell *)
Theorem C30_degenerate_area_refuted :
  exists (impact : bool -> outcome R) (m : omap R bool) (area : rect R) (obstacle : point R) (vo vm : R),
  (0 < om_scale m)%R /\ (left area <= ptx obstacle <= right area)%R /\ (bot area <= pty obstacle <= top area)%R /\
  obstacle_pe impact m obstacle = Ok vo /\ (forall fuel, (1 <= fuel)%nat -> max_pe impact m fuel area = Ok vm) /\ (vm < vo)%R.
Proof.
  exists (fun b : bool => Ok (if b then 1 else 0)%R), (mkOmap 4 4 (2, 2) 1%R (fun _ => true) (fun c => Ok (Z.eqb (snd c) 1))),
    (mkRect 0 1 0 0)%R, (0, 1)%R, 1%R, 0%R.
  cbn [om_scale left right bot top ptx pty fst snd]. split; [lra|]. split; [lra|]. split; [lra|].
  assert (B0 : is_prob_bounded 0%R = true).
  { unfold is_prob_bounded, less_or_equal, less. cbn [dlt dadd dofZ ROps]. unfold dbl_epsilon, dlit. cbn [ddiv dofZ ROps].
    assert (0 < 1 / IZR (2 ^ 52))%R by (apply Rmult_lt_0_compat; [lra|apply Rinv_0_lt_compat, IZR_lt; lia]).
    replace (R_lt 0 (0 + _)) with true by (symmetry; apply R_lt_true; lra).
    replace (R_lt 0 (1 + _)) with true by (symmetry; apply R_lt_true; lra). rewrite !orb_true_r. reflexivity. }
  assert (B1 : is_prob_bounded 1%R = true).
  { unfold is_prob_bounded, less_or_equal, less. cbn [dlt dadd dofZ ROps]. unfold dbl_epsilon, dlit. cbn [ddiv dofZ ROps].
    assert (0 < 1 / IZR (2 ^ 52))%R by (apply Rmult_lt_0_compat; [lra|apply Rinv_0_lt_compat, IZR_lt; lia]).
    replace (R_lt 0 (1 + _)) with true by (symmetry; apply R_lt_true; lra).
    replace (R_lt 1 (1 + _)) with true by (symmetry; apply R_lt_true; lra). rewrite !orb_true_r. reflexivity. }
  split; [|split; [|lra]].
  - unfold obstacle_pe. assert (E : world_to_cell 1%R (0, 1)%R = Ok (0, 1)).
    { apply world_to_cell_spec_R; [lra|]. split; [unfold int_coord; cbn; lia|]. unfold in_cell; cbn; lra. }
    cbn [om_scale]. rewrite E. cbn [bind]. unfold cell_impact. cbn [om_cell snd Z.eqb Pos.eqb bind]. rewrite B1. reflexivity.
  - intros fuel Hf. unfold max_pe, area_cells.
    assert (E : world_to_cell 1%R (0, 0)%R = Ok (0, 0)).
    { apply world_to_cell_spec_R; [lra|]. split; [unfold int_coord; cbn; lia|]. unfold in_cell; cbn; lra. }
    destruct (raster_empty_rect_R 4 4 (2, 2) 1%R (mkRect 0 1 0 0)%R true (0, 0) ltac:(lra)) as (st & Es & Ev);
      [unfold rect_area, vside_len, hside_len; cbn; lra|exact E|].
    cbn [om_w om_h om_origin om_scale]. rewrite Es. cbn [bind]. rewrite (Ev fuel Hf). cbn [bind max_loop].
    unfold cell_impact. cbn [om_cell snd Z.eqb bind]. rewrite B0. cbn [bind assert_].
    unfold dmax. cbn [dlt dofZ ROps]. now destruct (R_lt 0 0).
Qed.
Print Assumptions C30_degenerate_area_refuted.

(** the mean lies between any bounds of the covered cells, and never exceeds the maximum estimate *)
Theorem C30_mean_is_between_minimum_and_maximum :
  forall (C : Type) (impact : C -> outcome R) (m : omap R C) (fuel : nat) (area : rect R) (cells : list coord) (v lo hi : R),
  area_cells m fuel area = Ok cells -> cells <> [] -> mean_pe impact m fuel area = Ok v ->
  (forall c i, In c cells -> cell_impact impact m c = Ok i -> (lo <= i <= hi)%R) -> (lo <= v <= hi)%R.
Proof.
  intros C impact m fuel area cells v lo hi EC NE E H. unfold mean_pe in E. rewrite EC in E. cbn [bind] in E.
  apply bind_Ok_inv in E as ([tot n] & EL & E). apply mean_loop_R in EL as (-> & _ & B). specialize (B lo hi H). cbn [dofZ ROps] in B.
  rewrite Z.add_0_l in E. set (N := Z.of_nat (length cells)) in *.
  assert (PN : 0 < N) by (unfold N; destruct cells; [congruence|cbn [length]; lia]).
  replace (N =? 0) with false in E by lia. injection E as <-. cbn [ddiv dofZ ROps].
  assert (P : (0 < IZR N)%R) by now apply IZR_lt.
  split; (apply Rmult_le_reg_r with (IZR N); [lra|]); unfold Rdiv; rewrite Rmult_assoc, Rinv_l by lra; lra.
Qed.
Print Assumptions C30_mean_is_between_minimum_and_maximum.

Theorem C30_mean_is_at_most_the_maximum_estimate :
  forall (C : Type) (impact : C -> outcome R) (m : omap R C) (fuel : nat) (area : rect R) (cells : list coord) (v vm : R),
  area_cells m fuel area = Ok cells -> cells <> [] -> mean_pe impact m fuel area = Ok v -> max_pe impact m fuel area = Ok vm ->
  (v <= vm)%R.
Proof.
  intros C impact m fuel area cells v vm EC NE E EM.
  destruct (C30_max_estimate_is_the_maximum _ _ _ _ _ _ EM) as (cells' & EC' & _ & HB & _). rewrite EC in EC'. injection EC' as <-.
  assert (exists lo, forall c i, In c cells -> cell_impact impact m c = Ok i -> (lo <= i)%R) as [lo HL].
  { clear NE EC E EM. induction cells as [|c cells IH]; [exists 0%R; intros ? ? []|].
    destruct IH as [lo HL]; [intros; apply HB; now right|]. destruct (HB c (or_introl eq_refl)) as (i & Ei & _).
    exists (Rmin lo i). intros c' i' [<-|Hin] E'.
    - rewrite Ei in E'. injection E' as <-. apply Rmin_r.
    - apply Rle_trans with lo; [apply Rmin_l|eauto]. }
  eapply (proj2 (C30_mean_is_between_minimum_and_maximum _ _ _ _ _ _ _ lo vm EC NE E _)). Unshelve.
  intros c i Hc Ei. split; [eauto|]. destruct (HB c Hc) as (i' & Ei' & Hi). rewrite Ei in Ei'. injection Ei' as <-. exact Hi.
Qed.
Print Assumptions C30_mean_is_at_most_the_maximum_estimate.

(** the overlap-weighted estimate is 0.5 (nothing overlaps) or between any bounds of the covered cells; its weights are the
    nonnegative overlaps *)
Theorem C30_overlap_estimate_is_a_convex_combination :
  forall (C : Type) (impact : C -> outcome R) (m : omap R C) (fuel : nat) (area : rect R) (cells : list coord) (v : R),
  (left area <= right area)%R -> (bot area <= top area)%R ->
  area_cells m fuel area = Ok cells -> overlap_pe impact m fuel area = Ok v ->
  (forall c, In c cells -> exists b w, world_cell_bounds (om_scale m) c = Ok b /\ rect_overlap area b = Ok w /\ (0 <= w)%R) /\
  (v = (1 / 2)%R \/
   forall lo hi, (forall c i, In c cells -> cell_impact impact m c = Ok i -> (lo <= i <= hi)%R) -> (lo <= v <= hi)%R).
Proof.
  intros C impact m fuel area cells v HH HV EC E. unfold overlap_pe in E. rewrite EC in E. cbn [bind] in E.
  apply bind_Ok_inv in E as ([tot wt] & EL & E).
  destruct (overlap_loop_R impact m area cells HH HV _ _ _ _ EL) as (ws & HL & HW & Hle & HB). cbn [dofZ ROps] in *.
  split.
  { intros c Hc. apply In_nth_error in Hc as [k Hk]. destruct (HW k c Hk) as (w & b & _ & A & B & F). eauto. }
  cbn [deq ROps] in E. destruct (R_eq wt 0) eqn:Z0; cbn [negb] in E; injection E as <-; [now left|right].
  apply R_eq_false in Z0. intros lo hi H. specialize (HB lo hi H). rewrite !Rminus_0_r in HB. cbn [ddiv ROps].
  split; (apply Rmult_le_reg_r with wt; [lra|]); unfold Rdiv; rewrite Rmult_assoc, Rinv_l by lra; lra.
Qed.
Print Assumptions C30_overlap_estimate_is_a_convex_combination.

Theorem C30_maximum_is_monotone_in_the_area :
  forall (C : Type) (impact : C -> outcome R) (m : omap R C) (fuel fuel' : nat) (a a' : rect R) (v v' : R),
  (0 < om_scale m)%R -> (left a < right a)%R -> (bot a < top a)%R ->
  (left a' <= left a)%R -> (right a <= right a')%R -> (bot a' <= bot a)%R -> (top a <= top a')%R ->
  max_pe impact m fuel a = Ok v -> max_pe impact m fuel' a' = Ok v' -> (v <= v')%R.
Proof.
  intros C impact m fuel fuel' a a' v v' Hs H1 H2 L R' B T E E'.
  destruct (C30_max_estimate_is_the_maximum _ _ _ _ _ _ E) as (cells & EC & _ & _ & W).
  destruct (C30_max_estimate_is_the_maximum _ _ _ _ _ _ E') as (cells' & EC' & P & HB & _).
  destruct W as [->|(c & Hc & Ec)]; [exact P|].
  apply (area_cells_R m fuel a cells Hs H1 H2 EC) in Hc. destruct Hc as (p & Hp & Hx & Hy).
  destruct (HB c) as (i & Ei & Hi).
  - apply (area_cells_R m fuel' a' cells' Hs ltac:(lra) ltac:(lra) EC'). exists p. split; [exact Hp|lra].
  - rewrite Ec in Ei. injection Ei as <-. exact Hi.
Qed.
Print Assumptions C30_maximum_is_monotone_in_the_area.

(** a 2 x 2 cell area over a map whose cells hold 1/4 except one with 3/4 *)
Example C30_case : let z := dofZ 0 : F64 in
  let m := mkOmap 8 8 (4, 4) (dofZ 1) (fun _ => true) (fun c => Ok (if coord_eqb c (1, 1) then dlit 3 4 else dlit 1 4)) in
  let area := mkRect (dlit 1 2) (dlit 3 2) (dlit 1 2) (dlit 3 2) in
  ok_is (max_pe (fun v => Ok v) m 9 area) (dlit 3 4) && ok_is (mean_pe (fun v => Ok v) m 9 area) (dlit 3 8) &&
  ok_is (overlap_pe (fun v => Ok v) m 9 area) (dlit 3 8) && ok_is (obstacle_pe (fun v => Ok v) m (dofZ 1, dofZ 1)) (dlit 3 4) = true.
Proof. vm_compute. reflexivity. Qed.
