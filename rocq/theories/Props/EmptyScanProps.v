(** C84: matching a scan of which no point can be used. *)
From Coq Require Import Reals ZArith List Lia Lra Bool.
From Flocq Require Import Core IEEE754.Binary.
From Verif.Base Require Import Outcome Num F64Facts OrdLaws.
From Verif.Model Require Import MathUtils Geometry Grid PlainMap Cells Sensor Spe Matchers World Pyramid M3Engine M3Score.
From Verif.Spec Require Import SpeSpec EmptyScanSpec.
From Verif.Proofs Require Import SpeProofs EmptyScanProofs.
From Verif.Props Require Import SpeProps PyramidProps M3ScoreProps.
Import ListNotations.
Local Open Scope Z_scope.

(** the filter leaves nothing of such a scan, and the estimate of nothing is unknown (NaN) on every map, at every pose *)
Theorem C84_nothing_is_left_and_its_probability_is_unknown :
  forall (D : Type) (ops : DOps D) (C : Type) (datan2 : D -> D -> D) (m : omap D C) (skip_rate : Z) (max_range : D)
    (pose_pt : point D) (tp : trig D) (raw pts : list (scan_point D)),
  deq (dofZ 0) (dofZ 0) = true ->
  filter_scan datan2 m skip_rate max_range pose_pt tp raw = Ok pts ->
  none_usable datan2 m skip_rate max_range pose_pt tp raw ->
  pts = [] /\
  forall (dcos dsin : D -> D) aoo_prob weight pose_pt tp prerotated area,
    estimate_scan dcos dsin datan2 aoo_prob weight pose_pt tp prerotated area pts = Ok None.
Proof.
  intros D ops C datan2 m skip mr pp tp raw pts Z0 E N.
  assert (H : pts = []).
  { apply C29_filter_keeps_exactly_the_usable_points in E. eapply select_none; [exact E|]. intros k s Hk. rewrite Z.add_0_l. exact (N k s Hk). }
  subst pts. split; [reflexivity|]. intros. unfold estimate_scan. cbn [estimate_loop bind]. now rewrite Z0.
Qed.
Print Assumptions C84_nothing_is_left_and_its_probability_is_unknown.

(** Brute force, hill climbing, Monte Carlo: whatever poses the enumerator proposes, the matcher answers "no correction" - the
    exact zero - and a probability that is not a number *)
Theorem C84_enumeration_matchers_correct_nothing :
  forall (C : Type) (dcos dsin : F64 -> F64) (datan2 : F64 -> F64 -> F64) (m : omap F64 C) (skip_rate : Z) (max_range : F64)
    (tp : trig F64) (raw pts : list (scan_point F64)) (init : pose F64) aoo_prob weight (area : rect F64) (nan : F64)
    (tps : pose F64 -> trig F64) (score : pose F64 -> F64) (E : Type) (en : enumerator F64 E) obs fuel e r,
  filter_scan datan2 m skip_rate max_range (px init, py init) tp raw = Ok pts ->
  none_usable datan2 m skip_rate max_range (px init, py init) tp raw ->
  disnan nan = true ->
  (forall p, exists res, estimate_scan dcos dsin datan2 aoo_prob weight (px p, py p) (tps p) false area pts = Ok res /\ score p = as_double nan res) ->
  process_scan en score obs fuel e init = Ok r ->
  mr_best r = init /\ disnan (mr_prob r) = true /\ (pose_finite init -> mr_delta r = delta_zero).
Proof.
  intros C dcos dsin datan2 m skip mr tp raw pts init aoo_prob weight area nan tps score E en obs fuel e r EF N NN HS EP.
  destruct (C84_nothing_is_left_and_its_probability_is_unknown F64 FOps _ _ _ _ _ _ _ _ _ eq_refl EF N) as [_ U].
  assert (NAN : forall p, disnan (score p) = true).
  { intros p. destruct (HS p) as (res & Er & ->). rewrite U in Er. injection Er as <-. exact NN. }
  destruct (process_scan_nan en score obs NAN fuel e init r EP) as (A & B & D). rewrite A, B, D. split; [reflexivity|]. split; [apply NAN|].
  intros (FX & FY & FT). unfold pose_sub, delta_zero. now rewrite !F_sub_self.
Qed.
Print Assumptions C84_enumeration_matchers_correct_nothing.

(** the hill climbing with fixed steps stops in its first round *)
Theorem C84_fixed_hill_climbing_corrects_nothing :
  forall (C : Type) (dcos dsin : F64 -> F64) (datan2 : F64 -> F64 -> F64) (m : omap F64 C) (skip_rate : Z) (max_range : F64)
    (tp : trig F64) (raw pts : list (scan_point F64)) (init : pose F64) aoo_prob weight (area : rect F64) (nan : F64)
    (tps : pose F64 -> trig F64) (score : pose F64 -> F64) (deg_half : F64) fuel shrinks,
  filter_scan datan2 m skip_rate max_range (px init, py init) tp raw = Ok pts ->
  none_usable datan2 m skip_rate max_range (px init, py init) tp raw ->
  disnan nan = true -> pose_finite init -> (1 <= fuel)%nat ->
  (forall p, exists res, estimate_scan dcos dsin datan2 aoo_prob weight (px p, py p) (tps p) false area pts = Ok res /\ score p = as_double nan res) ->
  exists prob, hf_process score deg_half fuel shrinks init = Ok (delta_zero, prob, init, shrinks) /\ disnan prob = true.
Proof.
  intros C dcos dsin datan2 m skip mr tp raw pts init aoo_prob weight area nan tps score deg fuel shrinks EF N NN (FX & FY & FT) L HS.
  destruct (C84_nothing_is_left_and_its_probability_is_unknown F64 FOps _ _ _ _ _ _ _ _ _ eq_refl EF N) as [_ U].
  assert (NAN : forall p, disnan (score p) = true).
  { intros p. destruct (HS p) as (res & Er & ->). rewrite U in Er. injection Er as <-. exact NN. }
  exists (score init). split; [|apply NAN]. rewrite (hf_process_nan score deg NAN fuel shrinks init L).
  unfold pose_sub, delta_zero. now rewrite !F_sub_self.
Qed.
Print Assumptions C84_fixed_hill_climbing_corrects_nothing.

(** a world whose matcher answers "no correction" stays where the odometry put it, and the scan goes to the map with the quality
    of an unmatched one *)
Theorem C84_the_world_keeps_its_pose :
  forall (S M SM : Type) (sm_reset : SM -> SM) (sm_process : SM -> S -> pose F64 -> M -> outcome (F64 * pose F64 * SM)) adder
    (q_localized q_raw margin : F64) (w w' : ss_world F64 M SM) (s : tr_scan F64 S) prob sm,
  sm_process (sm_reset (ss_sm w)) (ts_scan s) (ss_pose w) (ss_map w) = Ok (prob, delta_zero, sm) -> pose_finite (ss_pose w) ->
  ss_observe sm_reset sm_process adder q_localized q_raw margin w s = Ok w' ->
  pose_same (ss_pose w) (ss_pose w') /\ adder (ss_map w) (ss_pose w') (ts_scan s) q_raw margin = Ok (ss_map w').
Proof.
  intros S M SM rst proc adder ql qr mg w w' s prob sm EP (FX & FY & FT) E. unfold ss_observe in E. rewrite EP in E. cbn [bind] in E.
  unfold ss_update in E. cbn [ss_pose ss_map ss_sm ss_log] in E.
  assert (Z : delta_nonzero (delta_zero : pose F64) = false) by (vm_compute; reflexivity). rewrite Z in E.
  apply bind_Ok_inv in E as (mm & EA & E). injection E as <-. cbn [ss_pose ss_map]. split; [|exact EA].
  unfold pose_same, pose_add, delta_zero. cbn [px py pth]. auto using F_add_zero.
Qed.
Print Assumptions C84_the_world_keeps_its_pose.

(** The multi-resolution matcher has no answer for such a scan: whatever the map, the limits, the accuracy and the queue, the
    search never returns (its assertions end the program).  [scan rot] is what is left of the scan, rotated. *)
Theorem C84_multi_resolution_matcher_never_answers_refuted :
  forall (C : Type) dcos dsin datan2 (proto : C) impact weight cfuel (p : pyramid F64 C) (robot : pose F64) (nan : F64)
    (scan : F64 -> list (scan_point F64)) (score : F64 -> rect F64 -> F64) pop,
  (forall rot, scan_to_cartesian datan2 (raw_trig dcos dsin (dadd rot (pth robot))) [] = Ok (scan rot)) -> disnan nan = true ->
  (forall rot r, exists res, match_prob dcos dsin datan2 proto impact weight cfuel p robot (scan rot) r = Ok res /\ score rot r = as_double nan res) ->
  (forall q m r, pop q = Some (m, r) -> In m q) ->
  forall fuel max_x max_y max_th ang_step step,
  m3rsm_search score pop fuel max_x max_y max_th ang_step step = Abort \/ m3rsm_search score pop fuel max_x max_y max_th ang_step step = OutOfFuel.
Proof.
  intros C dcos dsin datan2 proto impact weight cfuel p robot nan scan score pop ES NN HS HP fuel mx my mth astep step.
  apply (m3rsm_nan score); [|exact HP]. intros a r. destruct (HS a r) as (res & Er & ->).
  assert (X : scan a = []) by (specialize (ES a); cbn in ES; now injection ES). rewrite X in Er.
  unfold match_prob in Er. apply bind_Ok_inv in Er as (p' & _ & Er). apply bind_Ok_inv in Er as (m & _ & Er).
  unfold estimate_scan in Er. cbn [estimate_loop bind] in Er. injection Er as <-. exact NN.
Qed.
Print Assumptions C84_multi_resolution_matcher_never_answers_refuted.

Lemma top_pop_in : forall q m r, top_pop q = Some (m, r) -> In m q.
Proof.
  induction q as [|a q IH]; intros m r H; [discriminate|]. cbn [top_pop] in H. destruct (top_pop q) as [[m' r']|].
  - destruct (match_less a m'); injection H as <- _; [right; eapply IH; reflexivity|now left].
  - injection H as <- _. now left.
Qed.
(** the default configuration (1 m, 5 degrees, accuracy 0.1 degrees and 0.05 m) on any scan without usable points: abort *)
Definition nan_score (_ : F64) (_ : rect F64) : F64 := f_nan.
Theorem C84_default_multi_resolution_matcher_aborts_refuted :
  m3rsm_search nan_score top_pop 200 (dofZ 1) (dofZ 1) (dlit 87 1000) (dlit 17 10000) (dlit 5 100) = Abort /\
  forall q m r, top_pop q = Some (m, r) -> In m q.
Proof.
  split; [|exact top_pop_in].
  assert (H : aborted (m3rsm_search nan_score top_pop 200 (dofZ 1) (dofZ 1) (dlit 87 1000) (dlit 17 10000) (dlit 5 100)) true = true) by (vm_compute; reflexivity).
  now apply aborted_Abort in H as [H _].
Qed.
Print Assumptions C84_default_multi_resolution_matcher_aborts_refuted.

(** a scan of one free point and one obstacle outside of the map: nothing is usable; brute force over 9 poses answers zero *)
Definition empty_case_map : omap F64 F64 := mkOmap 4 4 (2, 2) (dofZ 1) (fun c => (Z.abs (fst c) <=? 2) && (Z.abs (snd c) <=? 2)) (fun _ => Ok (dlit 1 2)).
Definition empty_case_scan : list (scan_point F64) := [sp_make_cartesian (dofZ 1, dofZ 1) false; sp_make_cartesian (dofZ 9, dofZ 1) true].
Example C84_case :
  let z := dofZ 0 : F64 in let init := mkPose (dofZ 1) (dlit (-1) 2) z in
  let tp := mkTrig (fun _ => Ok (dofZ 1)) (fun _ => Ok z) in
  let cfg := mkBfCfg (dofZ (-1)) (dofZ 1) (dofZ 1) (dofZ (-1)) (dofZ 1) (dofZ 1) z z (dofZ 1) in
  match filter_scan (fun x _ => x) empty_case_map 0 (dofZ 100) (dofZ 1, dlit (-1) 2) tp empty_case_scan with
  | Ok pts =>
      Nat.eqb (length pts) 0 &&
      found (process_scan (bf_enum cfg) (fun p => match estimate_scan (fun x => x) (fun x => x) (fun x _ => x)
          (fun p _ => Ok (ddiv (dofZ 1) (ptx p))) (even_weight pts) (px p, py p) tp false (mkRect z z z z) pts with Ok (Some v) => v | _ => f_nan end)
          [] 20 (bf_new cfg) init)
        (fun r => Nat.eqb (length (mr_tested r)) 10 && disnan (mr_prob r) && deq (px (mr_delta r)) z && deq (px (mr_best r)) (dofZ 1))
  | _ => false end = true.
Proof. vm_compute. reflexivity. Qed.
(** e.g. every scan without an obstacle has no usable point *)
Example C84_free_scans_are_not_usable : forall (C : Type) datan2 (m : omap F64 C) skip_rate max_range pose_pt tp (ranges : list (F64 * F64)),
  none_usable datan2 m skip_rate max_range pose_pt tp (map (fun ra => sp_make_polar (fst ra) (snd ra) false) ranges).
Proof.
  intros C datan2 m skip mr pp tp ranges i s E (_ & O & _). apply nth_error_In in E. apply in_map_iff in E as ((x, y) & <- & _). discriminate O.
Qed.
