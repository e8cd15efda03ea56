(** Model of src/core/scan_matchers/connect_the_dots_ambiguous_drift_detector.h: a scan matcher that wraps another one and
    corrects its result along the direction most walls of the scan have. *)
From Coq Require Import ZArith List Bool.
From Verif.Base Require Import Outcome Num.
From Verif.Model Require Import MathUtils Geometry Sensor Histogram Matchers.
Import ListNotations.
Local Open Scope Z_scope.
Local Open Scope outcome_scope.

Section Drift.
  Context {D : Type} {ops : DOps D}.
  Variables (dcos dsin dacos : D -> D) (mpi : D).
  (** filter_scan(raw_scan.scan, init_pose, map): pose and map are fixed during the call *)
  Variable filter_pts : list (scan_point D) -> outcome (list (scan_point D)).
  (** scan_probability(scan, pose, map) (grid_scan_matcher.h:190-193) as a function of the points and the pose *)
  Variable score : list (scan_point D) -> pose D -> D.

  (** connect_the_dots_ambiguous_drift_detector.h:48-55: the points [pts] from index [i] on that are kept *)
  Fixpoint dd_kept (h : hist D) (all : list (scan_point D)) (top : Z) (i : nat) (pts : list (scan_point D)) : outcome (list (scan_point D)) :=
    match pts with
    | [] => Ok []
    | p :: pts =>
        v <- hist_value mpi h all i ;;
        rest <- dd_kept h all top (S i) pts ;;
        Ok (if top =? v then rest else p :: rest)
    end.
  (** connect_the_dots_ambiguous_drift_detector.h:60-68: the search along the middle of column [i] *)
  Definition dd_cfg (i : nat) : polar_cfg D :=
    let step := angle_step mpi 20 in
    let ang := dadd (dmul (dofZ (Z.of_nat i)) step) (ddiv step (dofZ 2)) in
    mkPolarCfg ang ang step (dopp (dlit 1 4)) (dlit 1 4) (dlit 1 10).

  (** connect_the_dots_ambiguous_drift_detector.h:21-97 [process_scan].  [wrapped] is the result of the wrapped matcher's
      process_scan (line 26): its probability, the pose delta and the calls of its observers.  The loop in lines 71-84 is the
      loop of pose_enumeration_scan_matcher.h without observers; the probabilities collected for the output in lines 86-91 and
      the output itself are left out. *)
  Definition dd_process (fuel : nat) (wrapped : outcome (D * pose D * list (Z * event D))) (init : pose D) (raw : list (scan_point D))
      : outcome (D * pose D * list (Z * event D)) :=
    '(sm_best_prob, pose_delta, out) <- wrapped ;;
    let best_pose := pose_add init pose_delta in
    scan <- filter_pts raw ;;
    h <- hist_reset dcos dsin dacos mpi 20 scan ;;
    drift_dir_i <- hist_max_i h ;;
    drift_dir <- match nth_error (h_cols h) drift_dir_i with Some v => Ok v | None => UB end ;;
    if dlt (dofZ drift_dir) (dmul (dlit 4 10) (dofZ (Z.of_nat (length scan)))) then Ok (sm_best_prob, pose_delta, out)
    else
      filtered <- dd_kept h scan drift_dir 1 (tl scan) ;;
      let cfg := dd_cfg drift_dir_i in
      _ <- assert_ (polar_cfg_ok cfg) ;;
      '(_, best_pose, _, _, _) <- pe_loop (polar_enum cfg dcos dsin) (score filtered) [] fuel (polar_new cfg) best_pose (score filtered best_pose) [best_pose] [] ;;
      Ok (score scan best_pose, pose_sub best_pose init, out).
  (** connect_the_dots_ambiguous_drift_detector.h:12-13, init_scan_matching.h:213-217 (the wrapped matcher is a local variable of
      the factory): a detector with its own observers [own] (grid_scan_matcher.h:160-162) around a pose enumeration matcher with the
      observers [inner].  No code notifies the observers of the detector. *)
  Definition dd_over_pe {E} (own inner : observers) (en : enumerator D E) (fuel : nat) (e : E) (init : pose D) (raw : list (scan_point D))
      : outcome (D * pose D * list (Z * event D)) :=
    dd_process fuel (r <- (pts <- filter_pts raw ;; process_scan en (score pts) inner fuel e init) ;; Ok (mr_prob r, mr_delta r, mr_out r)) init raw.
End Drift.
