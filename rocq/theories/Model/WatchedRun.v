(** A single-hypothesis world with an observed pose enumeration scan matcher:
    src/core/states/single_state_hypothesis_laser_scan_grid_world.h with src/core/scan_matchers/{grid_scan_matcher,
    pose_enumeration_scan_matcher}.h. *)
From Coq Require Import ZArith List Bool.
From Verif.Base Require Import Outcome Num.
From Verif.Model Require Import MathUtils Geometry Sensor Matchers World.
Import ListNotations.
Local Open Scope outcome_scope.

Section WatchedRun.
  Context {D S M E : Type} {ops : DOps D}.
  Variables (en : enumerator D E) (score : S -> M -> pose D -> pose D -> D) (fuel : nat).
  Variable adder : M -> pose D -> S -> D -> D -> outcome M.
  Variables (q_localized q_raw margin : D).

  (** the matcher object: its enumerator, its registered observers (grid_scan_matcher.h:226) and, as a ghost, every call of an
      observer so far *)
  Record smatcher := mkSmatcher { sm_enum : E; sm_obs : observers; sm_calls : list (Z * event D) }.
  (** pose_enumeration_scan_matcher.h:27-29 *)
  Definition sm_reset_state (k : smatcher) : smatcher := mkSmatcher (e_reset en (sm_enum k)) (sm_obs k) (sm_calls k).
  (** pose_enumeration_scan_matcher.h:31-77; [score s m init p]: the probability of the scan, filtered at [init], in the pose [p] *)
  Definition sm_process_scan (k : smatcher) (s : S) (init : pose D) (m : M) : outcome (D * pose D * smatcher) :=
    r <- process_scan en (score s m init) (sm_obs k) fuel (sm_enum k) init ;;
    Ok (mr_prob r, mr_delta r, mkSmatcher (mr_enum r) (sm_obs k) (sm_calls k ++ mr_out r)).

  Definition watched_world := ss_world D M smatcher.
  (** what a user can do between scans *)
  Inductive wevent' :=
  | WWorld (e : wevent D S)        (* subscriptions to the world, ends of its observers, scans *)
  | WAddSm (o : Z)                 (* single_state_hypothesis_laser_scan_grid_world.h:34-37 *)
  | WRemoveSm (o : Z)              (* single_state_hypothesis_laser_scan_grid_world.h:39-42 *)
  | WEndSm (o : Z).                (* the last shared_ptr of a matcher observer goes away *)

  Definition with_sm_obs (f : observers -> observers) (w : watched_world) : watched_world :=
    mkSS (ss_pose w) (ss_map w) (mkSmatcher (sm_enum (ss_sm w)) (f (sm_obs (ss_sm w))) (sm_calls (ss_sm w))) (ss_log w).
  Definition end_sm (o : Z) (obs : observers) : observers :=
    map (fun r => if (fst r =? o)%Z then (fst r, false) else r) obs.

  (** world_run one event at a time: world.h:34-40, laser_scan_grid_world.h:26-32 *)
  Definition watched_step (o : wobservers) (w : watched_world) (e : wevent') : outcome (wobservers * watched_world * list (wnote D M)) :=
    match e with
    | WWorld e => ss_run sm_reset_state sm_process_scan adder q_localized q_raw margin o w [e]
    | WAddSm i => Ok (o, with_sm_obs (fun obs => subscribe obs i) w, [])
    | WRemoveSm i => Ok (o, with_sm_obs (fun obs => unsubscribe obs i) w, [])
    | WEndSm i => Ok (o, with_sm_obs (end_sm i) w, [])
    end.
  Fixpoint watched_run (o : wobservers) (w : watched_world) (h : list wevent') : outcome (wobservers * watched_world * list (wnote D M)) :=
    match h with
    | [] => Ok (o, w, [])
    | e :: h =>
        '(o, w, n) <- watched_step o w e ;;
        '(o, w, n') <- watched_run o w h ;;
        Ok (o, w, n ++ n')
    end.
End WatchedRun.
Arguments smatcher D E : clear implicits.
Arguments wevent' D S : clear implicits.
