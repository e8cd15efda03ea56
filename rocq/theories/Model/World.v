(** Model of src/core/states/{world,laser_scan_grid_world,single_state_hypothesis_laser_scan_grid_world}.h. *)
From Coq Require Import ZArith List Bool.
From Verif.Base Require Import Outcome Num.
From Verif.Model Require Import MathUtils Geometry Sensor.
Import ListNotations.
Local Open Scope outcome_scope.

(** ** observers of a world: world.h:16-65.  Observers are identified by numbers; a weak_ptr locks iff its observer was not
    destroyed.  Callbacks are assumed not to change the world. *)
Section Observable.
  Context {D M : Type}.
  Record wobservers := mkWObs { wo_map : list nat; wo_pose : list nat; wo_dead : list nat }.
  Definition wo_new : wobservers := mkWObs [] [] [].
  (** world.h:34-36 *)
  Definition subscribe_map (o : wobservers) (id : nat) : wobservers := mkWObs (wo_map o ++ [id]) (wo_pose o) (wo_dead o).
  (** world.h:38-40 *)
  Definition subscribe_pose (o : wobservers) (id : nat) : wobservers := mkWObs (wo_map o) (wo_pose o ++ [id]) (wo_dead o).
  (** the last shared_ptr of an observer goes away *)
  Definition destroy_observer (o : wobservers) (id : nat) : wobservers := mkWObs (wo_map o) (wo_pose o) (id :: wo_dead o).

  Inductive wnote := NPose (id : nat) (p : pose D) | NMap (id : nat) (m : M).
  Definition locks (o : wobservers) (id : nat) : bool := negb (existsb (Nat.eqb id) (wo_dead o)).
  (** world.h:44-50, 52-54 *)
  Definition notify_with_pose (o : wobservers) (p : pose D) : list wnote :=
    flat_map (fun id => if locks o id then [NPose id p] else []) (wo_pose o).
  (** world.h:44-50, 56-58 *)
  Definition notify_with_map (o : wobservers) (m : M) : list wnote :=
    flat_map (fun id => if locks o id then [NMap id m] else []) (wo_map o).
End Observable.
Arguments wnote D M : clear implicits.

(** state_data.h / sensor_data.h TransformedLaserScan: the odometry delta, the scan and its quality *)
Section WorldRun.
  Context {D S M : Type} {ops : DOps D}.
  Record tr_scan := mkTS { ts_delta : pose D; ts_scan : S; ts_quality : D }.

  (** any world: what [update_robot_pose] and [handle_observation] do to its state, and what [pose()] and [map()] return *)
  Context {W : Type}.
  Variables (w_update : W -> pose D -> outcome W) (w_observe : W -> tr_scan -> outcome W).
  Variables (w_pose : W -> outcome (pose D)) (w_map : W -> outcome M).

  (** laser_scan_grid_world.h:26-32 (and gmapping_particle_filter.h:45-50) *)
  Definition handle_sensor_data (o : wobservers) (w : W) (s : tr_scan) : outcome (W * list (wnote D M)) :=
    w <- w_update w (ts_delta s) ;;
    w <- w_observe w s ;;
    p <- w_pose w ;;
    let n1 := notify_with_pose o p in
    m <- w_map w ;;
    let n2 := notify_with_map o m in
    Ok (w, n1 ++ n2).

  (** a history of calls *)
  Inductive wevent := ESubPose (id : nat) | ESubMap (id : nat) | EDestroy (id : nat) | EScan (s : tr_scan).
  Fixpoint world_run (o : wobservers) (w : W) (h : list wevent) : outcome (wobservers * W * list (wnote D M)) :=
    match h with
    | [] => Ok (o, w, [])
    | ESubPose id :: h => world_run (subscribe_pose o id) w h
    | ESubMap id :: h => world_run (subscribe_map o id) w h
    | EDestroy id :: h => world_run (destroy_observer o id) w h
    | EScan s :: h =>
        '(w, n) <- handle_sensor_data o w s ;;
        '(o, w, n') <- world_run o w h ;;
        Ok (o, w, n ++ n')
    end.
End WorldRun.
Arguments tr_scan D S : clear implicits.
Arguments mkTS {D S}.
Arguments wevent D S : clear implicits.

(** ** single_state_hypothesis_laser_scan_grid_world.h *)
Section SingleState.
  Context {D S M SM : Type} {ops : DOps D}.
  (** the scan matcher and scan adder are arbitrary: [sm_reset] = reset_state, [sm_process] = process_scan (probability, the
      correction written to pose_delta, new internal state), [adder] = append_scan(map, pose, scan, quality, margin) *)
  Variables (sm_reset : SM -> SM) (sm_process : SM -> S -> pose D -> M -> outcome (D * pose D * SM)).
  Variable adder : M -> pose D -> S -> D -> D -> outcome M.
  Variables (q_localized q_raw margin : D).     (* Properties: lines 14-16 *)

  (** the world, its map and its scan matcher; [ss_log]: a ghost list of the corrections the scan matcher returned *)
  Record ss_world := mkSS { ss_pose : pose D; ss_map : M; ss_sm : SM; ss_log : list (pose D) }.
  (** world.h:75-77 *)
  Definition ss_update (w : ss_world) (d : pose D) : ss_world := mkSS (pose_add (ss_pose w) d) (ss_map w) (ss_sm w) (ss_log w).
  (** single_state_hypothesis_laser_scan_grid_world.h:52-65 *)
  Definition ss_observe (w : ss_world) (s : tr_scan D S) : outcome ss_world :=
    let sm := sm_reset (ss_sm w) in
    '(_, delta, sm) <- sm_process sm (ts_scan s) (ss_pose w) (ss_map w) ;;
    let w := ss_update (mkSS (ss_pose w) (ss_map w) sm (ss_log w ++ [delta])) delta in
    let quality := if delta_nonzero delta then q_localized else q_raw in
    m <- adder (ss_map w) (ss_pose w) (ts_scan s) quality margin ;;
    Ok (mkSS (ss_pose w) m (ss_sm w) (ss_log w)).
  Definition ss_run : wobservers -> ss_world -> list (wevent D S) -> outcome (wobservers * ss_world * list (wnote D M)) :=
    world_run (fun w d => Ok (ss_update w d)) ss_observe (fun w => Ok (ss_pose w)) (fun w => Ok (ss_map w)).
End SingleState.
Arguments ss_world D M SM : clear implicits.
