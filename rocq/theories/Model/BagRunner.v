(** Model of src/ros/lslam2D_bag_runner.cpp: the offline run over a bag (its command line is in Config.v). *)
From Coq Require Import Ascii String ZArith List Bool.
From Verif.Base Require Import Outcome Num.
From Verif.Model Require Import Properties Config RosNode.
Import ListNotations.
Local Open Scope outcome_scope.

(** lslam2D_bag_runner.cpp:151-168: what is run; an unknown SLAM is reported and the program ends normally *)
Inductive slam_kind := OneHypothesis | GmappingSlam.
Definition main_slam (a : prog_args) : option slam_kind :=
  if negb (pa_valid a) then None
  else if str_eqb (pa_type a) (lit "viny") || str_eqb (pa_type a) (lit "tiny") then Some OneHypothesis
  else if str_eqb (pa_type a) (lit "gmapping") then Some GmappingSlam
  else None.

(** lslam2D_bag_runner.cpp:118-149: the scans the bag topic extracts, one after another (bag_topic_with_transform.h is
    modelled in BagTopic.v); the trajectory is logged after each scan; the map is dumped at the end.  The result: the final
    SLAM, the trajectory log and the dumped map (None: no map file is asked for). *)
Section Run.
  Context {S M T P Im : Type}.
  Variable handle : S -> M -> T -> outcome S.
  Variables (pose_of : S -> P) (image_of : S -> Im).
  Fixpoint run_scans (a : prog_args) (s : S) (bag : list (M * T * (Z * Z))) (log : list (Z * Z * P)) : outcome (S * list (Z * Z * P)) :=
    match bag with
    | [] => Ok (s, log)
    | (m, t, time) :: bag =>
        s <- handle s m t ;;
        run_scans a s bag (match pa_traj a with None => log | Some _ => log ++ [(time, pose_of s)] end)
    end.
  Definition run_slam (p : props) (a : prog_args) (s : S) (bag : list (M * T * (Z * Z))) : outcome (S * list (Z * Z * P) * option Im) :=
    _ <- assert_ (get_bool p (lit "in/lscan2D/ros/topic/enabled") false) ;;
    _ <- assert_ (get_bool p (lit "in/odometry/ros/tf/enabled") false) ;;
    '(s, log) <- run_scans a s bag [] ;;
    Ok (s, log, match pa_map a with [] => None | _ => Some (image_of s) end).
End Run.
