(** Model of the two threads of an asynchronous PoseCorrectionTfPublisher (src/ros/pose_correction_tf_publisher.h) and of the end
    of the node that owns it.  A step is one access to shared memory: a transform is written and read in two steps (basis,
    origin), so a schedule may come between them wherever the mutex does not forbid it.  Memory is sequentially consistent
    (the only shared data, [_map2odom], is accessed under the mutex: 44-45, 61-65). *)
From Coq Require Import ZArith List Bool.
From Verif.Base Require Import Outcome Num.
From Verif.Model Require Import MathUtils Geometry Sensor RosNode.
Import ListNotations.

Section Async.
  Context {D : Type} {ops : DOps D}.
  Variables (dcos dsin : D -> D).

  (** what ros::spin() brings to the publisher: a message's transform (31-37) or a pose of the world (39-48) *)
  Inductive event := EvMsg (t : transform D) | EvPose (p : pose D).
  (** where the main thread is *)
  Inductive main_pc :=
  | MReady                      (* in ros::spin() *)
  | MWait (p : pose D)          (* 44: wants the lock *)
  | MWrite (v : transform D)    (* 45: writes the basis *)
  | MWriteO (v : transform D)   (* 45: writes the origin *)
  | MUnlock (v : transform D)   (* 46: releases the lock *)
  | MWait2                      (* 61 *)
  | MRead                       (* 63: reads the basis *)
  | MReadO (b : mat3 D)         (* 63: reads the origin *)
  | MSend (t : transform D)     (* 62 *)
  | MUnlock2                    (* 65 *)
  | MExited                     (* the node has returned from main *)
  | MTerminated.                (* std::terminate has been called *)
  (** where the publishing thread is; [ANone]: there is none (not asynchronous: 24-26) *)
  Inductive async_pc := ANone | ACheck (* 54 *) | AWait (* 61 *) | ARead | AReadO (b : mat3 D) | ASend (t : transform D) | AUnlock (* 65 *) | ASleep (* 56 *) | ADone.
  Inductive tid := TMain | TAsync.
  Record astate := mkA {
    a_events : list event;          (* not handled yet *)
    a_odom : transform D;           (* _last_odom2base, used by the main thread only *)
    a_basis : mat3 D; a_origin : vec3 D;   (* _map2odom *)
    a_lock : option tid;            (* _map2odom_mutex *)
    a_main : main_pc; a_async : async_pc;
    a_ok : bool                     (* ros::ok() *)
  }.
  (** what is observed: an update of the correction is complete; a transform is broadcast *)
  Inductive label := LUpdated (v : transform D) | LSent (by_ : tid) (v : transform D).

  (** 45 *)
  Definition new_correction (odom : transform D) (p : pose D) : transform D := tf_inverse (tf_mul odom (tf_inverse (pose_tf dcos dsin p))).

  (** one step of the main thread *)
  Inductive main_step : astate -> list label -> astate -> Prop :=
  | ms_msg t l odom b o k a ok :                                   (* 35-36 *)
      main_step (mkA (EvMsg t :: l) odom b o k MReady a ok) []
                (mkA l (mkTf (tf_basis t) (mkV3 (v_x (tf_origin t)) (v_y (tf_origin t)) (dofZ 0))) b o k MReady a ok)
  | ms_pose p l odom b o k a ok :                                  (* 39-42 *)
      main_step (mkA (EvPose p :: l) odom b o k MReady a ok) [] (mkA l odom b o k (MWait p) a ok)
  | ms_lock p l odom b o a ok :                                    (* 44 *)
      main_step (mkA l odom b o None (MWait p) a ok) [] (mkA l odom b o (Some TMain) (MWrite (new_correction odom p)) a ok)
  | ms_write v l odom b o k a ok :                                 (* 45 *)
      main_step (mkA l odom b o k (MWrite v) a ok) [] (mkA l odom (tf_basis v) o k (MWriteO v) a ok)
  | ms_write_origin v l odom b o k a ok :                          (* 45 *)
      main_step (mkA l odom b o k (MWriteO v) a ok) [] (mkA l odom b (tf_origin v) k (MUnlock v) a ok)
  | ms_unlock v l odom b o k a ok :                                (* 46 *)
      main_step (mkA l odom b o k (MUnlock v) a ok) [LUpdated v] (mkA l odom b o None MWait2 a ok)
  | ms_lock2 l odom b o a ok :                                     (* 61 *)
      main_step (mkA l odom b o None MWait2 a ok) [] (mkA l odom b o (Some TMain) MRead a ok)
  | ms_read l odom b o k a ok :                                    (* 63 *)
      main_step (mkA l odom b o k MRead a ok) [] (mkA l odom b o k (MReadO b) a ok)
  | ms_read_origin b' l odom b o k a ok :                          (* 63 *)
      main_step (mkA l odom b o k (MReadO b') a ok) [] (mkA l odom b o k (MSend (mkTf b' o)) a ok)
  | ms_send t l odom b o k a ok :                                  (* 62 *)
      main_step (mkA l odom b o k (MSend t) a ok) [LSent TMain t] (mkA l odom b o k MUnlock2 a ok)
  | ms_unlock2 l odom b o k a ok :                                 (* 65 *)
      main_step (mkA l odom b o k MUnlock2 a ok) [] (mkA l odom b o None MReady a ok)
  (** single_hypoth_slam_node.cpp:62-63, gmapping.cpp: ros::spin() returns when ros::ok() no longer holds; the publisher is
      destroyed.  It has no destructor of its own, so that of the std::thread is called, which calls std::terminate for a
      thread that was started and never joined, be it done or not. *)
  | ms_exit_sync l odom b o k : main_step (mkA l odom b o k MReady ANone false) [] (mkA l odom b o k MExited ANone false)
  | ms_exit_async l odom b o k a : a <> ANone ->
      main_step (mkA l odom b o k MReady a false) [] (mkA l odom b o k MTerminated a false).

  (** the process is still there *)
  Definition alive (s : astate) : Prop := a_main s <> MExited /\ a_main s <> MTerminated.
  (** one step of the publishing thread: 52-66 *)
  Inductive async_step : astate -> list label -> astate -> Prop :=
  | as_check_go l odom b o k m : async_step (mkA l odom b o k m ACheck true) [] (mkA l odom b o k m AWait true)
  | as_check_done l odom b o k m : async_step (mkA l odom b o k m ACheck false) [] (mkA l odom b o k m ADone false)
  | as_lock l odom b o m ok : async_step (mkA l odom b o None m AWait ok) [] (mkA l odom b o (Some TAsync) m ARead ok)
  | as_read l odom b o k m ok : async_step (mkA l odom b o k m ARead ok) [] (mkA l odom b o k m (AReadO b) ok)
  | as_read_origin b' l odom b o k m ok : async_step (mkA l odom b o k m (AReadO b') ok) [] (mkA l odom b o k m (ASend (mkTf b' o)) ok)
  | as_send t l odom b o k m ok : async_step (mkA l odom b o k m (ASend t) ok) [LSent TAsync t] (mkA l odom b o k m AUnlock ok)
  | as_unlock l odom b o k m ok : async_step (mkA l odom b o k m AUnlock ok) [] (mkA l odom b o None m ASleep ok)
  | as_sleep l odom b o k m ok : async_step (mkA l odom b o k m ASleep ok) [] (mkA l odom b o k m ACheck ok).

  (** one step of the process: of either thread, or the request to shut down *)
  Inductive astep : astate -> list label -> astate -> Prop :=
  | st_main s tr s' : main_step s tr s' -> astep s tr s'
  | st_async s tr s' : alive s -> async_step s tr s' -> astep s tr s'
  | st_shutdown l odom b o k m a : m <> MExited -> m <> MTerminated ->
      astep (mkA l odom b o k m a true) [] (mkA l odom b o k m a false).
  (** executions: any schedule *)
  Inductive aruns : astate -> list label -> astate -> Prop :=
  | ar_nil s : aruns s [] s
  | ar_step s tr s' tr' s'' : astep s tr s' -> aruns s' tr' s'' -> aruns s (tr ++ tr') s''.

  (** 17-29: a new publisher about to receive [events] *)
  Definition publisher_new (is_async : bool) (events : list event) : astate :=
    let t := co_map2odom (correction_new dcos dsin) in
    mkA events (co_odom2base (correction_new dcos dsin)) (tf_basis t) (tf_origin t) None MReady (if is_async then ACheck else ANone) true.
End Async.
Arguments event D : clear implicits.
Arguments astate D : clear implicits.
Arguments label D : clear implicits.
