(** Model of the ROS side of a SLAM node: src/ros/{topic_with_transform,pose_correction_tf_publisher,robot_pose_observers,
    launch_properties_provider,single_hypoth_slam_node.cpp,init_utils}.h, src/slams/gmapping/gmapping.cpp and the loop of
    src/ros/lslam2D_bag_runner.cpp. *)
From Coq Require Import Ascii String ZArith List Bool.
From Verif.Base Require Import Outcome Num.
From Verif.Model Require Import MathUtils Geometry Sensor Properties Render.
Import ListNotations.
Local Open Scope Z_scope.
Local Open Scope outcome_scope.

(** ** tf::Transform (library tf/LinearMath): a 3x3 matrix and an origin *)
Section Tf.
  Context {D : Type} {ops : DOps D}.
  Record vec3 := mkV3 { v_x : D; v_y : D; v_z : D }.
  Record mat3 := mkM3 { m_r0 : vec3; m_r1 : vec3; m_r2 : vec3 }.
  Record transform := mkTf { tf_basis : mat3; tf_origin : vec3 }.
  (** tf/LinearMath/Vector3.h: dot, operator+, operator- (library) *)
  Definition v3_dot (a b : vec3) : D := dadd (dadd (dmul (v_x a) (v_x b)) (dmul (v_y a) (v_y b))) (dmul (v_z a) (v_z b)).
  Definition v3_add (a b : vec3) : vec3 := mkV3 (dadd (v_x a) (v_x b)) (dadd (v_y a) (v_y b)) (dadd (v_z a) (v_z b)).
  Definition v3_opp (a : vec3) : vec3 := mkV3 (dopp (v_x a)) (dopp (v_y a)) (dopp (v_z a)).
  (** tf/LinearMath/Matrix3x3.h: transpose, matrix * vector, matrix * matrix (library) *)
  Definition m3_transpose (m : mat3) : mat3 :=
    mkM3 (mkV3 (v_x (m_r0 m)) (v_x (m_r1 m)) (v_x (m_r2 m)))
         (mkV3 (v_y (m_r0 m)) (v_y (m_r1 m)) (v_y (m_r2 m)))
         (mkV3 (v_z (m_r0 m)) (v_z (m_r1 m)) (v_z (m_r2 m))).
  Definition m3_apply (m : mat3) (v : vec3) : vec3 := mkV3 (v3_dot (m_r0 m) v) (v3_dot (m_r1 m) v) (v3_dot (m_r2 m) v).
  Definition m3_mul (a b : mat3) : mat3 :=
    let t := m3_transpose b in
    mkM3 (m3_apply t (m_r0 a)) (m3_apply t (m_r1 a)) (m3_apply t (m_r2 a)).
  (** tf/LinearMath/Transform.h: operator*(vector), operator*(transform), inverse (library) *)
  Definition tf_apply (t : transform) (v : vec3) : vec3 := v3_add (m3_apply (tf_basis t) v) (tf_origin t).
  Definition tf_mul (a b : transform) : transform := mkTf (m3_mul (tf_basis a) (tf_basis b)) (tf_apply a (tf_origin b)).
  Definition tf_inverse (t : transform) : transform :=
    let inv := m3_transpose (tf_basis t) in mkTf inv (m3_apply inv (v3_opp (tf_origin t))).
  (** tf::createQuaternionFromRPY(0, 0, yaw): (0, 0, sin(yaw/2), cos(yaw/2)), and Matrix3x3::setRotation (library) *)
  Variables (dcos dsin : D -> D).
  Definition yaw_basis (yaw : D) : mat3 :=
    let h := ddiv yaw (dofZ 2) in
    let z := dsin h in let w := dcos h in
    let s := ddiv (dofZ 2) (dadd (dmul z z) (dmul w w)) in
    let zs := dmul z s in
    let wz := dmul w zs in let zz := dmul z zs in
    mkM3 (mkV3 (dsub (dofZ 1) zz) (dopp wz) (dofZ 0)) (mkV3 wz (dsub (dofZ 1) zz) (dofZ 0)) (mkV3 (dofZ 0) (dofZ 0) (dofZ 1)).
  (** pose_correction_tf_publisher.h:45-47, robot_pose_observers.h:19-21 *)
  Definition pose_tf (p : pose D) : transform := mkTf (yaw_basis (pth p)) (mkV3 (px p) (py p) (dofZ 0)).

  (** *** PoseCorrectionTfPublisher: pose_correction_tf_publisher.h:15-74 *)
  Record correction := mkCorr { co_odom2base : transform; co_map2odom : transform }.
  (** pose_correction_tf_publisher.h:22-23 (the origin of a transform made of a quaternion is zero) *)
  Definition correction_new : correction :=
    let t := mkTf (yaw_basis (dofZ 0)) (mkV3 (dofZ 0) (dofZ 0) (dofZ 0)) in mkCorr t t.
  (** pose_correction_tf_publisher.h:31-37 *)
  Definition correction_msg (c : correction) (t : transform) : correction :=
    mkCorr (mkTf (tf_basis t) (mkV3 (v_x (tf_origin t)) (v_y (tf_origin t)) (dofZ 0))) (co_map2odom c).
  (** pose_correction_tf_publisher.h:39-48; the second result is what publish_map_to_odom sends *)
  Definition correction_pose (c : correction) (p : pose D) : correction * transform :=
    let base2map := tf_inverse (pose_tf p) in
    let m := tf_inverse (tf_mul (co_odom2base c) base2map) in
    (mkCorr (co_odom2base c) m, m).

  (** *** the observers of a node, connected to the scan topic and to the world *)
  Inductive sink := SCorrection | SStamped | SScan.
  (** what is sent to tf: the map -> odom correction; the map -> robot pose with its stamp *)
  Inductive sent := SentCorrection (t : transform) | SentPose (stamp : Z) (t : transform).
  (** the state of a node: the correction publisher, the observation time of the stamped publisher
      (robot_pose_observers.h:49), the SLAM *)
  Context {M S : Type}.
  Record node := mkNode { n_corr : correction; n_time : Z; n_slam : S }.
  Variable stamp : M -> Z.                                              (* the header stamp of a message *)
  (** LaserScanObserver::handle_transformed_msg and the world's handle_sensor_data: the new state and the poses the world
      notified its observers of *)
  Variable slam : S -> M -> transform -> outcome (S * list (pose D)).
  Variable pose_subs : list sink.                                       (* world.h: _world_pose_observers *)

  (** world.h:44-54: every pose observer is called; robot_pose_observers.h:18-27, 50-52 *)
  Fixpoint notify_pose (subs : list sink) (n : node) (p : pose D) : node * list sent :=
    match subs with
    | [] => (n, [])
    | s :: subs =>
        let '(n, out) := match s with
          | SCorrection => let '(c, m) := correction_pose (n_corr n) p in
                           (mkNode c (n_time n) (n_slam n), [SentCorrection m])
          | SStamped => (n, [SentPose (n_time n) (pose_tf p)])
          | SScan => (n, [])
          end in
        let '(n, out') := notify_pose subs n p in (n, out ++ out')
    end.
  Fixpoint notify_poses (n : node) (ps : list (pose D)) : node * list sent :=
    match ps with
    | [] => (n, [])
    | p :: ps => let '(n, out) := notify_pose pose_subs n p in let '(n, out') := notify_poses n ps in (n, out ++ out')
    end.
  (** handle_transformed_msg of each observer: pose_correction_tf_publisher.h:31-37, robot_pose_observers.h:41-46,
      laser_scan_observer.h:29-39 *)
  Definition handle_msg (s : sink) (n : node) (m : M) (t : transform) : outcome (node * list sent) :=
    match s with
    | SCorrection => Ok (mkNode (correction_msg (n_corr n) t) (n_time n) (n_slam n), [])
    | SStamped => Ok (mkNode (n_corr n) (stamp m) (n_slam n), [])
    | SScan => '(w, ps) <- slam (n_slam n) m t ;; Ok (notify_poses (mkNode (n_corr n) (n_time n) w) ps)
    end.
  (** topic_with_transform.h:65-69: every observer that is still alive *)
  Fixpoint dispatch (subs : list (sink * bool)) (n : node) (m : M) (t : transform) : outcome (node * list sent) :=
    match subs with
    | [] => Ok (n, [])
    | (s, alive) :: subs =>
        '(n, out) <- (if alive : bool then handle_msg s n m t else Ok (n, [])) ;;
        '(n, out') <- dispatch subs n m t ;;
        Ok (n, out ++ out')
    end.
  (** topic_with_transform.h:48-70: nothing happens when the transform cannot be looked up *)
  Definition transformed_msg_cb (subs : list (sink * bool)) (n : node) (m : M) (t : option transform) : outcome (node * list sent) :=
    match t with Some t => dispatch subs n m t | None => Ok (n, []) end.
  (** ros::spin(): the messages one after another, each with the answer of the transform lookup; what each made the node
      send *)
  Fixpoint spin (subs : list (sink * bool)) (n : node) (ms : list (M * option transform)) : outcome (node * list (list sent)) :=
    match ms with
    | [] => Ok (n, [])
    | (m, t) :: ms =>
        '(n, out) <- transformed_msg_cb subs n m t ;;
        '(n, outs) <- spin subs n ms ;;
        Ok (n, out :: outs)
    end.
End Tf.
Arguments vec3 D : clear implicits.
Arguments mat3 D : clear implicits.
Arguments transform D : clear implicits.
Arguments correction D : clear implicits.
Arguments sent D : clear implicits.
Arguments node D S : clear implicits.

(** single_hypoth_slam_node.cpp:52-61 with init_utils.h:88-112 (credibilist/slam.cpp:36-45 is the same): the correction
    publisher subscribes to the scan topic before the scan observer; the plain robot pose publisher stamps with the current
    time (not modelled) *)
Definition node_1h_topic : list (sink * bool) := [(SCorrection, true); (SScan, true)].
Definition node_1h_poses : list sink := [SCorrection].
(** gmapping.cpp:36-48 with init_utils.h:88-127 *)
Definition node_gmapping_topic : list (sink * bool) := [(SCorrection, true); (SStamped, true); (SScan, true)].
Definition node_gmapping_poses : list sink := [SCorrection; SStamped].

(** ** RobotPoseTumTrajectoryDumper: robot_pose_observers.h:60-90 *)
Section Tum.
  Context {P : Type}.
  Variable show : P -> str.            (* the pose fields of a line: " x y 0 qx qy qz qw", robot_pose_observers.h:77-78 *)
  (** robot_pose_observers.h:76: the stamp; ros::Time holds the seconds and the nanoseconds of the second *)
  Definition tum_stamp (sec nsec : Z) : str := to_string sec ++ lit "." ++ to_string nsec.
  (** robot_pose_observers.h:74-80 *)
  Definition tum_line (sec nsec : Z) (p : P) : str := tum_stamp sec nsec ++ show p ++ [nl].
  (** lslam2D_bag_runner.cpp:135-143: one line is appended for each handled scan *)
  Fixpoint tum_file (log : list (Z * Z * P)) : str :=
    match log with [] => [] | (sec, nsec, p) :: log => tum_line sec nsec p ++ tum_file log end.
End Tum.

(** ** LaunchPropertiesProvider: launch_properties_provider.h:10-53.  The parameter server holds typed values; the
    hierarchy of its names is not modelled. *)
Section Launch.
  Context {D : Type} {ops : DOps D}.
  Inductive pvalue := PStr (s : str) | PInt (z : Z) | PDbl (d : D) | PBool (b : bool).
  Definition pserver := str -> option pvalue.
  (** ros::param::param<T>(name, value, default) (library): the value if it is set and has the type, the default otherwise.
      A double is accepted as an int (rounded) and an int as a double. *)
  Definition param_str (p : pserver) (id : str) (dflt : str) : str := match p id with Some (PStr s) => s | _ => dflt end.
  Variable round_int : D -> Z.
  Definition param_int (p : pserver) (id : str) (dflt : Z) : Z :=
    match p id with Some (PInt z) => z | Some (PDbl d) => round_int d | _ => dflt end.
  Definition param_dbl (p : pserver) (id : str) (dflt : D) : D :=
    match p id with Some (PDbl d) => d | Some (PInt z) => dofZ z | _ => dflt end.
  Definition param_bool (p : pserver) (id : str) (dflt : bool) : bool := match p id with Some (PBool b) => b | _ => dflt end.

  (** launch_properties_provider.h:13-15 *)
  Definition l_set (p : pserver) (id v : str) : pserver := fun k => if str_eqb id k then Some (PStr v) else p k.
  Definition unset : str := lit "<unset>".
  (** launch_properties_provider.h:29-31 *)
  Definition l_str (p : pserver) (id dflt : str) : str := param_str p id dflt.
  (** launch_properties_provider.h:17-21 *)
  Definition l_int (p : pserver) (id : str) (dflt : Z) : outcome Z :=
    let v := l_str p id unset in if str_eqb v unset then Ok (param_int p id dflt) else stoi v.
  Variable stod : str -> outcome D.
  (** launch_properties_provider.h:23-27 *)
  Definition l_dbl (p : pserver) (id : str) (dflt : D) : outcome D :=
    let v := l_str p id unset in if str_eqb v unset then Ok (param_dbl p id dflt) else stod v.
  (** conversion of an unsigned to an int (gcc: modulo 2^32) *)
  Definition uint_to_int (z : Z) : Z := if z <? 2 ^ 31 then z else z - 2 ^ 32.
  (** launch_properties_provider.h:33-37 *)
  Definition l_uint (p : pserver) (id : str) (dflt : Z) : outcome Z :=
    v <- l_int p id (uint_to_int dflt) ;;
    _ <- assert_ (0 <=? v) ;;
    Ok v.
  (** launch_properties_provider.h:39-44 *)
  Definition l_bool (p : pserver) (id : str) (dflt : bool) : bool :=
    let v := l_str p id unset in
    if str_eqb v unset then param_bool p id dflt
    else negb (str_eqb v (lit "false") || str_eqb v (lit "0")).

  (** single_hypoth_slam_node.cpp:21-32 without reading the file: [names] are the available properties of the file
      provider [file], in any order *)
  Definition use_config (p : pserver) (file : props) (names : list str) : pserver :=
    fold_left (fun p name => l_set p name (get_str file name [])) names p.
End Launch.
Arguments pvalue D : clear implicits.
Arguments pserver D : clear implicits.
