(** Model of two helper nodes: src/ros/wg_pr2_bag_adapter.cpp and src/ros/path_publisher.cpp. *)
From Coq Require Import ZArith List Bool String.
Import ListNotations.
Local Open Scope string_scope.

(** ** wg_pr2_bag_adapter.cpp *)
Section Adapter.
  Variable Payload : Type.    (* stamp, sequence number, translation and rotation of a transform *)
  Variable Grid : Type.       (* an occupancy grid without its frame id *)
  Variable empty_grid : Grid. (* a default-constructed one *)

  (** geometry_msgs::TransformStamped *)
  Record tf_msg := mkTf { tf_frame : string; tf_child : string; tf_data : Payload }.
  (** nav_msgs::OccupancyGrid *)
  Record grid_msg := mkGr { gr_frame : string; gr_data : Grid }.

  (** the globals, wg_pr2_bag_adapter.cpp:14-18: [provided_grid]; [gt2map_transform] with its flag *)
  Record adapter := mkAd { ad_grid : grid_msg; ad_first : option tf_msg }.
  Definition adapter_init : adapter := mkAd (mkGr "" empty_grid) None.

  (** what happens to the node; a tf message is the list of its transforms *)
  Inductive ad_event := OnGrid (g : grid_msg) | OnTf (ts : list tf_msg) | Tick.
  (** what it sends: a transform (br.sendTransform), a grid *)
  Inductive ad_out := SendTf (t : tf_msg) | PublishGrid (g : grid_msg).

  Variables map_frame odom_frame : string.   (* tf_map_frame_id(), tf_odom_frame_id(props) *)

  (** wg_pr2_bag_adapter.cpp:31-46: one transform; [std::move(t)] takes all of [t] *)
  Definition on_transform (first : option tf_msg) (t : tf_msg) : option tf_msg * tf_msg :=
    if negb (String.eqb (tf_frame t) ("/" ++ map_frame)) || negb (String.eqb (tf_child t) ("/" ++ odom_frame)) then (first, t)
    else
      let g := match first with Some g => g | None => mkTf "/provided_map" "/map" (tf_data t) end in
      (Some g, g).
  Fixpoint on_tf_msg (first : option tf_msg) (ts : list tf_msg) : option tf_msg * list ad_out :=
    match ts with
    | [] => (first, [])
    | t :: ts =>
        let (first, o) := on_transform first t in
        let (first, os) := on_tf_msg first ts in
        (first, SendTf o :: os)
    end.

  (** wg_pr2_bag_adapter.cpp:20-23, 25-47, 60-64 *)
  Definition ad_step (a : adapter) (e : ad_event) : adapter * list ad_out :=
    match e with
    | OnGrid g => (mkAd (mkGr "provided_map" (gr_data g)) (ad_first a), [])
    | OnTf ts => let (first, os) := on_tf_msg (ad_first a) ts in (mkAd (ad_grid a) first, os)
    | Tick => (a, [PublishGrid (ad_grid a)])
    end.
  Fixpoint ad_run (a : adapter) (es : list ad_event) : adapter * list ad_out :=
    match es with
    | [] => (a, [])
    | e :: es =>
        let (a, o) := ad_step a e in
        let (a, os) := ad_run a es in
        (a, (o ++ os)%list)
    end.
End Adapter.
Arguments mkTf {Payload}. Arguments tf_frame {Payload}. Arguments tf_child {Payload}. Arguments tf_data {Payload}.
Arguments mkGr {Grid}. Arguments gr_frame {Grid}. Arguments gr_data {Grid}.
Arguments mkAd {Payload Grid}. Arguments ad_grid {Payload Grid}. Arguments ad_first {Payload Grid}.
Arguments OnGrid {Payload Grid}. Arguments OnTf {Payload Grid}. Arguments Tick {Payload Grid}.
Arguments SendTf {Payload Grid}. Arguments PublishGrid {Payload Grid}.
Arguments adapter_init {Payload Grid}. Arguments ad_run {Payload Grid}. Arguments ad_step {Payload Grid}.
Arguments on_tf_msg {Payload Grid}. Arguments on_transform {Payload}.

(** ** path_publisher.cpp *)
Section PathPublisher.
  Variable D : Type.
  Variables (zero : D) (Stamp : Type) (stamp0 : Stamp).

  (** geometry_msgs::PoseStamped; fields that are not set are zero, those of the quaternion included *)
  Record stamped_pose := mkSPose { st_frame : string; st_stamp : Stamp;
    st_x : D; st_y : D; st_z : D; st_qx : D; st_qy : D; st_qz : D; st_qw : D }.
  Definition default_pose : stamped_pose := mkSPose "" stamp0 zero zero zero zero zero zero zero.
  (** nav_msgs::Path *)
  Record path_msg := mkPath { pa_frame : string; pa_stamp : Stamp; pa_poses : list stamped_pose }.

  (** what an attempt to look up the robot's transform meets (path_publisher.cpp:51-73): a transform with its frame,
      stamp and origin; a tf::TransformException; or ros::ok() is false before it *)
  Inductive lookup := Found (frame : string) (stamp : Stamp) (x y : D) | Failed | Shutdown.

  (** path_publisher.cpp:47-77: the pose, and the attempts left; [None] for the pose: no attempt is left, the node is
      still waiting *)
  Fixpoint get_current_pose (ls : list lookup) : option (stamped_pose * list lookup) :=
    match ls with
    | [] => None
    | Found f s x y :: ls => Some (mkSPose f s x y zero zero zero zero zero, ls)
    | Failed :: ls => get_current_pose ls
    | Shutdown :: ls => Some (default_pose, Shutdown :: ls)
    end.

  (** path_publisher.cpp:89-97: the messages passed to publish().  [node_handle.ok()] is false once the node was shut
      down.  Each turn uses an attempt: [fuel] is their number. *)
  Fixpoint publish_loop (fuel : nat) (path : path_msg) (ls : list lookup) : list path_msg :=
    match fuel with
    | O => []
    | S fuel =>
        match ls with
        | Shutdown :: _ => []
        | _ =>
            match get_current_pose ls with
            | None => []
            | Some (p, ls) =>
                let path := mkPath (pa_frame path) (st_stamp p) (pa_poses path ++ [p]) in
                path :: publish_loop fuel path ls
            end
        end
    end.
  (** path_publisher.cpp:80-100 *)
  Definition path_publisher (map_frame : string) (ls : list lookup) : list path_msg :=
    publish_loop (List.length ls) (mkPath map_frame stamp0 []) ls.
End PathPublisher.
Arguments mkSPose {D Stamp}. Arguments st_frame {D Stamp}. Arguments st_stamp {D Stamp}. Arguments st_x {D Stamp}. Arguments st_y {D Stamp}.
Arguments st_z {D Stamp}. Arguments st_qx {D Stamp}. Arguments st_qy {D Stamp}. Arguments st_qz {D Stamp}. Arguments st_qw {D Stamp}.
Arguments mkPath {D Stamp}. Arguments pa_frame {D Stamp}. Arguments pa_stamp {D Stamp}. Arguments pa_poses {D Stamp}.
Arguments Found {D Stamp}. Arguments Failed {D Stamp}. Arguments Shutdown {D Stamp}.
Arguments path_publisher {D} zero {Stamp}. Arguments get_current_pose {D} zero {Stamp}. Arguments publish_loop {D} zero {Stamp}.
Arguments default_pose {D} zero {Stamp}.
