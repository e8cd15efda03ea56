(** What the ROS side of a node has to do, in words of transforms, text and histories. *)
From Coq Require Import Ascii String ZArith List Bool Reals.
From Verif.Base Require Import Outcome Num.
From Verif.Model Require Import MathUtils Geometry Sensor Properties RosNode BagRunner.
From Verif.Spec Require Import PropertiesSpec.
Import ListNotations.
Local Open Scope R_scope.

(** ** Transforms.  A point of the robot as it lies in the map when the robot is at [p] *)
Definition placed (p : pose R) (q : vec3 R) : vec3 R :=
  mkV3 (px p + v_x q * cos (pth p) - v_y q * sin (pth p)) (py p + v_x q * sin (pth p) + v_y q * cos (pth p)) (v_z q).
(** a point of the robot as it lies in the odometry frame: the transform [t] looked up for the scan, kept on the floor *)
Definition in_odometry (t : transform R) (q : vec3 R) : vec3 R :=
  let r := tf_apply t q in mkV3 (v_x r) (v_y r) (v_z r - v_z (tf_origin t)).
(** a rotation (or a reflection): the columns of the matrix are orthonormal *)
Definition column (m : mat3 R) (f : vec3 R -> R) : vec3 R := mkV3 (f (m_r0 m)) (f (m_r1 m)) (f (m_r2 m)).
Definition orthogonal (m : mat3 R) : Prop :=
  v3_dot (column m v_x) (column m v_x) = 1 /\ v3_dot (column m v_y) (column m v_y) = 1 /\ v3_dot (column m v_z) (column m v_z) = 1 /\
  v3_dot (column m v_x) (column m v_y) = 0 /\ v3_dot (column m v_x) (column m v_z) = 0 /\ v3_dot (column m v_y) (column m v_z) = 0.
(** the correction [c] between the odometry and the map takes every point of the robot to its place in the map *)
Definition corrects (t : transform R) (p : pose R) (c : transform R) : Prop := forall q, tf_apply c (in_odometry t q) = placed p q.
(** the transform [x] is the pose *)
Definition is_pose (p : pose R) (x : transform R) : Prop := forall q, tf_apply x q = placed p q.

(** ** The SLAM behind a node: the scans it handles, the poses it announced for each message (none for a message without a
    transform) *)
Section Slam.
  Context {M S : Type}.
  Variable slam : S -> M -> transform R -> outcome (S * list (pose R)).
  Inductive announced : S -> list (M * option (transform R)) -> S -> list (list (pose R)) -> Prop :=
  | ann_nil s : announced s [] s []
  | ann_skip s m ms s' pss : announced s ms s' pss -> announced s ((m, None) :: ms) s' ([] :: pss)
  | ann_scan s m t ms s1 ps s' pss : slam s m t = Ok (s1, ps) -> announced s1 ms s' pss -> announced s ((m, Some t) :: ms) s' (ps :: pss).
End Slam.
Section SlamRuns.
  Context {D M S : Type}.
  Variable slam : S -> M -> transform D -> outcome (S * list (pose D)).
  (** the SLAM handles the scans [l] one after another *)
  Inductive handles : S -> list (M * transform D) -> S -> Prop :=
  | h_nil s : handles s [] s
  | h_scan s m t l s1 ps s' : slam s m t = Ok (s1, ps) -> handles s1 l s' -> handles s ((m, t) :: l) s'.
End SlamRuns.
(** the messages that have a transform *)
Fixpoint known {M T} (ms : list (M * option T)) : list (M * T) :=
  match ms with [] => [] | (m, Some t) :: ms => (m, t) :: known ms | (_, None) :: ms => known ms end.

(** exactly one live observer of the topic is the scan observer *)
Definition one_scan_observer (subs : list (sink * bool)) : Prop :=
  exists a b, subs = a ++ (SScan, true) :: b /\ ~ In (SScan, true) a /\ ~ In (SScan, true) b.
(** what a node sent for the messages: [outs] has an entry for each message; nothing for a message without a transform; for
    a scan with the announced poses [ps] one group of transforms for each pose, in order *)
Definition sent_for {M} (group : M -> transform R -> pose R -> list (sent R) -> Prop)
  (ms : list (M * option (transform R))) (pss : list (list (pose R))) (outs : list (list (sent R))) : Prop :=
  length outs = length ms /\ length pss = length ms /\ 
  forall i m t ps out, nth_error ms i = Some (m, t) -> nth_error pss i = Some ps -> nth_error outs i = Some out ->
  match t with
  | None => out = []
  | Some t => exists groups, out = concat groups /\ Forall2 (group m t) ps groups
  end.

(** ** Decimal fractions "digits.digits" *)
Definition reads_as (s : str) (v : R) : Prop :=
  exists a b za zb, s = a ++ "."%char :: b /\ decimal a za /\ decimal b zb /\ v = IZR za + IZR zb / 10 ^ length b.
