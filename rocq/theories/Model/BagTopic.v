(** Model of src/ros/bag_topic_with_transform.h and of the client loop of src/ros/lslam2D_bag_runner.cpp:134-150. *)
From Coq Require Import List Bool.
From Verif.Base Require Import Outcome.
Import ListNotations.
Local Open Scope outcome_scope.

(** what tf::Transformer::lookupTransform answers: a transform, an ExtrapolationException with a text mentioning the future, the
    past or neither, or another exception (which nobody catches) *)
Inductive answer (T : Type) := Found (t : T) | IntoFuture | IntoPast | Extrapolation | Unknown.
Arguments Found {T} t.
Arguments IntoFuture {T}.
Arguments IntoPast {T}.
Arguments Extrapolation {T}.
Arguments Unknown {T}.

Section Bag.
  (** messages of the topic, transforms of a tf message, the transform cache (ROS's, not modelled) *)
  Context {msg tf transform cache : Type}.
  Variable set_transform : cache -> tf -> cache.
  Variable lookup : cache -> msg -> answer transform.
  Variable should_skip : tf -> bool.

  (** the view holds the messages of the two topics *)
  Inductive entry := Msg (m : msg) | Tf (ts : list tf).
  Record bag := mkBag { rest : list entry; tf_cache : cache; msg_cache : list msg }.

  (** bag_topic_with_transform.h:91-125: the synced message, if any, and the queue *)
  Definition has_synced_msg (c : cache) (q : list msg) : outcome (option (msg * transform) * list msg) :=
    match q with
    | [] => Ok (None, [])
    | m :: q' =>
        match lookup c m with
        | Found t => Ok (Some (m, t), q')
        | IntoFuture => Ok (None, m :: q')
        | IntoPast => Ok (None, q')
        | Extrapolation => Ok (None, m :: q')
        | Unknown => Abort
        end
    end.
  (** bag_topic_with_transform.h:55-65 *)
  Definition take_entry (e : entry) (c : cache) (q : list msg) : cache * list msg :=
    match e with
    | Msg m => (c, q ++ [m])
    | Tf ts => (fold_left (fun c t => if should_skip t then c else set_transform c t) ts c, q)
    end.
  (** bag_topic_with_transform.h:48-72; None is false *)
  Fixpoint extract_loop (es : list entry) (c : cache) (q : list msg) : outcome (option (msg * transform) * bag) :=
    match es with
    | [] => '(r, q) <- has_synced_msg c q ;; Ok (r, mkBag [] c q)
    | e :: es =>
        let (c, q) := take_entry e c q in
        '(r, q) <- has_synced_msg c q ;;
        match r with
        | Some x => Ok (Some x, mkBag es c q)
        | None => extract_loop es c q
        end
    end.
  Definition extract_next_msg (b : bag) : outcome (option (msg * transform) * bag) := extract_loop (rest b) (tf_cache b) (msg_cache b).
  (** lslam2D_bag_runner.cpp:135-150: the messages handled, in order *)
  Fixpoint playback (fuel : nat) (b : bag) : outcome (list (msg * transform) * bag) :=
    match fuel with
    | O => OutOfFuel
    | S fuel =>
        '(r, b) <- extract_next_msg b ;;
        match r with
        | None => Ok ([], b)
        | Some x => '(xs, b) <- playback fuel b ;; Ok (x :: xs, b)
        end
    end.
End Bag.
Arguments entry msg tf : clear implicits.
Arguments bag msg tf cache : clear implicits.
