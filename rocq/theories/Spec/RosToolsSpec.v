(** What the bag adapter and the path publisher are expected to send. *)
From Coq Require Import ZArith List Bool String.
From Verif.Model Require Import RosTools.
Import ListNotations.
Local Open Scope string_scope.

Section Adapter.
  Context {Payload Grid : Type}.
  Variables map_frame odom_frame : string.

  (** all transforms received, in order *)
  Definition received_transforms (es : list (ad_event Payload Grid)) : list (tf_msg Payload) :=
    flat_map (fun e => match e with OnTf ts => ts | _ => [] end) es.
  (** all transforms sent, in order *)
  Definition sent_transforms (os : list (ad_out Payload Grid)) : list (tf_msg Payload) :=
    flat_map (fun o => match o with SendTf t => [t] | _ => [] end) os.
  (** all grids published, in order *)
  Definition published_grids (os : list (ad_out Payload Grid)) : list (grid_msg Grid) :=
    flat_map (fun o => match o with PublishGrid g => [g] | _ => [] end) os.

  (** a pose correction recorded in the bag *)
  Definition is_correction (t : tf_msg Payload) : bool :=
    String.eqb (tf_frame t) ("/" ++ map_frame) && String.eqb (tf_child t) ("/" ++ odom_frame).
  (** the first recorded correction, under the names of the provided map *)
  Definition replacement (ts : list (tf_msg Payload)) (t : tf_msg Payload) : tf_msg Payload :=
    match find is_correction ts with Some c => mkTf "/provided_map" "/map" (tf_data c) | None => t end.

  (** the grid received last, under the name of the provided map *)
  Definition latest_grid (empty : Grid) (es : list (ad_event Payload Grid)) : grid_msg Grid :=
    match find (fun e => match e with OnGrid _ => true | _ => false end) (rev es) with
    | Some (OnGrid g) => mkGr "provided_map" (gr_data g)
    | _ => mkGr "" empty
    end.
  Definition is_tick (e : ad_event Payload Grid) : bool := match e with Tick => true | _ => false end.
End Adapter.

Section Path.
  Context {D : Type} (zero : D) {Stamp : Type}.
  (** the poses found, in order *)
  Definition found_poses (ls : list (lookup D Stamp)) : list (stamped_pose D Stamp) :=
    flat_map (fun l => match l with Found f s x y => [mkSPose f s x y zero zero zero zero zero] | _ => [] end) ls.
  Definition no_shutdown (ls : list (lookup D Stamp)) : Prop := ~ In Shutdown ls.
End Path.
