(** Vocabulary for the asynchronous publisher. *)
From Coq Require Import ZArith List Bool.
From Verif.Base Require Import Outcome Num.
From Verif.Model Require Import Sensor RosNode AsyncPublisher.
Import ListNotations.

Section S.
  Context {D : Type} {ops : DOps D}.
  Variables (dcos dsin : D -> D).
  (** the corrections a publisher without a second thread computes for the events (C67 says what they are) *)
  Fixpoint corrections (c : correction D) (l : list (event D)) : list (transform D) :=
    match l with
    | [] => []
    | EvMsg t :: l => corrections (correction_msg c t) l
    | EvPose p :: l => let '(c', v) := correction_pose dcos dsin c p in v :: corrections c' l
    end.
  (** every broadcast sends the value of the last complete update before it ([cur] if there is none) *)
  Fixpoint sends_latest (cur : transform D) (tr : list (label D)) : Prop :=
    match tr with
    | [] => True
    | LUpdated v :: tr => sends_latest v tr
    | LSent _ v :: tr => v = cur /\ sends_latest cur tr
    end.
  Definition updates (tr : list (label D)) : list (transform D) := flat_map (fun x => match x with LUpdated v => [v] | _ => [] end) tr.
  Definition main_sends (tr : list (label D)) : list (transform D) := flat_map (fun x => match x with LSent TMain v => [v] | _ => [] end) tr.
  (** [l] is [l'] or [l'] without its last element *)
  Definition all_but_last_at_most {A} (l l' : list A) : Prop := l = l' \/ exists x, l' = l ++ [x].
End S.
