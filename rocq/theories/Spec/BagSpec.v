(** What playing a bag back is required to deliver. *)
From Coq Require Import List.
From Verif.Model Require Import BagTopic.
Import ListNotations.

Section Bag.
  Context {msg tf transform cache : Type}.
  Variable set_transform : cache -> tf -> cache.
  Variable lookup : cache -> msg -> answer transform.
  Variable skip : tf -> bool.
  (** the messages and the transforms (without the ignored ones) of a part of the bag, in order *)
  Definition messages (es : list (entry msg tf)) : list msg := flat_map (fun e => match e with Msg m => [m] | Tf _ => [] end) es.
  Definition transforms (es : list (entry msg tf)) : list tf := filter (fun t => negb (skip t)) (flat_map (fun e => match e with Msg _ => [] | Tf ts => ts end) es).
  (** the cache after a part of the bag *)
  Definition known (c : cache) (es : list (entry msg tf)) : cache := fold_left set_transform (transforms es) c.
  Definition prefix (p es : list (entry msg tf)) : Prop := exists s, es = p ++ s.

  (** messages in order, each delivered with its transform or dropped *)
  Inductive fates : list msg -> list (msg * transform) -> list msg -> Prop :=
  | f_nil : fates [] [] []
  | f_delivered m t ms xs ds : fates ms xs ds -> fates (m :: ms) ((m, t) :: xs) ds
  | f_dropped m ms xs ds : fates ms xs ds -> fates (m :: ms) xs (m :: ds).
End Bag.
