(** What the multi-resolution search is required to find. *)
From Coq Require Import Reals ZArith List Permutation.
From Verif.Model Require Import Geometry M3Engine.
Import ListNotations.
Local Open Scope R_scope.

(** halves and quarters of a translation range *)
Definition mid (a b : R) : R := a + (b - a) / 2.
Definition left_half (r : rect R) := mkRect (bot r) (top r) (left r) (mid (left r) (right r)).
Definition right_half (r : rect R) := mkRect (bot r) (top r) (mid (left r) (right r)) (right r).
Definition lower_half (r : rect R) := mkRect (bot r) (mid (bot r) (top r)) (left r) (right r).
Definition upper_half (r : rect R) := mkRect (mid (bot r) (top r)) (top r) (left r) (right r).
Definition point_range (x y : R) : rect R := mkRect y y x x.

Section Search.
  (** a side is split if it is longer than the step (the code's comparison adds 2^-52) *)
  Variable step : R.
  Definition long (a b : R) : Prop := step < (b - a) + 1 / IZR (2 ^ 52).
  (** the ranges a range is split into *)
  Inductive part (r : rect R) : rect R -> Prop :=
  | p_left : long (left r) (right r) -> ~ long (bot r) (top r) -> part r (left_half r)
  | p_right : long (left r) (right r) -> ~ long (bot r) (top r) -> part r (right_half r)
  | p_lower : ~ long (left r) (right r) -> long (bot r) (top r) -> part r (lower_half r)
  | p_upper : ~ long (left r) (right r) -> long (bot r) (top r) -> part r (upper_half r)
  | p_ll : long (left r) (right r) -> long (bot r) (top r) -> part r (left_half (lower_half r))
  | p_lu : long (left r) (right r) -> long (bot r) (top r) -> part r (left_half (upper_half r))
  | p_rl : long (left r) (right r) -> long (bot r) (top r) -> part r (right_half (lower_half r))
  | p_ru : long (left r) (right r) -> long (bot r) (top r) -> part r (right_half (upper_half r)).
  Definition leaf (r : rect R) : Prop := ~ long (left r) (right r) /\ ~ long (bot r) (top r).
  (** the leaves of the complete splitting of a range *)
  Inductive leaf_of : rect R -> rect R -> Prop :=
  | l_self r : leaf r -> leaf_of r r
  | l_part r c l : part r c -> leaf_of c l -> leaf_of r l.
  (** the exact translations tried in a leaf: corners and centre *)
  Definition tried_in (l : rect R) (x y : R) : Prop :=
    (x = left l \/ x = right l) /\ (y = bot l \/ y = top l) \/ x = mid (left l) (right l) /\ y = mid (bot l) (top l).
  (** the finest candidates of a window *)
  Definition candidate (window : rect R) (x y : R) : Prop := (x = 0 /\ y = 0) \/ exists l, leaf_of window l /\ tried_in l x y.

  (** the ranges met when a window is split *)
  Inductive range_of (window : rect R) : rect R -> Prop :=
  | r_self : range_of window window
  | r_part r c : range_of window r -> part r c -> range_of window c.
  (** a coarse candidate bounds the candidates it is split into *)
  Definition admissible (window : rect R) (score : R -> rect R -> R) : Prop :=
    (forall rot r c, range_of window r -> part r c -> score rot c <= score rot r) /\
    (forall rot l x y, leaf_of window l -> tried_in l x y -> score rot (point_range x y) <= score rot l).
  (** the same up to inaccuracies: a range's score may be exceeded by 1e-5 by its parts (the engine's assertion), and by [sigma]
      by the exact candidates in it *)
  Definition admissible_upto (sigma : R) (window : rect R) (score : R -> rect R -> R) : Prop :=
    (forall rot r c, range_of window r -> part r c -> score rot c <= score rot r + 1 / 100000) /\
    (forall rot r l x y, range_of window r -> leaf_of r l -> tried_in l x y -> score rot (point_range x y) <= score rot r + sigma).
End Search.

(** rotations tried: multiples of the step up to the limit, both signs *)
Definition rotation_tried (max_th ang_step rot : R) : Prop := exists n : nat, INR n * ang_step <= max_th /\ (rot = INR n * ang_step \/ rot = - (INR n * ang_step)).

(** the same with the slack of the code's comparison *)
Definition rotation_near (max_th ang_step rot : R) : Prop :=
  exists n : nat, INR n * ang_step <= max_th + 2 / 10000000 * (1 + max_th) /\ (rot = INR n * ang_step \/ rot = - (INR n * ang_step)).

(** what can be in the queue: candidates with their scores *)
Definition scored (step : R) (window : rect R) (score : R -> rect R -> R) (m : mtch R) : Prop :=
  m_prob m = score (m_rot m) (m_drift m) /\ 0 <= m_prob m /\
  ((exists x y, m_drift m = point_range x y /\ candidate step window x y) \/ range_of step window (m_drift m)).

(** a queue (of elements satisfying P) whose top is at most [delta] less probable than any element *)
Definition queue_ok (P : mtch R -> Prop) (delta : R) (pop : list (mtch R) -> option (mtch R * list (mtch R))) : Prop :=
  pop [] = None /\
  forall q, q <> [] -> Forall P q -> exists m rest, pop q = Some (m, rest) /\ Permutation q (m :: rest) /\ forall x, In x q -> m_prob x <= m_prob m + delta.

(** std::priority_queue's contract: if the comparison is a strict weak order of the elements, the top is a greatest one *)
Definition strict_weak_order (l : list (mtch R)) (lt : mtch R -> mtch R -> bool) : Prop :=
  (forall a, In a l -> lt a a = false) /\
  (forall a b c, In a l -> In b l -> In c l -> lt a b = true -> lt b c = true -> lt a c = true) /\
  (forall a b c, In a l -> In b l -> In c l -> lt a b = false -> lt b a = false -> lt b c = false -> lt c b = false -> lt a c = false /\ lt c a = false).
Definition priority_queue (lt : mtch R -> mtch R -> bool) (pop : list (mtch R) -> option (mtch R * list (mtch R))) : Prop :=
  pop [] = None /\
  forall q, q <> [] -> exists m rest, pop q = Some (m, rest) /\ Permutation q (m :: rest) /\ (strict_weak_order q lt -> forall x, In x q -> lt m x = false).
