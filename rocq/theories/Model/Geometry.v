(** Model of src/core/geometry_discrete_primitives.h and of the rectangles/segments of
    src/core/geometry_primitives.h. *)
From Coq Require Import ZArith List Bool.
From Verif.Base Require Import Outcome Num.
From Verif.Model Require Import MathUtils.
Import ListNotations.
Local Open Scope Z_scope.

(** geometry_discrete_primitives.h:10-46 [DiscretePoint2D]: a pair (x, y) of ints (as Z). *)
Definition coord : Type := (Z * Z)%type.
Definition cx (c : coord) : Z := fst c.
Definition cy (c : coord) : Z := snd c.
(** geometry_discrete_primitives.h:17-25 *)
Definition coord_add (a b : coord) : coord := (cx a + cx b, cy a + cy b).
(** geometry_discrete_primitives.h:27-29 *)
Definition coord_sub (a b : coord) : coord := (cx a - cx b, cy a - cy b).
(** geometry_discrete_primitives.h:31-33 *)
Definition coord_eqb (a b : coord) : bool := (cx a =? cx b) && (cy a =? cy b).

(** geometry_discrete_primitives.h:67-100 [gen_points_with_bresenham].
    The [while (1)] loop at 85-99; [x], [y] are pointers to primary/secondary (lines 79-81). *)
Fixpoint bresenham_loop (fuel : nat) (y_is_primary : bool)
    (limit d_primary d_secondary inc_primary inc_secondary : Z)
    (primary secondary error : Z) (acc : list coord) : outcome (list coord) :=
  match fuel with
  | O => OutOfFuel
  | S fuel =>
      let pt := if y_is_primary then (secondary, primary) else (primary, secondary) in
      let acc := pt :: acc in                                     (* line 86 *)
      if primary =? limit then Ok (rev acc)                       (* line 87 *)
      else
        let err_inc_primary := error + inc_primary * d_secondary in         (* line 89 *)
        let err_inc_both := err_inc_primary - inc_secondary * d_primary in  (* line 90 *)
        let primary := primary + inc_primary in                             (* line 92 *)
        if Z.abs err_inc_primary <? Z.abs err_inc_both                      (* line 93 *)
        then bresenham_loop fuel y_is_primary limit d_primary d_secondary
               inc_primary inc_secondary primary secondary err_inc_primary acc
        else bresenham_loop fuel y_is_primary limit d_primary d_secondary
               inc_primary inc_secondary primary (secondary + inc_secondary) err_inc_both acc
  end.

(** geometry_discrete_primitives.h:58-62, 67-84 [DiscreteSegment2D{beg, end}] *)
Definition discrete_segment_fuel (fuel : nat) (beg end_ : coord) : outcome (list coord) :=
  let delta := coord_sub end_ beg in
  let y_is_primary := Z.abs (cx delta) <? Z.abs (cy delta) in
  let '(limit, primary, d_primary, secondary, d_secondary) :=
    if y_is_primary then (cy end_, cy beg, cy delta, cx beg, cx delta)
    else (cx end_, cx beg, cx delta, cy beg, cy delta) in
  let inc_primary := if 0 <? d_primary then 1 else -1 in
  let inc_secondary := if 0 <? d_secondary then 1 else -1 in
  bresenham_loop fuel y_is_primary limit d_primary d_secondary inc_primary inc_secondary
    primary secondary 0 [].

(** Enough fuel for the loop (proved sufficient in Proofs/GeometryProofs.v). *)
Definition discrete_segment (beg end_ : coord) : outcome (list coord) :=
  discrete_segment_fuel
    (S (Z.to_nat (Z.max (Z.abs (cx end_ - cx beg)) (Z.abs (cy end_ - cy beg))))) beg end_.

Section Continuous.
  Context {D : Type} {ops : DOps D}.

  (** geometry_primitives.h:11-28 [Point2D] *)
  Definition point : Type := (D * D)%type.
  Definition ptx (p : point) : D := fst p.
  Definition pty (p : point) : D := snd p.

  (** geometry_primitives.h:18-20 *)
  Definition point_eqb (a b : point) : bool :=
    are_equal (ptx a) (ptx b) && are_equal (pty a) (pty b).

  (** geometry_primitives.h:14-16 (std::pow(d, 2) is d*d) *)
  Definition dist_sq (a b : point) : D :=
    dadd (dmul (dsub (ptx a) (ptx b)) (dsub (ptx a) (ptx b)))
         (dmul (dsub (pty a) (pty b)) (dsub (pty a) (pty b))).

  (** geometry_primitives.h:36-92 [Segment2D] *)
  Record segment := mkSegment { sbeg : point; send : point }.
  Definition seg_is_horiz (s : segment) : bool := are_equal (pty (sbeg s)) (pty (send s)).
  Definition seg_is_vert (s : segment) : bool := are_equal (ptx (sbeg s)) (ptx (send s)).

  (** geometry_primitives.h:59-68 *)
  Definition seg_contains (s : segment) (p : point) : outcome bool :=
    if seg_is_horiz s then
      Ok (are_equal (pty p) (pty (sbeg s)) && are_ordered (ptx (sbeg s)) (ptx p) (ptx (send s)))
    else if seg_is_vert s then
      Ok (are_equal (ptx p) (ptx (sbeg s)) && are_ordered (pty (sbeg s)) (pty p) (pty (send s)))
    else Abort.

  (** geometry_primitives.h:70-72, 80-86 *)
  Definition seg_contains_intersection (s : segment) (p : point) : bool :=
    (are_ordered (ptx (sbeg s)) (ptx p) (ptx (send s)) ||
     are_ordered (ptx (send s)) (ptx p) (ptx (sbeg s))) &&
    (are_ordered (pty (sbeg s)) (pty p) (pty (send s)) ||
     are_ordered (pty (send s)) (pty p) (pty (sbeg s))).

  (** geometry_primitives.h:165-314 [LightWeightRectangle] *)
  Record rect := mkRect { bot : D; top : D; left : D; right : D }.

  (** geometry_primitives.h:170-174: the constructor asserts bot <= top and left <= right *)
  Definition mk_rect (b t l r : D) : outcome rect :=
    if dle b t && dle l r then Ok (mkRect b t l r) else Abort.

  (** geometry_primitives.h:183-184, 187 *)
  Definition vside_len (r : rect) : D := dsub (top r) (bot r).
  Definition hside_len (r : rect) : D := dsub (right r) (left r).
  Definition rect_area (r : rect) : D := dmul (vside_len r) (hside_len r).

  (** geometry_primitives.h:188-190 *)
  Definition rect_center (r : rect) : point :=
    (dadd (left r) (ddiv (hside_len r) (dofZ 2)), dadd (bot r) (ddiv (vside_len r) (dofZ 2))).

  (** geometry_primitives.h:193 *)
  Definition rect_is_point (r : rect) : bool := deq (vside_len r) (dofZ 0) && deq (hside_len r) (dofZ 0).

  (** geometry_primitives.h:195-198 *)
  Definition rect_eqb (a b : rect) : bool :=
    are_equal (top a) (top b) && are_equal (bot a) (bot b) &&
    are_equal (left a) (left b) && are_equal (right a) (right b).

  (** geometry_primitives.h:200-203 *)
  Definition rect_corners (r : rect) : list point :=
    [(left r, bot r); (left r, top r); (right r, bot r); (right r, top r)].

  (** geometry_primitives.h:205-209 *)
  Definition move_center (r : rect) (c : point) : outcome rect :=
    let half_v := ddiv (vside_len r) (dofZ 2) in
    let half_h := ddiv (hside_len r) (dofZ 2) in
    mk_rect (dsub (pty c) half_v) (dadd (pty c) half_v)
            (dsub (ptx c) half_h) (dadd (ptx c) half_h).

  (** geometry_primitives.h:211-218 *)
  Definition shrink (r : rect) (factor : D) : outcome rect :=
    let c := rect_center r in
    let new_hv := ddiv (vside_len r) (dmul factor (dofZ 2)) in
    let new_hh := ddiv (hside_len r) (dmul factor (dofZ 2)) in
    mk_rect (dsub (pty c) new_hv) (dadd (pty c) new_hv)
            (dsub (ptx c) new_hh) (dadd (ptx c) new_hh).

  Local Open Scope outcome_scope.
  (** geometry_primitives.h:220-226 *)
  Definition split_vert (r : rect) : outcome (list rect) :=
    let c := rect_center r in
    a <- mk_rect (bot r) (pty c) (left r) (right r) ;;
    b <- mk_rect (pty c) (top r) (left r) (right r) ;;
    Ok [a; b].

  (** geometry_primitives.h:228-234 *)
  Definition split_horz (r : rect) : outcome (list rect) :=
    let c := rect_center r in
    a <- mk_rect (bot r) (top r) (left r) (ptx c) ;;
    b <- mk_rect (bot r) (top r) (ptx c) (right r) ;;
    Ok [a; b].

  (** geometry_primitives.h:236-244 *)
  Definition split4_evenly (r : rect) : outcome (list rect) :=
    let c := rect_center r in
    lb <- mk_rect (bot r) (pty c) (left r) (ptx c) ;;
    lt <- mk_rect (pty c) (top r) (left r) (ptx c) ;;
    rb <- mk_rect (bot r) (pty c) (ptx c) (right r) ;;
    rt <- mk_rect (pty c) (top r) (ptx c) (right r) ;;
    Ok [lb; lt; rb; rt].

  (** geometry_primitives.h:248-250 *)
  Definition rect_contains (r : rect) (x y : D) : bool :=
    are_ordered (left r) x (right r) && are_ordered (bot r) y (top r).

  (** geometry_primitives.h:270-310 [intersect_internal], the corner analysis up to the switch:
      returns the number of contained corners and the clipped bounds (bot, top, left, right). *)
  Definition corner_analysis (this that : rect) : nat * (D * D * D * D) :=
    let st := (O, (bot this, top this, left this, right this)) in
    let st := if rect_contains this (left that) (bot that)            (* (left, bot) *)
              then let '(n, (b, t, l, r)) := st in (S n, (bot that, t, left that, r)) else st in
    let st := if rect_contains this (right that) (bot that)           (* (right, bot) *)
              then let '(n, (b, t, l, r)) := st in (S n, (bot that, t, l, right that)) else st in
    let st := if rect_contains this (left that) (top that)            (* (left, top) *)
              then let '(n, (b, t, l, r)) := st in (S n, (b, top that, left that, r)) else st in
    let st := if rect_contains this (right that) (top that)           (* (right, top) *)
              then let '(n, (b, t, l, r)) := st in (S n, (b, top that, l, right that)) else st in
    st.

  (** geometry_primitives.h:294-309: case 3 (and default) asserts; the default-constructed rectangle
      (line 169) is (0, 0, 0, 0). *)
  Definition intersect_rev (this that : rect) : outcome rect :=
    let '(n, (b, t, l, r)) := corner_analysis this that in
    match n with
    | 0%nat => mk_rect (dofZ 0) (dofZ 0) (dofZ 0) (dofZ 0)
    | 1%nat | 2%nat | 4%nat => mk_rect b t l r
    | _ => Abort
    end.

  (** geometry_primitives.h:252-254, 270-310 [intersect] *)
  Definition rect_intersect (this that : rect) : outcome rect :=
    let '(n, (b, t, l, r)) := corner_analysis this that in
    match n with
    | 0%nat => intersect_rev that this
    | 1%nat | 2%nat | 4%nat => mk_rect b t l r
    | _ => Abort
    end.

  (** geometry_primitives.h:256-266 [overlap]; [if (area())] tests for != 0 *)
  Definition rect_overlap (this that : rect) : outcome D :=
    if negb (deq (rect_area this) (dofZ 0)) then
      i <- rect_intersect this that ;;
      Ok (ddiv (rect_area i) (rect_area this))
    else if negb (deq (rect_area that) (dofZ 0)) then
      Ok (if rect_contains that (left this) (bot this) then dofZ 1 else dofZ 0)
    else if rect_is_point this && rect_is_point that then
      Ok (if rect_eqb this that then dofZ 1 else dofZ 0)
    else Abort.
End Continuous.
Arguments segment D : clear implicits.
Arguments rect D : clear implicits.
Arguments point D : clear implicits.
