(** Model of src/core/maps/area_occupancy_estimator.h, src/core/maps/const_occupancy_estimator.h and of the ray casting of
    src/core/geometry_primitives.h (Ray, Rectangle). *)
From Coq Require Import ZArith List Bool.
From Verif.Base Require Import Outcome Num.
From Verif.Model Require Import MathUtils Geometry Cells.
Import ListNotations.
Local Open Scope Z_scope.
Local Open Scope outcome_scope.

(** geometry_primitives.h:99-101 *)
Inductive location := LocBot | LocLeft | LocTop | LocRight.

Section Rays.
  Context {D : Type} {ops : DOps D}.

  (** geometry_primitives.h:98-111 *)
  Record inter := mkInter { i_loc : location; i_pt : point D }.
  Definition i_is_horiz (i : inter) : bool := match i_loc i with LocBot | LocTop => true | _ => false end.

  (** geometry_primitives.h:115-163: a ray is its begin and its delta *)
  Record ray := mkRay { r_beg : point D; r_delta : point D }.
  (** geometry_primitives.h:119 *)
  Definition ray_of (s : segment D) : ray :=
    mkRay (sbeg s) (dsub (ptx (send s)) (ptx (sbeg s)), dsub (pty (send s)) (pty (sbeg s))).
  (** geometry_primitives.h:136-147 *)
  Definition intersect_horiz (r : ray) (st_x end_x y : D) (loc : location) : list inter :=
    if are_equal (pty (r_delta r)) (dofZ 0) then []
    else
      let alpha := ddiv (dsub y (pty (r_beg r))) (pty (r_delta r)) in
      let x := dadd (ptx (r_beg r)) (dmul alpha (ptx (r_delta r))) in
      if dlt x st_x || dlt end_x x then [] else [mkInter loc (x, y)].
  (** geometry_primitives.h:149-160 *)
  Definition intersect_vert (r : ray) (st_y end_y x : D) (loc : location) : list inter :=
    if are_equal (ptx (r_delta r)) (dofZ 0) then []
    else
      let alpha := ddiv (dsub x (ptx (r_beg r))) (ptx (r_delta r)) in
      let y := dadd (pty (r_beg r)) (dmul alpha (pty (r_delta r))) in
      if dlt y st_y || dlt end_y y then [] else [mkInter loc (x, y)].
  (** geometry_primitives.h:122-133 *)
  Definition ray_intersect (r : ray) (s : segment D) (loc : location) : outcome (list inter) :=
    if seg_is_horiz s then Ok (intersect_horiz r (ptx (sbeg s)) (ptx (send s)) (pty (sbeg s)) loc)
    else if seg_is_vert s then Ok (intersect_vert r (pty (sbeg s)) (pty (send s)) (ptx (sbeg s)) loc)
    else Abort.

  (** geometry_primitives.h:331-338: the edges of a Rectangle *)
  Definition bot_edge (c : rect D) : segment D := mkSegment (left c, bot c) (right c, bot c).
  Definition top_edge (c : rect D) : segment D := mkSegment (left c, top c) (right c, top c).
  Definition left_edge (c : rect D) : segment D := mkSegment (left c, bot c) (left c, top c).
  Definition right_edge (c : rect D) : segment D := mkSegment (right c, bot c) (right c, top c).

  (** geometry_primitives.h:348-356 *)
  Definition has_on_edge_line (c : rect D) (s : segment D) : bool :=
    if seg_is_vert s then are_equal (ptx (sbeg s)) (left c) || are_equal (ptx (sbeg s)) (right c)
    else if seg_is_horiz s then are_equal (pty (sbeg s)) (bot c) || are_equal (pty (sbeg s)) (top c)
    else false.
  (** geometry_primitives.h:358-364: is there an edge containing the point (an edge is a valid segment, hence true) *)
  Fixpoint some_contains (es : list (segment D)) (p : point D) : outcome bool :=
    match es with
    | [] => Ok false
    | e :: es => b <- seg_contains e p ;; if b : bool then Ok true else some_contains es p
    end.
  Definition on_some_edge (c : rect D) (p : point D) : outcome bool :=
    some_contains [bot_edge c; top_edge c; left_edge c; right_edge c] p.

  (** std::unique on intersections: an element equal to the last kept one is dropped *)
  Fixpoint unique_from (i : inter) (l : list inter) : list inter :=
    match l with
    | [] => [i]
    | j :: l => if point_eqb (i_pt i) (i_pt j) then unique_from i l else i :: unique_from j l
    end.
  Definition unique (l : list inter) : list inter := match l with [] => [] | i :: l => unique_from i l end.
  (** geometry_primitives.h:376-394: [front == back] drops the last element *)
  Definition drop_equal_back (l : list inter) : list inter :=
    match l with
    | [] => []
    | i :: _ => if (1 <? length l)%nat && point_eqb (i_pt i) (i_pt (last l i)) then removelast l else l
    end.
  Definition ray_intersections (c : rect D) (r : ray) : outcome (list inter) :=
    a <- ray_intersect r (top_edge c) LocTop ;;
    b <- ray_intersect r (left_edge c) LocLeft ;;
    e <- ray_intersect r (bot_edge c) LocBot ;;
    f <- ray_intersect r (right_edge c) LocRight ;;
    let l := unique (drop_equal_back (a ++ b ++ e ++ f)) in
    _ <- assert_ (length l <? 3)%nat ;;
    Ok l.
  (** geometry_primitives.h:368-374 *)
  Definition segment_intersections (c : rect D) (s : segment D) : outcome (list inter) :=
    l <- ray_intersections c (ray_of s) ;;
    Ok (filter (fun i => seg_contains_intersection s (i_pt i)) l).
End Rays.
Arguments inter D : clear implicits.
Arguments ray D : clear implicits.

Section Aoe.
  Context {D : Type} {ops : DOps D}.
  (** the constructor's arguments: area_occupancy_estimator.h:19-25 *)
  Record aoe := mkAoe { ae_occ : occup D; ae_empty : occup D; ae_low : D; ae_unknown : D }.
  (** area_occupancy_estimator.h:24 *)
  Definition aoe_ok (e : aoe) : bool := dlt (ae_low e) (dofZ 1).
  Variable e : aoe.
  (** [Shift_Amount], line 71 *)
  Variable shift_amount : D.

  (** area_occupancy_estimator.h:68-86 *)
  Definition ensure_not_on_edge (s : segment D) (c : rect D) : outcome (segment D) :=
    if negb (has_on_edge_line c s) then Ok s
    else
      shift <- (if seg_is_horiz s then
                  Ok (dofZ 0, dmul (if are_equal (pty (sbeg s)) (top c) then dofZ (-1) else dofZ 1) shift_amount)
                else if seg_is_vert s then
                  Ok (dmul (if are_equal (ptx (sbeg s)) (right c) then dofZ (-1) else dofZ 1) shift_amount, dofZ 0)
                else Abort) ;;
      let s' := mkSegment (dadd (ptx (sbeg s)) (ptx shift), dadd (pty (sbeg s)) (pty shift))
                          (dadd (ptx (send s)) (ptx shift), dadd (pty (send s)) (pty shift)) in
      _ <- assert_ (negb (has_on_edge_line c s')) ;;
      Ok s'.

  (** area_occupancy_estimator.h:114-136 *)
  Definition modified_is_inside (s : segment D) (c : rect D) : outcome (bool * bool) :=
    be <- on_some_edge c (sbeg s) ;;
    ee <- on_some_edge c (send s) ;;
    let bc := rect_contains c (ptx (sbeg s)) (pty (sbeg s)) in
    let ec := rect_contains c (ptx (send s)) (pty (send s)) in
    Ok (if be && ee then (false, false)
        else if negb be && negb ee then (bc, ec)
        else if be : bool then (false, ec) else (bc, negb bc)).

  (** area_occupancy_estimator.h:14-16, 88-111 *)
  Inductive seg_pos := Unrelated | LiesInside | StopsInside | StartsInside | Pierces | Touches.
  Definition classify_segment (s : segment D) (c : rect D) : outcome seg_pos :=
    '(bi, ei) <- modified_is_inside s c ;;
    if xorb bi ei then Ok (if bi : bool then StartsInside else StopsInside)
    else if bi : bool then Ok LiesInside
    else
      l <- segment_intersections c s ;;
      match l with
      | [] => Ok Unrelated
      | [_] => Ok Touches
      | [_; _] => Ok Pierces
      | _ => Abort
      end.

  (** area_occupancy_estimator.h:139-160 *)
  Definition find_intersections (beam : segment D) (c : rect D) (is_occ : bool) : outcome (list (inter D)) :=
    let b := sbeg beam in
    let n := send beam in
    if is_occ then ray_intersections c (mkRay n (dsub (pty b) (pty n), dsub (ptx n) (ptx b)))
    else
      l <- ray_intersections c (mkRay b (dsub (ptx n) (ptx b), dsub (pty n) (pty b))) ;;
      Ok (filter (fun i => seg_contains_intersection beam (i_pt i)) l).

  (** area_occupancy_estimator.h:218-223 *)
  Definition on_same_side (l1 l2 p1 p2 : point D) : bool :=
    let dx := dsub (ptx l2) (ptx l1) in
    let dy := dsub (pty l2) (pty l1) in
    let v p := dsub (dadd (dsub (dmul dy (pty p)) (dmul dx (ptx p))) (dmul dy (ptx p))) (dmul dx (pty p)) in
    dlt (dofZ 0) (dmul (v p1) (v p2)).

  (** area_occupancy_estimator.h:176-184: the corner chosen by the locations *)
  Definition set_corner (c : rect D) (p : point D) (i : inter D) : point D :=
    match i_loc i with
    | LocBot => (ptx p, bot c)
    | LocTop => (ptx p, top c)
    | LocLeft => (left c, pty p)
    | LocRight => (right c, pty p)
    end.
  (** |inter - corner| along the edge: lines 188-192, 200-204 *)
  Definition edge_dist (corner : point D) (i : inter D) : D :=
    if i_is_horiz i then dabs (dsub (ptx (i_pt i)) (ptx corner)) else dabs (dsub (pty (i_pt i)) (pty corner)).
  (** area_occupancy_estimator.h:162-216 *)
  Definition compute_chunk_area (beam : segment D) (c : rect D) (is_occ : bool) (l : list (inter D)) : outcome D :=
    match l with
    | [] => Ok (ddiv (rect_area c) (dofZ 2))
    | [i; j] =>
        let triangle := xorb (i_is_horiz i) (i_is_horiz j) in
        let corner := if triangle then set_corner c (set_corner c (dofZ 0, dofZ 0) i) j else (left c, bot c) in
        let area :=
          if triangle then dmul (dmul dhalf (edge_dist corner i)) (edge_dist corner j)
          else dmul (dmul dhalf (dsub (top c) (bot c))) (dadd (dadd (dofZ 0) (edge_dist corner i)) (edge_dist corner j)) in
        _ <- assert_ (dle (dofZ 0) area && dle area (rect_area c)) ;;
        Ok (if is_occ && on_same_side (i_pt i) (i_pt j) (sbeg beam) corner then dsub (rect_area c) area else area)
    | _ => Abort
    end.

  (** area_occupancy_estimator.h:225-240 *)
  Definition estimate_chunk (chunk total : D) (is_occ : bool) : occup D :=
    let rate := ddiv chunk total in
    if is_occ then mkOcc (dmax rate (prob_occ (ae_empty e))) (est_quality (ae_occ e))
    else
      let rate := if dlt dhalf rate then dsub (dofZ 1) rate else rate in
      mkOcc (prob_occ (ae_empty e)) (dmul (est_quality (ae_empty e)) rate).

  (** area_occupancy_estimator.h:45-63 *)
  Definition estimate_pierced (beam : segment D) (c : rect D) (is_occ : bool) : outcome (occup D) :=
    l <- find_intersections beam c is_occ ;;
    match l with
    | [_] =>
        if negb is_occ then Ok (mkOcc (prob_occ (ae_empty e)) (ae_unknown e))
        else
          raw <- segment_intersections c beam ;;
          match raw with
          | [] => Abort
          | [_] => Ok (estimate_chunk (rect_area c) (rect_area c) is_occ)
          | [_; _] =>
              chunk <- compute_chunk_area beam c false raw ;;
              Ok (estimate_chunk chunk (rect_area c) false)
          | _ =>                              (* no case of the switch: [intrs] is unchanged, line 170 asserts *)
              chunk <- compute_chunk_area beam c is_occ l ;;
              Ok (estimate_chunk chunk (rect_area c) is_occ)
          end
    | _ =>
        chunk <- compute_chunk_area beam c is_occ l ;;
        Ok (estimate_chunk chunk (rect_area c) is_occ)
    end.

  (** area_occupancy_estimator.h:27-64; None is Occupancy::invalid() (both fields NaN, state_data.h:27-31) *)
  Definition aoe_estimate (beam : segment D) (c : rect D) (is_occ : bool) : outcome (option (occup D)) :=
    beam <- ensure_not_on_edge beam c ;;
    pos <- classify_segment beam c ;;
    match pos with
    | Unrelated | Touches => Ok None
    | Pierces | StartsInside => if is_occ then Ok None else o <- estimate_pierced beam c is_occ ;; Ok (Some o)
    | LiesInside => Ok (if is_occ then None else Some (mkOcc (prob_occ (ae_empty e)) (ae_unknown e)))
    | StopsInside => o <- estimate_pierced beam c is_occ ;; Ok (Some o)
    end.
End Aoe.
Arguments aoe D : clear implicits.

Section AoeRun.
  Context {D : Type} {ops : DOps D}.
  (** area_occupancy_estimator.h:71: a function-local static: initialised by the first call in the program, of any estimator
      ([None]: not called yet) *)
  Definition aoe_call (st : option D) (e : aoe D) (beam : segment D) (c : rect D) (is_occ : bool)
      : outcome (option (occup D) * option D) :=
    let s := match st with Some s => s | None => dmul (ae_low e) (vside_len c) end in
    r <- aoe_estimate e s beam c is_occ ;; Ok (r, Some s).
  (** a program's calls, one after another: the answers *)
  Fixpoint aoe_run (st : option D) (qs : list (aoe D * segment D * rect D * bool)) : outcome (list (option (occup D))) :=
    match qs with
    | [] => Ok []
    | (e, b, c, o) :: qs => '(r, st) <- aoe_call st e b c o ;; rs <- aoe_run st qs ;; Ok (r :: rs)
    end.
  (** const_occupancy_estimator.h:11-15 *)
  Definition const_estimate (base_occ base_empty : occup D) (_ : segment D) (_ : rect D) (is_occ : bool) : occup D :=
    if is_occ then base_occ else base_empty.
End AoeRun.
