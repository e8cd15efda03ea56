(** Model of the branch-and-bound engine of src/core/scan_matchers/m3rsm_engine.h (133-363) and of
    src/core/scan_matchers/bf_multi_res_scan_matcher.h. *)
From Coq Require Import ZArith List Bool.
From Verif.Base Require Import Outcome Num.
From Verif.Model Require Import MathUtils Geometry.
Import ListNotations.
Local Open Scope Z_scope.
Local Open Scope outcome_scope.

(** a loop that may fail, over a container *)
Fixpoint mapM {A B} (f : A -> outcome B) (l : list A) : outcome (list B) :=
  match l with [] => Ok [] | a :: l => b <- f a ;; bs <- mapM f l ;; Ok (b :: bs) end.

Section Engine.
  Context {D : Type} {ops : DOps D}.
  (** the probability estimate of a Match's constructor (m3rsm_engine.h:157-185): the estimator's value for the scan rotated by
      the given angle, drifted to the centre of the given rectangle, on the level chosen by the rectangle's sides.  Estimator,
      scan, pose and map do not change during a search. *)
  Variable score : D -> rect D -> D.

  (** m3rsm_engine.h:133-149, the fields that vary during a search *)
  Record mtch := mkMatch { m_prob : D; m_rot : D; m_drift : rect D }.
  Definition new_match (rot : D) (drift : rect D) : mtch := mkMatch (score rot drift) rot drift.
  (** m3rsm_engine.h:165 *)
  Definition drift_amount (m : mtch) : D := dadd (hside_len (m_drift m)) (vside_len (m_drift m)).
  (** m3rsm_engine.h:192-194 *)
  Definition is_finest (m : mtch) : bool := dle (drift_amount m) (dofZ 0).
  (** m3rsm_engine.h:197-208 [operator<]: less preferable *)
  Definition match_less (a b : mtch) : bool :=
    if negb (are_equal (m_prob a) (m_prob b)) then less (m_prob a) (m_prob b)
    else if negb (are_equal (drift_amount a) (drift_amount b)) then dlt (drift_amount b) (drift_amount a)
    else dlt (dabs (m_rot b)) (dabs (m_rot a)).

  (** the engine's state: the queue (as the list of its elements) and _best_finest_probability *)
  Record engine := mkEngine { e_queue : list mtch; e_best : D }.
  (** m3rsm_engine.h:266-269 *)
  Definition engine_new : engine := mkEngine [] (dofZ 0).
  (** m3rsm_engine.h:281-290; [diff] is _max_finest_prob_diff *)
  Definition add_match (diff : D) (e : engine) (m : mtch) : engine :=
    if dlt (m_prob m) (e_best e) then e
    else mkEngine (m :: e_queue e) (if is_finest m then dmax (e_best e) (dsub (m_prob m) diff) else e_best e).
  Definition add_matches (diff : D) (e : engine) (ms : list mtch) : engine := fold_left (add_match diff) ms e.

  (** m3rsm_engine.h:292-317: the matches added for one rotation: the empty and the entire translation range *)
  Definition rotation_matches (max_x max_y : D) (rot : D) : outcome (list mtch) :=
    entire <- mk_rect (dopp max_y) max_y (dopp max_x) max_x ;;
    Ok [new_match rot (mkRect (dofZ 0) (dofZ 0) (dofZ 0) (dofZ 0)); new_match rot entire].
  (** m3rsm_engine.h:306: the iteration order of std::set<double>{r, -r}, r >= 0: ascending, one element if equal *)
  Definition rotation_pair (r : D) : list D := if dlt (dopp r) r then [dopp r; r] else if dlt r (dopp r) then [r; dopp r] else [r].
  (** m3rsm_engine.h:305-316 *)
  Fixpoint request_loop (fuel : nat) (diff max_x max_y sector res : D) (rot : D) (e : engine) : outcome engine :=
    match fuel with
    | O => OutOfFuel
    | S fuel =>
        if less_or_equal (dmul (dofZ 2) rot) sector then
          ms <- mapM (rotation_matches max_x max_y) (rotation_pair rot) ;;
          request_loop fuel diff max_x max_y sector res (dadd rot res) (add_matches diff e (concat ms))
        else Ok e
    end.

  (** m3rsm_engine.h:339-363 *)
  Definition finer_drifts (r : rect D) (horz vert : bool) : outcome (list (rect D)) :=
    if horz && vert then split4_evenly r else if horz then split_horz r else if vert then split_vert r else Ok [].
  Fixpoint branch_loop (diff : D) (coarse : mtch) (rs : list (rect D)) (e : engine) : outcome engine :=
    match rs with
    | [] => Ok e
    | r :: rs =>
        let m := new_match (m_rot coarse) r in
        _ <- assert_ (less_or_equal_eps (m_prob m) (m_prob coarse) (dlit 1 100000)) ;;
        branch_loop diff coarse rs (add_match diff e m)
    end.
  Definition branch (diff : D) (e : engine) (coarse : mtch) (horz vert : bool) : outcome engine :=
    rs <- finer_drifts (m_drift coarse) horz vert ;; branch_loop diff coarse rs e.

  (** std::priority_queue::top and pop: the element taken and the remaining ones, None if empty *)
  Variable pop : list mtch -> option (mtch * list mtch).

  (** m3rsm_engine.h:319-335; None is the invalid match *)
  Fixpoint next_best_match (fuel : nat) (diff step : D) (e : engine) : outcome (option mtch * engine) :=
    match pop (e_queue e) with
    | None => Ok (None, e)
    | Some (m, q) =>
        let horz := less step (hside_len (m_drift m)) in
        let vert := less step (vside_len (m_drift m)) in
        let e := mkEngine q (e_best e) in
        if negb horz && negb vert then Ok (Some m, e)
        else match fuel with
             | O => OutOfFuel
             | S fuel => e <- branch diff e m horz vert ;; next_best_match fuel diff step e
             end
    end.

  (** bf_multi_res_scan_matcher.h:59-66 *)
  Definition crucial_points (r : rect D) : list (point D) := rect_corners r ++ [rect_center r].
  (** geometry_primitives.h:175-176 *)
  Definition point_rect (p : point D) : outcome (rect D) := mk_rect (pty p) (pty p) (ptx p) (ptx p).
  (** bf_multi_res_scan_matcher.h:46-70: the loop; the assertion (48) fails for an invalid match,
      i.e. one whose probability is NaN (m3rsm_engine.h:186) *)
  Fixpoint search_loop (fuel : nat) (diff step : D) (e : engine) : outcome mtch :=
    match fuel with
    | O => OutOfFuel
    | S fuel =>
        '(m, e) <- next_best_match fuel diff step e ;;
        match m with
        | None => Abort
        | Some m =>
            _ <- assert_ (negb (disnan (m_prob m))) ;;
            if is_finest m then Ok m
            else
              rs <- mapM point_rect (crucial_points (m_drift m)) ;;
              search_loop fuel diff step (add_matches diff e (map (new_match (m_rot m)) rs))
        end
    end.
  (** bf_multi_res_scan_matcher.h:25-71: the returned match (its probability is the result, the centre of its drift and its
      rotation are the pose correction).  The engine is default-constructed: its diff is 0. *)
  Definition m3rsm_search (fuel : nat) (max_x max_y max_th ang_step step : D) : outcome mtch :=
    e <- request_loop fuel (dofZ 0) max_x max_y (dmul (dofZ 2) max_th) ang_step (dofZ 0) engine_new ;;
    search_loop fuel (dofZ 0) step e.
End Engine.
Arguments mtch D : clear implicits.
Arguments engine D : clear implicits.
