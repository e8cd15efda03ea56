(** Model of src/core/features/angle_histogram.h and of the weighting built on it
    (src/core/scan_matchers/weighted_mean_point_probability_spe.h:34-46). *)
From Coq Require Import ZArith List Bool.
From Verif.Base Require Import Outcome Num.
From Verif.Model Require Import MathUtils Geometry Sensor LaserObserver.
Import ListNotations.
Local Open Scope Z_scope.
Local Open Scope outcome_scope.

Section Hist.
  Context {D : Type} {ops : DOps D}.
  Variables (dcos dsin dacos : D -> D) (mpi : D).

  (** angle_histogram.h:98-102 (fields); [_ang_sum] is kept along *)
  Record hist := mkHist { h_n : nat; h_cols : list Z; h_sums : list D; h_dirs : list D }.

  (** angle_histogram.h:71-88 *)
  Definition ox_angle (base sp : scan_point D) : D :=
    let d_x := dsub (sp_x dcos sp) (sp_x dcos base) in
    let d_y := dsub (sp_y dsin sp) (sp_y dsin base) in
    if deq d_y (dofZ 0) then dofZ 0
    else
      let d_d := dsqrt (dadd (dmul d_x d_x) (dmul d_y d_y)) in
      let angle := dacos (ddiv d_x d_d) in
      if dlt d_y (dofZ 0) && negb (deq d_x (dofZ 0)) then dsub mpi angle else angle.

  (** angle_histogram.h:59-61 *)
  Definition angle_step (n : nat) : D := ddiv (deg2rad mpi (dofZ 180)) (dofZ (Z.of_nat n)).

  (** angle_histogram.h:91-96 *)
  Definition hist_index (n : nat) (angle : D) : outcome nat :=
    _ <- assert_ (dle (dofZ 0) angle && dlt angle mpi) ;;
    match dfloor (ddiv angle (angle_step n)) with
    | None => UB
    | Some z => if z <? 0 then UB else _ <- assert_ (z <? Z.of_nat n) ;; Ok (Z.to_nat z)
    end.

  Definition upd {A} (l : list A) (i : nat) (f : A -> A) : list A :=
    match nth_error l i with Some x => firstn i l ++ f x :: skipn (S i) l | None => l end.

  (** angle_histogram.h:25-31; [dirs] collects _drift_dirs[1..] *)
  Fixpoint hist_loop (n : nat) (prev : scan_point D) (pts : list (scan_point D)) (cols : list Z) (sums : list D)
      : outcome (list Z * list D * list D) :=
    match pts with
    | [] => Ok (cols, sums, [])
    | p :: pts =>
        let angle := ox_angle prev p in
        i <- hist_index n angle ;;
        '(cols, sums, dirs) <- hist_loop n p pts (upd cols i Z.succ) (upd sums i (fun s => dadd s angle)) ;;
        Ok (cols, sums, angle :: dirs)
    end.
  (** angle_histogram.h:13-15, 17-33.  _drift_dirs[0] is never read: it is given as 0.  The unsigned counters hold fewer
      than 2^32 points. *)
  Definition hist_reset (n : nat) (pts : list (scan_point D)) : outcome hist :=
    match pts with
    | [] => Ok (mkHist n (repeat 0 n) (repeat (dofZ 0) n) [])
    | p :: rest =>
        '(cols, sums, dirs) <- hist_loop n p rest (repeat 0 n) (repeat (dofZ 0) n) ;;
        Ok (mkHist n cols sums (dofZ 0 :: dirs))
    end.
  (** angle_histogram.h:35-43 *)
  Definition hist_value (h : hist) (pts : list (scan_point D)) (i : nat) : outcome Z :=
    match i with
    | O => Ok (Z.of_nat (length pts))
    | _ =>
        match nth_error (h_dirs h) i with
        | None => UB
        | Some a => k <- hist_index (h_n h) a ;; match nth_error (h_cols h) k with Some v => Ok v | None => UB end
        end
    end.
  (** weighted_mean_point_probability_spe.h:38-42 [AngleHistogramReciprocalSPW::weight] *)
  Definition ahr_weight (h : hist) (pts : list (scan_point D)) (i : nat) : outcome D :=
    v <- hist_value h pts i ;;
    _ <- assert_ (negb (v =? 0)) ;;
    Ok (ddiv (dofZ 1) (dofZ v)).

  (** angle_histogram.h:45-50 [max_i]: std::max_element, the first largest *)
  Fixpoint max_from (best : Z) (bi i : nat) (l : list Z) : nat :=
    match l with
    | [] => bi
    | x :: l => if best <? x then max_from x i (S i) l else max_from best bi (S i) l
    end.
  Definition hist_max_i (h : hist) : outcome nat :=
    match h_cols h with [] => Abort | x :: l => Ok (max_from x 0 1 l) end.
End Hist.
Arguments hist D : clear implicits.
