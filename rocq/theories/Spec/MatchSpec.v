(** What observers of a scan matching run should see. *)
From Coq Require Import ZArith List Bool Reals.
From Verif.Base Require Import Outcome Num.
From Verif.Model Require Import Sensor Matchers.
Import ListNotations.

Section MatchSpec.
  Context {D : Type} {ops : DOps D}.

  (** [protocol b evs b']: starting with best probability [b] every tested pose is reported, followed by an update of
      the best pose exactly when its probability is greater; [b'] is the best probability at the end *)
  Inductive protocol : D -> list (event D) -> D -> Prop :=
  | pr_done b : protocol b [] b
  | pr_worse b p s evs b' : dlt b s = false -> protocol b evs b' -> protocol b (EvTest p s :: evs) b'
  | pr_better b p s evs b' : dlt b s = true -> protocol s evs b' -> protocol b (EvTest p s :: EvUpdate p s :: evs) b'.

  Definition tests_of (evs : list (event D)) : list (pose D * D) :=
    flat_map (fun e => match e with EvTest p s => [(p, s)] | _ => [] end) evs.
  Definition updates_of (evs : list (event D)) : list D :=
    flat_map (fun e => match e with EvUpdate _ s => [s] | _ => [] end) evs.

  (** the events one observer [o] received *)
  Definition received (o : Z) (out : list (Z * event D)) : list (event D) :=
    map snd (filter (fun r => Z.eqb (fst r) o) out).

  Fixpoint increasing (l : list D) : Prop :=
    match l with
    | [] => True
    | a :: l => match l with [] => True | b :: _ => dlt a b = true end /\ increasing l
    end.
End MatchSpec.

(** ** the search grid of the brute force matcher *)
Section GridSpec.
  Context {D : Type} {ops : DOps D}.
  (** the values [v, v+step, v+2*step, ...] up to and including the first one that is not less than [to] *)
  Inductive steps_until (step to : D) : D -> list D -> Prop :=
  | su_last v : dlt v to = false -> steps_until step to v [v]
  | su_more v l : dlt v to = true -> steps_until step to (dadd v step) l -> steps_until step to v (v :: l).
  (** the values [v, v+step, v+2*step, ...] as long as they are at most [to] *)
  Inductive steps_while (step to : D) : D -> list D -> Prop :=
  | sw_end v : dle v to = false -> steps_while step to v []
  | sw_more v l : dle v to = true -> steps_while step to (dadd v step) l -> steps_while step to v (v :: l).

  (** all the offsets, x changing fastest *)
  Definition offsets (xs ys ts : list D) : list (pose D) :=
    flat_map (fun t => flat_map (fun y => map (fun x => mkPose x y t) xs) ys) ts.
  Definition shifted (base : pose D) (offs : list (pose D)) : list (pose D) := map (pose_add base) offs.
End GridSpec.

(** ** hill climbing: rounds of tests around the best pose *)
Section ClimbSpec.
  Context {D : Type} {ops : DOps D}.
  Variable score : pose D -> D.
  Variable neighbours : nat -> pose D -> list (pose D).   (* tests of a round after [f] failed rounds, around a pose *)
  Variable max : nat.

  (** the best pose after testing [l] in order (a pose replaces the best one only when its score is greater) *)
  Fixpoint best_of (best : pose D) (l : list (pose D)) : pose D :=
    match l with [] => best | p :: l => best_of (if dlt (score best) (score p) then p else best) l end.
  Definition improves (best : pose D) (l : list (pose D)) : bool := existsb (fun p => dlt (score best) (score p)) l.

  (** [climb f best l]: with [f] failed rounds behind, at [best], exactly the poses [l] are still tested: whole rounds
      until [max] of them have failed, then one more pose (the first of the next round) *)
  Inductive climb : nat -> pose D -> list (pose D) -> Prop :=
  | cl_stop best p : hd_error (neighbours max best) = Some p -> climb max best [p]
  | cl_round f best rest : (f < max)%nat ->
      climb (if improves best (neighbours f best) then f else S f) (best_of best (neighbours f best)) rest ->
      climb f best (neighbours f best ++ rest).
End ClimbSpec.

(** the six one-coordinate moves, with the steps halved [f] times *)
Definition halved_moves (tr rot : R) (f : nat) (b : pose R) : list (pose R) :=
  let h := (tr / 2 ^ f)%R in let k := (rot / 2 ^ f)%R in
  [ mkPose (px b + h) (py b) (pth b); mkPose (px b) (py b - h) (pth b); mkPose (px b) (py b) (pth b + k);
    mkPose (px b - h) (py b) (pth b); mkPose (px b) (py b + h) (pth b); mkPose (px b) (py b) (pth b - k) ]%R.

(** ** Monte-Carlo: the failure counter *)
Section McSpec.
  Context {D : Type} {ops : DOps D}.
  Variable score : pose D -> D.
  (** for every test, in order: did it improve on the best score so far? *)
  Fixpoint verdicts (best : D) (tested : list (pose D)) : list bool :=
    match tested with
    | [] => []
    | p :: l => dlt best (score p) :: verdicts (if dlt best (score p) then score p else best) l
    end.
End McSpec.
(** the failures counted so far: a success resets the counter only when more than a third of the budget is used *)
Definition mc_failures (max : Z) (vs : list bool) : Z :=
  fold_left (fun (n : Z) (ok : bool) => if ok then (if Z.leb n (max / 3) then n else 0%Z) else (n + 1)%Z) vs 0%Z.

(** ** Monte-Carlo: where the tested poses come from *)
(** how many times the dispersions were halved: one halving per success that came when more than a third of the
    failure budget was used *)
Fixpoint mc_halvings (max fails : Z) (vs : list bool) : nat :=
  match vs with
  | [] => 0%nat
  | false :: vs => mc_halvings max (fails + 1)%Z vs
  | true :: vs => if Z.leb fails (max / 3) then mc_halvings max fails vs else S (mc_halvings max 0%Z vs)
  end.
Section McDraws.
  Context {D : Type} {ops : DOps D} {G : Type}.
  Variable sample : D -> D -> G -> pose D * G.   (* a pose shift drawn with the given dispersions *)
  Variable score : pose D -> D.
  Variables (max : Z) (tr rot : D) (init : pose D).
  Definition halved (n : nat) (x : D) : D := Nat.iter n (fun y => dmul y (dlit 1 2)) x.
  (** [drawn g before l]: with the generator in state [g], after the tests [before], every pose of [l] is the best pose
      tested so far moved by a fresh sample whose dispersions are the initial ones halved [mc_halvings] times *)
  Fixpoint drawn (g : G) (before l : list (pose D)) : Prop :=
    match l with
    | [] => True
    | p :: l =>
        let k := mc_halvings max 0 (verdicts score (score init) before) in
        let s := sample (halved k tr) (halved k rot) g in
        p = pose_add (best_of score init before) (fst s) /\ drawn (snd s) (before ++ [p]) l
    end.
End McDraws.
