(** C103: watching a run does not change it. *)
From Coq Require Import ZArith List Bool Lia.
From Verif.Base Require Import Outcome Num.
From Verif.Model Require Import MathUtils Geometry Sensor Matchers World WatchedRun.
From Verif.Spec Require Import MatchSpec WatchedSpec.
From Verif.Proofs Require Import WatchedProofs.
Import ListNotations.
Local Open Scope outcome_scope.

(** any world (the single-hypothesis one, GMapping's): the state after a history, or the way it stops, depends on its scans only *)
Theorem C103_observers_do_not_change_a_world :
  forall (D S M W : Type) (update : W -> pose D -> outcome W) (observe : W -> tr_scan D S -> outcome W)
    (get_pose : W -> outcome (pose D)) (get_map : W -> outcome M) (w : W) (h1 h2 : list (wevent D S)) (o1 o2 : wobservers),
  scans_in h1 = scans_in h2 ->
  let state (r : outcome (wobservers * W * list (wnote D M))) := '(_, w, _) <- r ;; Ok w in
  state (world_run update observe get_pose get_map o1 w h1) = state (world_run update observe get_pose get_map o2 w h2).
Proof. intros. etransitivity; [apply world_state|]. rewrite H. symmetry. apply world_state. Qed.
Print Assumptions C103_observers_do_not_change_a_world.

(** any world: an observer is called as if it were the only one *)
Theorem C103_an_observer_hears_the_same_whoever_else_listens :
  forall (D S M W : Type) (update : W -> pose D -> outcome W) (observe : W -> tr_scan D S -> outcome W)
    (get_pose : W -> outcome (pose D)) (get_map : W -> outcome M) (w : W) (h : list (wevent D S)) (i : nat) o' w' notes,
  world_run update observe get_pose get_map wo_new w h = Ok (o', w', notes) ->
  exists o'' notes', world_run update observe get_pose get_map wo_new w (just_world_observer i h) = Ok (o'', w', notes') /\
    heard i notes = notes'.
Proof.
  intros. destruct (world_alone update observe get_pose get_map i h wo_new wo_new w o' w' notes) as (o'' & n' & E & F); auto.
  - repeat split; constructor.
  - exists o'', n'. split; [exact E|exact F].
Qed.
Print Assumptions C103_an_observer_hears_the_same_whoever_else_listens.

(** the single-hypothesis world with an observed pose enumeration matcher: the pose, the map, the enumerator and the corrections
    after a history, or the way it stops, depend on its scans only *)
Theorem C103_matcher_observers_do_not_change_a_run :
  forall (D S M E : Type) (ops : DOps D) (en : enumerator D E) (score : S -> M -> pose D -> pose D -> D) (fuel : nat)
    (adder : M -> pose D -> S -> D -> D -> outcome M) (q_localized q_raw margin : D) (w1 w2 : ss_world D M (smatcher D E))
    (h1 h2 : list (wevent' D S)) (o1 o2 : wobservers),
  let run := watched_run en score fuel adder q_localized q_raw margin in
  let view (w : ss_world D M (smatcher D E)) := (ss_pose w, ss_map w, sm_enum (ss_sm w), ss_log w) in
  let state (r : outcome (wobservers * ss_world D M (smatcher D E) * list (wnote D M))) := '(_, w, _) <- r ;; Ok (view w) in
  view w1 = view w2 -> watched_scans h1 = watched_scans h2 -> state (run o1 w1 h1) = state (run o2 w2 h2).
Proof. intros. etransitivity; [apply watched_state|]. change (WatchedProofs.view w1) with (view w1). rewrite H, H0. symmetry. apply watched_state. Qed.
Print Assumptions C103_matcher_observers_do_not_change_a_run.

(** an observer of the matcher is called as if it were the only one *)
Theorem C103_a_matcher_observer_hears_the_same_whoever_else_listens :
  forall (D S M E : Type) (ops : DOps D) (en : enumerator D E) (score : S -> M -> pose D -> pose D -> D) (fuel : nat)
    (adder : M -> pose D -> S -> D -> D -> outcome M) (q_localized q_raw margin : D) (p : pose D) (m : M) (e : E)
    (h : list (wevent' D S)) (i : Z) o' w' notes,
  let run := watched_run en score fuel adder q_localized q_raw margin wo_new (mkSS p m (mkSmatcher e [] []) []) in
  run h = Ok (o', w', notes) ->
  exists o'' w'' notes', run (just_matcher_observer i h) = Ok (o'', w'', notes') /\
    received i (sm_calls (ss_sm w'')) = received i (sm_calls (ss_sm w')) /\
    (forall k, k <> i -> received k (sm_calls (ss_sm w'')) = []).
Proof.
  intros. unfold run in *.
  destruct (watched_alone en score fuel adder q_localized q_raw margin i h wo_new wo_new
    (mkSS p m (mkSmatcher e [] []) []) (mkSS p m (mkSmatcher e [] []) []) o' w' notes) as (o'' & w'' & n' & E1 & E2 & E3); auto.
  - repeat split; constructor.
  - exists o'', w'', n'. auto.
Qed.
Print Assumptions C103_a_matcher_observer_hears_the_same_whoever_else_listens.

(** a run with two matcher observers, one of which leaves: two candidate poses per scan, each better than the last *)
Definition c103_enum : enumerator F64 nat :=
  mkEnum (fun n => Nat.ltb n 2) (fun n p => (pose_add p (mkPose (dofZ 1) (dofZ 0) (dofZ 0)), S n)) (fun _ => O) (fun n _ => n).
Definition c103_scan : tr_scan F64 unit := mkTS (mkPose (dofZ 1) (dofZ 0) (dofZ 0)) tt (dofZ 1).
Definition c103_history : list (wevent' F64 unit) :=
  [WAddSm 7; WWorld (ESubPose 3); WAddSm 9; WWorld (ESubMap 4); WWorld (EScan c103_scan); WRemoveSm 9; WEndSm 8; WWorld (EDestroy 4); WWorld (EScan c103_scan)].
Definition c103_run := watched_run c103_enum (fun _ _ _ p => px p) 10 (fun m _ _ _ _ => Ok (S m)) (dofZ 1) (dofZ 1) (dofZ 0)
  wo_new (mkSS (mkPose (dofZ 0) (dofZ 0) (dofZ 0)) O (mkSmatcher O [] []) []) c103_history.
Example C103_case : match c103_run with
  | Ok (_, w, notes) => Nat.eqb (length (received 7 (sm_calls (ss_sm w)))) 16 && Nat.eqb (length (received 9 (sm_calls (ss_sm w)))) 8 &&
      Nat.eqb (length (heard 3 notes)) 2 && Nat.eqb (length (heard 4 notes)) 1 && Nat.eqb (ss_map w) 2
  | _ => false end = true.
Proof. vm_cast_no_check (eq_refl true). Qed.
