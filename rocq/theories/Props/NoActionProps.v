(** C106.  With the scan matcher that does nothing ("idle") the single-hypothesis world is a recorder: the map is drawn along the
    odometry, every scan with the raw quality, whatever the scans contain. *)
From Coq Require Import ZArith List Reals Lra Bool.
From Flocq Require Import Core IEEE754.BinarySingleNaN IEEE754.Binary IEEE754.Bits.
From Verif.Base Require Import Outcome Num F64Facts.
From Verif.Model Require Import MathUtils Geometry Sensor World NoAction.
From Verif.Spec Require Import WorldSpec TrackSpec.
From Verif.Proofs Require Import NoActionProofs AreaProofs.
Import ListNotations.
Local Open Scope outcome_scope.

Notation idle_run adder ql qr margin := (ss_run no_action_reset no_action_process adder ql qr margin).

Section Both.
  Context {D S M : Type} {ops : DOps D}.
  Variables (adder : M -> pose D -> S -> D -> D -> outcome M) (ql qr mg : D) (good : D -> Prop).
  Hypothesis good_add : forall x y, good x -> good (dadd x y).
  Hypothesis good_zero : forall x, good x -> dadd x (dofZ 0%Z) = x.
  Hypothesis zero_eq : are_equal (dofZ 0%Z : D) (dofZ 0%Z) = true.

  Lemma idle_both o (w : ss_world D M unit) h : good (px (ss_pose w)) /\ good (py (ss_pose w)) /\ good (pth (ss_pose w)) ->
    (forall m', drawn adder qr mg (ss_map w) (track (ss_pose w) h) = Ok m' ->
       exists o' w' notes, idle_run adder ql qr mg o w h = Ok (o', w', notes)) /\
    (forall o' w' notes, idle_run adder ql qr mg o w h = Ok (o', w', notes) ->
       drawn adder qr mg (ss_map w) (track (ss_pose w) h) = Ok (ss_map w') /\
       ss_pose w' = fold_left pose_add (scan_deltas h) (ss_pose w) /\
       (forall id q, In (NPose id q) notes -> In q (map fst (track (ss_pose w) h)))).
  Proof using good_add good_zero zero_eq.
    intros G. assert (R := NoActionProofs.idle_run adder ql qr mg good good_add good_zero zero_eq h o w G). split.
    - intros m' E. destruct (idle_run adder ql qr mg o w h) as [[[o' w'] n]| | |]; [eauto|congruence..].
    - intros o' w' notes E. assert (N := NoActionProofs.idle_notes adder ql qr mg good good_add good_zero zero_eq h o w o' w' notes G E).
      rewrite E in R. destruct R as [R1 R2]. auto.
  Qed.
End Both.

(** in real arithmetic: the run succeeds exactly when the map can be drawn along the odometry, the resulting map is that drawing,
    the resulting pose is the odometry's, and its observers are only told poses of the odometry *)
Theorem C106_an_idle_matcher_draws_the_map_along_the_odometry :
  forall (S M : Type) (adder : M -> pose R -> S -> R -> R -> outcome M) (q_localized q_raw margin : R) o (w : ss_world R M unit) history,
  let run := ss_run no_action_reset no_action_process adder q_localized q_raw margin o w history in
  let drawing := drawn adder q_raw margin (ss_map w) (track (ss_pose w) history) in
  ((exists o' w' notes, run = Ok (o', w', notes)) <-> (exists m, drawing = Ok m)) /\
  (forall o' w' notes, run = Ok (o', w', notes) ->
     drawing = Ok (ss_map w') /\ ss_pose w' = fold_left pose_add (scan_deltas history) (ss_pose w) /\
     (forall id q, In (NPose id q) notes -> In q (map fst (track (ss_pose w) history)))).
Proof.
  intros S M adder ql qr mg o w h run drawing.
  assert (Z : forall x : R, True -> dadd x (dofZ 0%Z) = x) by (intros x _; exact (Rplus_0_r x)).
  destruct (idle_both adder ql qr mg (fun _ => True) (fun _ _ _ => I) Z (R_are_equal_refl _) o w h (conj I (conj I I))) as [A B].
  split; [|exact B]. split.
  - intros (o' & w' & n & E). destruct (B _ _ _ E) as [H _]. eauto.
  - intros (m & E). eauto.
Qed.
Print Assumptions C106_an_idle_matcher_draws_the_map_along_the_odometry.

(** ... and the same exactly, bit for bit, in binary64, for any odometry (infinite and NaN deltas included), when the world starts
    at a pose without a negative zero: adding the zero correction never changes a pose *)
Theorem C106_an_idle_matcher_draws_the_map_along_the_odometry_in_binary64 :
  forall (S M : Type) (adder : M -> pose F64 -> S -> F64 -> F64 -> outcome M) (q_localized q_raw margin : F64) o (w : ss_world F64 M unit) history,
  pose_without_minus_zero (ss_pose w) ->
  let run := ss_run no_action_reset no_action_process adder q_localized q_raw margin o w history in
  let drawing := drawn adder q_raw margin (ss_map w) (track (ss_pose w) history) in
  ((exists o' w' notes, run = Ok (o', w', notes)) <-> (exists m, drawing = Ok m)) /\
  (forall o' w' notes, run = Ok (o', w', notes) ->
     drawing = Ok (ss_map w') /\ ss_pose w' = fold_left pose_add (scan_deltas history) (ss_pose w) /\
     (forall id q, In (NPose id q) notes -> In q (map fst (track (ss_pose w) history)))).
Proof.
  intros S M adder ql qr mg o w h G run drawing.
  assert (E0 : are_equal (dofZ 0%Z : F64) (dofZ 0%Z) = true) by (vm_cast_no_check (eq_refl true)).
  destruct (idle_both adder ql qr mg not_minus_zero F_plus_not_minus_zero F_plus_zero E0 o w h G) as [A B].
  split; [|exact B]. split.
  - intros (o' & w' & n & E). destruct (B _ _ _ E) as [H _]. eauto.
  - intros (m & E). eauto.
Qed.
Print Assumptions C106_an_idle_matcher_draws_the_map_along_the_odometry_in_binary64.

(** so neither the localized quality nor the qualities written in the scans matter *)
Lemma track_quality (D S : Type) (ops : DOps D) (h h' : list (wevent D S)) : Forall2 same_but_quality h h' -> forall p : pose D,
  track p h = track p h'.
Proof.
  induction 1 as [|e e' h h' HE HF IH]; intros p; [reflexivity|]. destruct e, e'; cbn [same_but_quality] in HE; try discriminate HE; cbn [track]; auto.
  destruct HE as [<- <-]. now rewrite IH.
Qed.
Theorem C106_localized_quality_and_incoming_qualities_do_not_matter :
  forall (S M : Type) (adder : M -> pose R -> S -> R -> R -> outcome M) (q q' q_raw margin : R) o (w : ss_world R M unit) history history',
  Forall2 same_but_quality history history' ->
  forall o1 w1 notes1, ss_run no_action_reset no_action_process adder q q_raw margin o w history = Ok (o1, w1, notes1) ->
  exists o2 w2 notes2, ss_run no_action_reset no_action_process adder q' q_raw margin o w history' = Ok (o2, w2, notes2) /\
  ss_map w2 = ss_map w1 /\ ss_pose w2 = ss_pose w1.
Proof.
  intros S M adder q q' qr mg o w h h' HF o1 w1 n1 E.
  destruct (C106_an_idle_matcher_draws_the_map_along_the_odometry S M adder q qr mg o w h) as [A B].
  destruct (C106_an_idle_matcher_draws_the_map_along_the_odometry S M adder q' qr mg o w h') as [A' B'].
  destruct (B _ _ _ E) as (D1 & P1 & _). rewrite (track_quality _ _ _ _ _ HF) in D1.
  destruct (proj2 A' (ex_intro _ _ D1)) as (o2 & w2 & n2 & E2). exists o2, w2, n2. split; [exact E2|].
  destruct (B' _ _ _ E2) as (D2 & P2 & _). rewrite D2 in D1. split; [congruence|]. rewrite P1, P2. f_equal.
  clear - HF. induction HF as [|e e' h h' HE HF IH]; [reflexivity|]. unfold scan_deltas. cbn [flat_map]. fold (scan_deltas h) (scan_deltas h').
  rewrite IH. destruct e, e'; cbn [same_but_quality] in HE; try discriminate HE; auto. destruct HE as [<- _]. reflexivity.
Qed.
Print Assumptions C106_localized_quality_and_incoming_qualities_do_not_matter.

(** a case meeting the hypotheses: two scans, an observer of each kind; the map is the list of what was added to it *)
Definition tape (m : list (pose R * nat * R * R)) (p : pose R) (s : nat) (q mg : R) : outcome (list (pose R * nat * R * R)) := Ok (m ++ [(p, s, q, mg)]).
Example idle_case :
  exists o' w' notes, ss_run no_action_reset no_action_process tape 1%R (1 / 2)%R 2%R wo_new (mkSS (mkPose 0 0 0)%R [] tt [])
    [ESubPose 3; EScan (mkTS (mkPose 1 0 1)%R 7%nat 1%R); ESubMap 4; EScan (mkTS (mkPose 1 2 0)%R 8%nat 0%R)] = Ok (o', w', notes) /\
  ss_pose w' = mkPose (0 + 1 + 1)%R (0 + 0 + 2)%R (0 + 1 + 0)%R /\
  ss_map w' = [(mkPose (0 + 1) (0 + 0) (0 + 1), 7%nat, 1 / 2, 2); (mkPose (0 + 1 + 1) (0 + 0 + 2) (0 + 1 + 0), 8%nat, 1 / 2, 2)]%R.
Proof.
  destruct (C106_an_idle_matcher_draws_the_map_along_the_odometry nat _ tape 1%R (1 / 2)%R 2%R wo_new (mkSS (mkPose 0 0 0)%R [] tt [])
    [ESubPose 3; EScan (mkTS (mkPose 1 0 1)%R 7%nat 1%R); ESubMap 4; EScan (mkTS (mkPose 1 2 0)%R 8%nat 0%R)]) as [[_ A] B].
  destruct A as (o' & w' & n & E); [eexists; reflexivity|]. exists o', w', n. split; [exact E|]. destruct (B _ _ _ E) as (D1 & P1 & _).
  split; [exact P1|]. exact (eq_sym (ok_inj_local _ _ _ D1)).
Qed.
Example idle_start_64 : pose_without_minus_zero (mkPose (dofZ 0%Z) (dofZ 0%Z) (dofZ 0%Z) : pose F64).
Proof. repeat split; unfold not_minus_zero; vm_compute; discriminate. Qed.
