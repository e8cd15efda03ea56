(** C107.  GMapping with the scan matcher that does nothing: the filter never resamples and reports the raw odometry. *)
From Coq Require Import Reals ZArith List Lia Lra Bool.
From Verif.Base Require Import Outcome Num.
From Verif.Model Require Import Geometry Sensor World ParticleFilter Gmapping NoAction.
From Verif.Spec Require Import WorldSpec TrackSpec.
From Verif.Proofs Require Import ParticleProofs ParticleIdleProofs NoActionFilterProofs.
Import ListNotations.
Local Open Scope R_scope.

(** Random variables [Z] give zeros only, as normal distributions of mean and deviation 0 (what masters get) do; all the others,
    the random engines, their seeds, the limits, the uniform draws and the scan adder are arbitrary. *)
Theorem C107_gmapping_without_matching_reports_the_odometry :
  forall (S M G RV : Type) (rv_sample : RV -> G -> pose R * RV * G) (rv_copy : RV -> RV) (rv_zero : RV)
    (adder : M -> pose R -> S -> R -> R -> outcome M) (Z : RV -> Prop) guess lim seeds (m0 : M) (n : nat) f0 o history o' f notes,
  Z rv_zero -> (forall z g, Z z -> fst (fst (rv_sample z g)) = mkPose 0 0 0 /\ Z (snd (fst (rv_sample z g)))) ->
  (0 < n)%nat -> gf_new rv_sample rv_copy rv_zero guess lim seeds m0 tt n = Ok f0 ->
  gf_run cos sin rv_sample rv_copy rv_zero no_action_process adder o f0 history = Ok (o', f, notes) ->
  (** the pose reported is the sum of the odometry, and so is every pose observers are told *)
  gf_pose f = Ok (fold_left pose_add (scan_deltas history) (mkPose 0 0 0)) /\
  (forall id q, In (NPose id q) notes -> In q (map fst (track (mkPose 0 0 0) history))) /\
  (** the particles are the very ones the filter was created with, all of equal weight *)
  pf_ptrs (gf_pf f) = pf_ptrs (gf_pf f0) /\
  exists xs, objects (pf_heap (gf_pf f)) (pf_ptrs (gf_pf f)) = Ok xs /\ length xs = n /\ Forall (fun x => gp_weight x = 1 / INR n) xs.
Proof.
  intros S M G RV rv_sample rv_copy rv_zero adder Z guess lim seeds m0 n f0 o h o' f ns Z0 ZS Hn E0 E.
  assert (I0 := rinv_new rv_sample rv_copy rv_zero Z Z0 guess lim seeds m0 n f0 Hn E0).
  destruct (rinv_run rv_sample rv_copy rv_zero adder Z ZS n h o f0 _ o' f ns I0 E) as (I & P & N).
  split; [now apply (rinv_pose Z n)|]. split; [exact N|]. split; [exact P|].
  destruct I as (xs & x & R1 & _ & L & W & _). exists (xs ++ [x]). split; [now apply objects_refs|]. split; [rewrite app_length; exact L|exact W].
Qed.
Print Assumptions C107_gmapping_without_matching_reports_the_odometry.

(** such a filter exists and never fails but by its scan adder *)
Theorem C107_gmapping_without_matching_runs :
  forall (S M G RV : Type) (rv_sample : RV -> G -> pose R * RV * G) (rv_copy : RV -> RV) (rv_zero : RV)
    (adder : M -> pose R -> S -> R -> R -> outcome M) guess lim seeds (m0 : M) (n : nat) o history,
  (0 < n)%nat -> (forall m p s q margin, exists m', adder m p s q margin = Ok m') ->
  exists f0 r, gf_new rv_sample rv_copy rv_zero guess lim seeds m0 tt n = Ok f0 /\
    gf_run cos sin rv_sample rv_copy rv_zero no_action_process adder o f0 history = Ok r.
Proof.
  intros S M G RV rv_sample rv_copy rv_zero adder guess lim seeds m0 n o h Hn HA.
  destruct (gf_new_inv rv_sample rv_copy rv_zero guess lim seeds m0 tt n Hn) as (f0 & E0 & I0 & _).
  assert (ST : forall (k : unit) (s : S) (p : pose R) (m : M), exists r, no_action_process k s p m = Ok r) by (intros; unfold no_action_process; eauto).
  destruct (run_total cos sin rv_sample rv_copy rv_zero no_action_process adder ST HA h o f0 I0) as (r & E). eauto.
Qed.
Print Assumptions C107_gmapping_without_matching_runs.

(** a case: three particles, guesses one metre off the odometry for all but the master, limits of half a metre *)
Definition case_rv (z : bool) (_ : unit) : pose R * bool * unit := ((if z then mkPose 0 0 0 else mkPose 1 (1 / 2) 3), z, tt).
Definition case_adder (m : list (pose R)) (p : pose R) (_ : unit) (_ _ : R) : outcome (list (pose R)) := Ok (m ++ [p]).
Definition case_history : list (wevent R (unit * (nat -> R))) :=
  [ESubPose 7; EScan (mkTS (mkPose 1 0 2) (tt, fun _ => 1 / 2) 1); EScan (mkTS (mkPose 0 1 2) (tt, fun _ => 1 / 3) 1)].
Example without_matching_case : exists f0 o' f notes,
  gf_new case_rv (fun z => z) true false false (fun _ => tt) [] tt 3 = Ok f0 /\
  gf_run cos sin case_rv (fun z => z) true no_action_process case_adder wo_new f0 case_history = Ok (o', f, notes) /\
  (forall z g, z = true -> fst (fst (case_rv z g)) = mkPose 0 0 0 /\ snd (fst (case_rv z g)) = true) /\
  gf_pose f = Ok (mkPose (0 + 1 + 0) (0 + 0 + 1) (0 + 2 + 2)).
Proof.
  destruct (C107_gmapping_without_matching_runs unit (list (pose R)) unit bool case_rv (fun z => z) true case_adder false false (fun _ => tt) [] 3 wo_new case_history) as (f0 & [[o' f] ns] & E0 & E);
    [lia|unfold case_adder; eauto|].
  assert (ZS : forall z g, z = true -> fst (fst (case_rv z g)) = mkPose 0 0 0 /\ snd (fst (case_rv z g)) = true) by (intros z g ->; auto).
  assert (H3 : (0 < 3)%nat) by lia.
  exists f0, o', f, ns. split; [exact E0|]. split; [exact E|]. split; [exact ZS|].
  exact (proj1 (C107_gmapping_without_matching_reports_the_odometry _ _ _ _ _ _ _ _ (fun z => z = true) _ _ _ _ _ _ _ _ _ _ _ eq_refl ZS H3 E0 E)).
Qed.
