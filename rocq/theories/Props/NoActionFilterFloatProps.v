(** C107 in binary64. *)
From Coq Require Import Reals ZArith List Lia Lra Bool.
From Flocq Require Import Core IEEE754.BinarySingleNaN IEEE754.Binary IEEE754.Bits.
From Verif.Base Require Import Outcome Num F64Facts.
From Verif.Model Require Import Geometry Sensor World ParticleFilter Gmapping NoAction.
From Verif.Spec Require Import WorldSpec TrackSpec.
From Verif.Proofs Require Import ParticleProofs FilterTotalProofs NoActionFilterFloatProofs.
Import ListNotations.
Local Open Scope R_scope.

(** Up to 2^20 particles, cos 0 = 1 and sin 0 = 0, an odometry track of finite doubles: the pose reported is the odometry, bit for
    bit; the weights of all the particles stay the same double, and the rounding of sums, quotients and squares never makes the
    effective number of particles look small enough for resampling. *)
Theorem C107_gmapping_without_matching_reports_the_odometry_in_binary64 :
  forall (S M G RV : Type) (dcos dsin : F64 -> F64) (rv_sample : RV -> G -> pose F64 * RV * G) (rv_copy : RV -> RV) (rv_zero : RV)
    (adder : M -> pose F64 -> S -> F64 -> F64 -> outcome M) (Z : RV -> Prop) guess lim seeds (m0 : M) (n : nat) f0 o history o' f notes,
  dcos (dofZ 0%Z) = dofZ 1%Z -> dsin (dofZ 0%Z) = dofZ 0%Z ->
  Z rv_zero -> (forall z g, Z z -> fst (fst (rv_sample z g)) = delta_zero /\ Z (snd (fst (rv_sample z g)))) ->
  (0 < n)%nat -> INR n <= 1048576 -> gf_new rv_sample rv_copy rv_zero guess lim seeds m0 tt n = Ok f0 ->
  Forall (fun q => F_fin (px (fst q)) = true /\ F_fin (py (fst q)) = true /\ F_fin (pth (fst q)) = true) (track delta_zero history) ->
  gf_run dcos dsin rv_sample rv_copy rv_zero no_action_process adder o f0 history = Ok (o', f, notes) ->
  gf_pose f = Ok (fold_left pose_add (scan_deltas history) delta_zero) /\
  (forall id q, In (NPose id q) notes -> In q (map fst (track delta_zero history))) /\
  pf_ptrs (gf_pf f) = pf_ptrs (gf_pf f0) /\
  exists xs c, objects (pf_heap (gf_pf f)) (pf_ptrs (gf_pf f)) = Ok xs /\ length xs = n /\ Forall (fun x => gp_weight x = c) xs /\
    F_fin c = true /\ Rabs (INR n * F2R64 c - 1) <= / 1000000000.
Proof.
  intros S M G RV dcos dsin rv_sample rv_copy rv_zero adder Z guess lim seeds m0 n f0 o h o' f ns C1 S0 Z0 ZS Hn HN E0 HF E.
  assert (I0 := rinv_new rv_sample rv_copy rv_zero Z Z0 guess lim seeds m0 n f0 Hn HN E0).
  destruct (rinv_run dcos dsin rv_sample rv_copy rv_zero adder C1 S0 Z ZS n h HN o f0 _ o' f ns I0 HF E) as (I & P & N).
  split; [exact (rinv_pose Z n _ _ I)|]. split; [exact N|]. split; [exact P|].
  destruct I as (xs & x & c & R1 & _ & L & W & (NC1 & NC2) & _). exists (xs ++ [x]), c. split; [now apply objects_refs|]. split; [rewrite app_length; exact L|]. auto.
Qed.
Print Assumptions C107_gmapping_without_matching_reports_the_odometry_in_binary64.

(** such a filter exists for any number of particles, and never fails but by its scan adder, whatever doubles (infinite and NaN
    included) the odometry and the random variables give and whatever [dcos] and [dsin] are *)
Theorem C107_gmapping_without_matching_runs_in_binary64 :
  forall (S M G RV : Type) (dcos dsin : F64 -> F64) (rv_sample : RV -> G -> pose F64 * RV * G) (rv_copy : RV -> RV) (rv_zero : RV)
    (adder : M -> pose F64 -> S -> F64 -> F64 -> outcome M) guess lim seeds (m0 : M) (n : nat) o history,
  (0 < n)%nat -> (forall m p s q margin, exists m', adder m p s q margin = Ok m') ->
  exists f0 r, gf_new rv_sample rv_copy rv_zero guess lim seeds m0 tt n = Ok f0 /\
    gf_run dcos dsin rv_sample rv_copy rv_zero no_action_process adder o f0 history = Ok r.
Proof.
  intros S M G RV dcos dsin rv_sample rv_copy rv_zero adder guess lim seeds m0 n o h Hn HA.
  destruct (gf_new_inv rv_sample rv_copy rv_zero guess lim seeds m0 tt n Hn) as (f0 & E0 & I0 & _).
  assert (ST : forall (k : unit) (s : S) (p : pose F64) (m : M), exists r, no_action_process k s p m = Ok r) by (intros; unfold no_action_process; eauto).
  destruct (run_total dcos dsin rv_sample rv_copy rv_zero no_action_process adder ST HA h o f0 I0) as (r & E). eauto.
Qed.
Print Assumptions C107_gmapping_without_matching_runs_in_binary64.

(** a case meeting the hypotheses: three particles, guesses off the odometry for all but the master, two scans *)
Definition case_rv64 (z : bool) (_ : unit) : pose F64 * bool * unit := ((if z then delta_zero else mkPose (dofZ 1%Z) (dlit 1%Z 2%Z) (dofZ 3%Z)), z, tt).
Definition case_adder64 (m : nat) (p : pose F64) (_ : unit) (_ _ : F64) : outcome nat := Ok (Datatypes.S m).
Definition case_history64 : list (wevent F64 (unit * (nat -> F64))) :=
  [ESubPose 7; EScan (mkTS (mkPose (dlit 1%Z 10%Z) (dofZ 0%Z) (dofZ 2%Z)) (tt, fun _ => dlit 1%Z 2%Z) (dofZ 1%Z));
   EScan (mkTS (mkPose (dlit 2%Z 10%Z) (dofZ 1%Z) (dlit 1%Z 3%Z)) (tt, fun _ => dlit 1%Z 3%Z) (dofZ 1%Z))].
Example without_matching_case64 :
  match gf_new case_rv64 (fun z => z) true false false (fun _ => tt) 0%nat tt 3 with
  | Ok f0 =>
      match gf_run (fun _ => dofZ 1%Z) (fun _ => dofZ 0%Z) case_rv64 (fun z => z) true no_action_process case_adder64 wo_new f0 case_history64 with
      | Ok (_, f, _) => match gf_pose f with Ok p => deq (px p) (dadd (dlit 1%Z 10%Z) (dlit 2%Z 10%Z)) && deq (py p) (dofZ 1%Z) | _ => false end
      | _ => false
      end
  | _ => false
  end = true.
Proof. vm_compute. reflexivity. Qed.
Example finite_track64 : Forall (fun q => F_fin (px (fst q)) = true /\ F_fin (py (fst q)) = true /\ F_fin (pth (fst q)) = true) (track delta_zero case_history64).
Proof. repeat constructor; vm_compute; reflexivity. Qed.
Example zero_rv64 : forall z g, z = true -> fst (fst (case_rv64 z g)) = delta_zero /\ snd (fst (case_rv64 z g)) = true.
Proof. intros z g ->. auto. Qed.
