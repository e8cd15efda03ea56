(** C108.  GMapping never fails but by its scan matcher or its scan adder. *)
From Coq Require Import ZArith List Lia Bool.
From Flocq Require Import Core IEEE754.BinarySingleNaN IEEE754.Binary IEEE754.Bits.
From Verif.Base Require Import Outcome Num.
From Verif.Model Require Import Geometry Sensor World ParticleFilter Gmapping.
From Verif.Spec Require Import WorldSpec FailureSpec.
From Verif.Proofs Require Import ParticleProofs FilterTotalProofs FilterBlameProofs.
Import ListNotations.

(** In any arithmetic [D] - binary64 with its infinities and NaN, or the reals - and whatever numbers the odometry, the random
    variables, the uniform draws of resampling, the scan matcher and the trigonometric functions give: a filter of at least one
    particle is created, and then handles any history of scans and subscriptions without reading a particle, a weight or a map
    that is not there; afterwards it has particles and reports a pose and a map. *)
Theorem C108_gmapping_only_fails_with_its_matcher_or_adder :
  forall (D S M SM G RV : Type) (ops : DOps D) (dcos dsin : D -> D) (rv_sample : RV -> G -> pose D * RV * G) (rv_copy : RV -> RV) (rv_zero : RV)
    (matcher : SM -> S -> pose D -> M -> outcome (D * pose D * SM)) (adder : M -> pose D -> S -> D -> D -> outcome M)
    guess lim seeds (m0 : M) (sm0 : SM) (n : nat) o history,
  (forall k s p m, exists r, matcher k s p m = Ok r) -> (forall m p s q margin, exists m', adder m p s q margin = Ok m') ->
  (0 < n)%nat ->
  exists f0 o' f notes, gf_new rv_sample rv_copy rv_zero guess lim seeds m0 sm0 n = Ok f0 /\
    gf_run dcos dsin rv_sample rv_copy rv_zero matcher adder o f0 history = Ok (o', f, notes) /\
    (exists xs, objects (pf_heap (gf_pf f)) (pf_ptrs (gf_pf f)) = Ok xs /\ xs <> []) /\
    (exists p, gf_pose f = Ok p) /\ (exists m, gf_map f = Ok m).
Proof.
  intros D S M SM G RV ops dcos dsin rv_sample rv_copy rv_zero sm adder guess lim seeds m0 sm0 n o h HS HA Hn.
  destruct (gf_new_inv rv_sample rv_copy rv_zero guess lim seeds m0 sm0 n Hn) as (f0 & E0 & I0 & L0).
  destruct (run_total dcos dsin rv_sample rv_copy rv_zero sm adder HS HA h o f0 I0) as ([[o' f] ns] & E).
  exists f0, o', f, ns. split; [exact E0|]. split; [exact E|].
  assert (I := gf_run_inv dcos dsin rv_sample rv_copy rv_zero sm adder 0 h o f0 o' f ns I0 E).
  destruct I as (xs & R & ND & NE & _ & HM & HL).
  destruct (heaviest_ptr_ok gp_weight (gf_pf f) xs R NE) as (i & q & v & Eq & _ & _ & Nv & Nq).
  split; [exists xs; split; [now apply objects_refs|exact NE]|]. unfold gf_pose, gf_map. rewrite Eq. cbn [bind]. unfold deref. rewrite Nq. cbn [bind].
  split; [eauto|]. assert (Mv : gp_map v = 0%nat) by (rewrite Forall_forall in HM; apply HM; eapply nth_error_In; eauto). rewrite Mv.
  destruct (nth_error (gf_maps f) 0) as [m|] eqn:N0; [eauto|]. apply nth_error_None in N0. lia.
Qed.
Print Assumptions C108_gmapping_only_fails_with_its_matcher_or_adder.

(** And a filter over a matcher or an adder that does fail shows only the kinds of failure they have: over a matcher and an adder
    that may stop at an assertion but have no undefined behaviour, the filter has no undefined behaviour. *)
Theorem C108_a_failure_is_the_matchers_or_the_adders :
  forall (D S M SM G RV : Type) (ops : DOps D) (dcos dsin : D -> D) (rv_sample : RV -> G -> pose D * RV * G) (rv_copy : RV -> RV) (rv_zero : RV)
    (matcher : SM -> S -> pose D -> M -> outcome (D * pose D * SM)) (adder : M -> pose D -> S -> D -> D -> outcome M)
    guess lim seeds (m0 : M) (sm0 : SM) (n : nat) o history f0 kind,
  (0 < n)%nat -> gf_new rv_sample rv_copy rv_zero guess lim seeds m0 sm0 n = Ok f0 ->
  failure_of (gf_run dcos dsin rv_sample rv_copy rv_zero matcher adder o f0 history) = Some kind ->
  (exists k s p m, failure_of (matcher k s p m) = Some kind) \/ (exists m p s q margin, failure_of (adder m p s q margin) = Some kind).
Proof.
  intros D S M SM G RV ops dcos dsin rv_sample rv_copy rv_zero sm adder guess lim seeds m0 sm0 n o h f0 e Hn E0 E.
  destruct (gf_new_inv rv_sample rv_copy rv_zero guess lim seeds m0 sm0 n Hn) as (f & E0' & I0 & _). rewrite E0 in E0'. injection E0' as <-.
  exact (run_fair dcos dsin rv_sample rv_copy rv_zero sm adder h o f0 I0 e E).
Qed.
Print Assumptions C108_a_failure_is_the_matchers_or_the_adders.

(** without any particle the constructor itself takes the heaviest of no particles: *)
Example no_particles : forall (m0 : nat), gf_new (fun (z : bool) (g : unit) => (delta_zero : pose F64, z, g)) (fun z => z) true false false (fun _ => tt) m0 tt 0 = UB.
Proof. intros. reflexivity. Qed.

(** a case: a matcher giving NaN probabilities and corrections, infinite odometry *)
Definition nan64 : F64 := ddiv (dofZ 0%Z) (dofZ 0%Z).
Definition bad_matcher (k : nat) (_ : unit) (_ : pose F64) (_ : nat) : outcome (F64 * pose F64 * nat) := Ok (nan64, mkPose nan64 nan64 nan64, Datatypes.S k).
Definition bad_adder (m : nat) (_ : pose F64) (_ : unit) (_ _ : F64) : outcome nat := Ok (Datatypes.S m).
Example bad_total : (forall k s p m, exists r, bad_matcher k s p m = Ok r) /\ (forall m p s q margin, exists m', bad_adder m p s q margin = Ok m').
Proof. split; intros; eexists; reflexivity. Qed.
Example bad_case :
  match gf_new (fun (z : bool) (g : unit) => (delta_zero : pose F64, z, g)) (fun z => z) true false false (fun _ => tt) 0%nat 0%nat 2 with
  | Ok f0 =>
      match gf_run (fun x => x) (fun x => x) (fun (z : bool) (g : unit) => (delta_zero : pose F64, z, g)) (fun z => z) true bad_matcher bad_adder wo_new f0
              [ESubPose 1; EScan (mkTS (mkPose (ddiv (dofZ 1%Z) (dofZ 0%Z)) (dofZ 0%Z) nan64) (tt, fun _ => nan64) nan64);
               EScan (mkTS (mkPose (dofZ 1%Z) (dofZ 0%Z) nan64) (tt, fun _ => nan64) nan64)] with
      | Ok (_, f, notes) => match gf_pose f with Ok p => negb (deq (px p) (px p)) && (length notes =? 2)%nat | _ => false end
      | _ => false
      end
  | _ => false
  end = true.
Proof. vm_compute. reflexivity. Qed.

(** a failing case: the adder stops at an assertion with the second addition *)
Definition two_adder (m : nat) (_ : pose F64) (_ : unit) (_ _ : F64) : outcome nat := match m with O => Ok 1%nat | _ => Abort end.
Example failing_case :
  match gf_new (fun (z : bool) (g : unit) => (delta_zero : pose F64, z, g)) (fun z => z) true false false (fun _ => tt) 0%nat 0%nat 2 with
  | Ok f0 => failure_of (gf_run (fun x => x) (fun x => x) (fun (z : bool) (g : unit) => (delta_zero : pose F64, z, g)) (fun z => z) true bad_matcher two_adder wo_new f0
              [EScan (mkTS (mkPose (dofZ 1%Z) (dofZ 0%Z) nan64) (tt, fun _ => nan64) nan64)])
  | _ => None
  end = Some Aborts.
Proof. vm_compute. reflexivity. Qed.
