(** C71: when a GMapping filter resamples. *)
From Coq Require Import Reals ZArith List Lia Lra Bool.
From Verif.Base Require Import Outcome Num OrdLaws.
From Verif.Model Require Import MathUtils Geometry Sensor Histogram World ParticleFilter Gmapping.
From Verif.Spec Require Import WorldSpec ParticleSpec TravelSpec WaySpec.
From Verif.Proofs Require HistProofs.
From Verif.Proofs Require Import ParticleProofs WorldProofs ResampleProofs WayProofs WayFloatProofs.
From Verif.Proofs Require Import AreaRange.
Import ListNotations.
Local Open Scope R_scope.

Section Words.
  Context {D S M SM G RV : Type} {ops : DOps D} (dcos dsin : D -> D) (rv_sample : RV -> G -> pose D * RV * G) (rv_copy : RV -> RV) (rv_zero : RV)
    (sm : SM -> S -> pose D -> M -> outcome (D * pose D * SM)) (adder : M -> pose D -> S -> D -> D -> outcome M).
  (** a history of calls takes the filter [f] to [f'] *)
  Definition leads (f : gfilter D M SM G RV) (h : list (wevent D (S * (nat -> D)))) (f' : gfilter D M SM G RV) : Prop :=
    exists o o' notes, gf_run dcos dsin rv_sample rv_copy rv_zero sm adder o f h = Ok (o', f', notes).
  (** the scan replaced particles *)
  Definition replaces (f f' : gfilter D M SM G RV) : Prop := pf_ptrs (gf_pf f') <> pf_ptrs (gf_pf f).
  (** the scan replaces the particles by the drawn ones (C36) exactly when the weights are uneven, and keeps them otherwise *)
  Definition due (f : gfilter D M SM G RV) (s : tr_scan D (S * (nat -> D))) (f' : gfilter D M SM G RV) : Prop :=
    exists p xs, pf_ptrs p = pf_ptrs (gf_pf f) /\ objects (pf_heap p) (pf_ptrs p) = Ok xs /\
    if resampling_is_required (map gp_weight xs)
    then exists p', pf_try_resample gp_weight gp_set_weight (gp_duplicate rv_copy) p (snd (ts_scan s)) = Ok (p', true) /\ pf_ptrs (gf_pf f') = pf_ptrs p'
    else gf_pf f' = p.
End Words.

Section Resampling.
  Context {S M SM G RV : Type} (dcos dsin : R -> R) (rv_sample : RV -> G -> pose R * RV * G) (rv_copy : RV -> RV) (rv_zero : RV)
    (sm : SM -> S -> pose R -> M -> outcome (R * pose R * SM)) (adder : M -> pose R -> S -> R -> R -> outcome M).
  Local Notation leads := (leads dcos dsin rv_sample rv_copy rv_zero sm adder).
  Local Notation due := (due rv_copy).
  (** from a replacement of particles (or the construction) to the next one the robot went far *)
  Theorem C71_far_between_resamplings : forall f1 s1 f2 h f3 s2 f4,
    leads f1 [EScan s1] f2 -> replaces f1 f2 -> leads f2 h f3 -> leads f3 [EScan s2] f4 -> replaces f3 f4 -> travelled_far (deltas (h ++ [EScan s2])).
  Proof.
    intros f1 s1 f2 h f3 s2 f4 (o1 & o1' & n1 & E1) R1 (o2 & o2' & n2 & E2) (o3 & o3' & n3 & E3) R3.
    assert (Z : gf_trav f2 = mkPose 0 0 0).
    { destruct (scan_travel _ _ _ _ _ _ _ _ _ _ _ _ _ E1) as [[P _]|[_ Z]]; [contradiction|exact Z]. }
    eapply change_far; [exact Z|exact E2|exact E3|exact R3].
  Qed.
  Theorem C71_far_before_the_first_resampling : forall guess lim seeds m0 sm0 n f0 h f1 s f2,
    gf_new rv_sample rv_copy rv_zero guess lim seeds m0 sm0 n = Ok f0 -> leads f0 h f1 -> leads f1 [EScan s] f2 -> replaces f1 f2 -> travelled_far (deltas (h ++ [EScan s])).
  Proof.
    intros guess lim seeds m0 sm0 n f0 h f1 s f2 E0 (o1 & o1' & n1 & E1) (o2 & o2' & n2 & E2) R2.
    assert (Z : gf_trav f0 = mkPose 0 0 0).
    { unfold gf_new in E0. apply bind_Ok_inv in E0 as (hh & _ & E0). apply bind_Ok_inv in E0 as (p & _ & E0). injection E0 as <-. reflexivity. }
    eapply change_far; [exact Z|exact E1|exact E2|exact R2].
  Qed.
  (** and the first scan with which the way since the construction (or since the last replacement) is far is the one that is due *)
  Theorem C71_resamples_when_due : forall guess lim seeds m0 sm0 n f0 h f1 s f2,
    gf_new rv_sample rv_copy rv_zero guess lim seeds m0 sm0 n = Ok f0 -> leads f0 h f1 -> leads f1 [EScan s] f2 ->
    ~ travelled_far (deltas h) -> travelled_far (deltas (h ++ [EScan s])) -> ~ replaces f0 f1 /\ due f1 s f2.
  Proof.
    intros guess lim seeds m0 sm0 n f0 h f1 s f2 E0 (o1 & o1' & n1 & E1) (o2 & o2' & n2 & E2) N F.
    assert (Z : gf_trav f0 = mkPose 0 0 0).
    { unfold gf_new in E0. apply bind_Ok_inv in E0 as (hh & _ & E0). apply bind_Ok_inv in E0 as (p & _ & E0). injection E0 as <-. reflexivity. }
    destruct (first_far_due _ _ _ _ _ _ _ _ _ _ _ _ _ _ _ _ _ _ Z E1 E2 N F) as [P D]. split; [intros C; exact (C P)|].
    exact (scan_due _ _ _ _ _ _ _ _ _ _ _ _ _ E2 D).
  Qed.
  Theorem C71_resamples_when_due_again : forall f1 s1 f2 h f3 s2 f4,
    leads f1 [EScan s1] f2 -> replaces f1 f2 -> leads f2 h f3 -> leads f3 [EScan s2] f4 ->
    ~ travelled_far (deltas h) -> travelled_far (deltas (h ++ [EScan s2])) -> ~ replaces f2 f3 /\ due f3 s2 f4.
  Proof.
    intros f1 s1 f2 h f3 s2 f4 (o1 & o1' & n1 & E1) R1 (o2 & o2' & n2 & E2) (o3 & o3' & n3 & E3) N F.
    assert (Z : gf_trav f2 = mkPose 0 0 0).
    { destruct (scan_travel _ _ _ _ _ _ _ _ _ _ _ _ _ E1) as [[P _]|[_ Z]]; [contradiction|exact Z]. }
    destruct (first_far_due _ _ _ _ _ _ _ _ _ _ _ _ _ _ _ _ _ _ Z E2 E3 N F) as [P D]. split; [intros C; exact (C P)|].
    exact (scan_due _ _ _ _ _ _ _ _ _ _ _ _ _ E3 D).
  Qed.
End Resampling.
Print Assumptions C71_far_between_resamplings.
Print Assumptions C71_far_before_the_first_resampling.
Print Assumptions C71_resamples_when_due.
Print Assumptions C71_resamples_when_due_again.

(** The same in binary64, for all doubles (also NaN and infinite odometry), with the ways added up as the doubles are ([way], [short]). *)
Section Binary64.
  Context {S M SM G RV : Type} (dcos dsin : F64 -> F64) (rv_sample : RV -> G -> pose F64 * RV * G) (rv_copy : RV -> RV) (rv_zero : RV)
    (sm : SM -> S -> pose F64 -> M -> outcome (F64 * pose F64 * SM)) (adder : M -> pose F64 -> S -> F64 -> F64 -> outcome M).
  Local Notation leads := (leads dcos dsin rv_sample rv_copy rv_zero sm adder).
  Local Notation due := (due rv_copy).
  Lemma new_at_0 guess lim seeds m0 sm0 n f0 : gf_new (M := M) (SM := SM) rv_sample rv_copy rv_zero guess lim seeds m0 sm0 n = Ok f0 -> gf_trav f0 = mkPose (dofZ 0) (dofZ 0) (dofZ 0).
  Proof. intros E0. unfold gf_new in E0. apply bind_Ok_inv in E0 as (hh & _ & E0). apply bind_Ok_inv in E0 as (p & _ & E0). apply Ok_inj in E0. rewrite <- E0. reflexivity. Qed.
  Lemma replaced_at_0 f1 s1 f2 : leads f1 [EScan s1] f2 -> replaces f1 f2 -> gf_trav f2 = mkPose (dofZ 0) (dofZ 0) (dofZ 0).
  Proof. intros (o1 & o1' & n1 & E1) R1. destruct (scan_travel_gen _ _ _ _ _ _ _ _ _ _ _ _ _ E1) as [[P _]|[_ Z]]; [contradiction|exact Z]. Qed.
  Theorem C71_far_between_resamplings_in_binary64 : forall f1 s1 f2 h f3 s2 f4,
    leads f1 [EScan s1] f2 -> replaces f1 f2 -> leads f2 h f3 -> leads f3 [EScan s2] f4 -> replaces f3 f4 -> short (odometry (h ++ [EScan s2])) = false.
  Proof.
    intros f1 s1 f2 h f3 s2 f4 L1 R1 (o2 & o2' & n2 & E2) (o3 & o3' & n3 & E3) R3. assert (Z := replaced_at_0 _ _ _ L1 R1).
    eapply change_far_whole; [exact way_growing|exact Z|exact E2|exact E3|exact R3].
  Qed.
  Theorem C71_far_before_the_first_resampling_in_binary64 : forall guess lim seeds m0 sm0 n f0 h f1 s f2,
    gf_new rv_sample rv_copy rv_zero guess lim seeds m0 sm0 n = Ok f0 -> leads f0 h f1 -> leads f1 [EScan s] f2 -> replaces f1 f2 -> short (odometry (h ++ [EScan s])) = false.
  Proof.
    intros guess lim seeds m0 sm0 n f0 h f1 s f2 E0 (o1 & o1' & n1 & E1) (o2 & o2' & n2 & E2) R2. apply new_at_0 in E0.
    eapply change_far_whole; [exact way_growing|exact E0|exact E1|exact E2|exact R2].
  Qed.
  Theorem C71_resamples_when_due_in_binary64 : forall guess lim seeds m0 sm0 n f0 h f1 s f2,
    gf_new rv_sample rv_copy rv_zero guess lim seeds m0 sm0 n = Ok f0 -> leads f0 h f1 -> leads f1 [EScan s] f2 ->
    short (odometry h) = true -> short (odometry (h ++ [EScan s])) = false -> ~ replaces f0 f1 /\ due f1 s f2.
  Proof.
    intros guess lim seeds m0 sm0 n f0 h f1 s f2 E0 (o1 & o1' & n1 & E1) (o2 & o2' & n2 & E2) N F. apply new_at_0 in E0.
    destruct (first_far_gen _ _ _ _ _ _ _ way_growing _ _ _ _ _ _ _ _ _ _ _ E0 E1 E2 N F) as [P K]. split; [intros C; exact (C P)|].
    exact (scan_due_gen _ _ _ _ _ _ _ _ _ _ _ _ _ E2 K).
  Qed.
  Theorem C71_resamples_when_due_again_in_binary64 : forall f1 s1 f2 h f3 s2 f4,
    leads f1 [EScan s1] f2 -> replaces f1 f2 -> leads f2 h f3 -> leads f3 [EScan s2] f4 ->
    short (odometry h) = true -> short (odometry (h ++ [EScan s2])) = false -> ~ replaces f2 f3 /\ due f3 s2 f4.
  Proof.
    intros f1 s1 f2 h f3 s2 f4 L1 R1 (o2 & o2' & n2 & E2) (o3 & o3' & n3 & E3) N F. assert (Z := replaced_at_0 _ _ _ L1 R1).
    destruct (first_far_gen _ _ _ _ _ _ _ way_growing _ _ _ _ _ _ _ _ _ _ _ Z E2 E3 N F) as [P K]. split; [intros C; exact (C P)|].
    exact (scan_due_gen _ _ _ _ _ _ _ _ _ _ _ _ _ E3 K).
  Qed.
End Binary64.
Print Assumptions C71_far_between_resamplings_in_binary64.
Print Assumptions C71_far_before_the_first_resampling_in_binary64.
Print Assumptions C71_resamples_when_due_in_binary64.
Print Assumptions C71_resamples_when_due_again_in_binary64.
(** three steps of 0.1 and -0.1 turned: still near after the second, and far after the third *)
Example C71_binary64_case : let d (z : Z) : pose F64 := mkPose (dofZ 0) (dofZ 0) (dlit z 10) in
  (short [d 1%Z; d (-1)%Z] && negb (short [d 1%Z; d (-1)%Z; d 1%Z]))%bool = true.
Proof. vm_cast_no_check (eq_refl true). Qed.

(** three particles; the matcher trusts only the first particle of each scan *)
Definition ex_sm (k : nat) (s : unit) (p : pose R) (m : unit) : outcome (R * pose R * nat) := Ok (if Nat.eqb k 0 then 1 else 0, mkPose 0 0 0, Datatypes.S k).
Definition ex_rv (rv g : unit) : pose R * unit * unit := (mkPose 0 0 0, rv, g).
Definition ex_id (rv : unit) : unit := rv.
Definition ex_adder (m : unit) (_ : pose R) (_ : unit) (_ _ : R) : outcome unit := Ok m.
Definition ex_run := gf_run cos sin ex_rv ex_id tt ex_sm ex_adder.
Definition ex_scan : tr_scan R (unit * (nat -> R)) := mkTS (mkPose 1 0 0) (tt, fun _ => 1 / 2) 1.
Lemma ex_observe maps k x s m : gp_next x = mkPose 0 0 0 -> gp_first x = true -> gp_map x = 0%nat -> nth_error maps 0 = Some m ->
  exists y, gp_observe (G := unit) (RV := unit) ex_rv ex_sm ex_adder maps k x s = Ok (upd maps 0 (fun _ => m), Datatypes.S k, y) /\ gp_weight y = (if Nat.eqb k 0 then 1 else 0) * gp_weight x.
Proof.
  intros N F Em Hm. unfold gp_observe. replace (gp_skips x) with false.
  - rewrite F, Em, Hm. cbn [ex_sm bind]. unfold gp_move. cbn [gp_first gp_map]. rewrite F, Em, orb_true_r. unfold ex_adder. cbn [bind].
    eexists. split; [reflexivity|]. reflexivity.
  - symmetry. unfold gp_skips. apply andb_false_iff. left. apply R_lt_false. rewrite N. unfold delta_sq_dist. cbn [px py dadd dmul ROps]. nra.
Qed.
Lemma ex_resample (h : list (gparticle R unit unit)) x y z : nth_error h 0 = Some x -> nth_error h 1 = Some y -> nth_error h 2 = Some z -> gp_weight x = 1 -> gp_weight y = 0 -> gp_weight z = 0 ->
  exists f', pf_try_resample gp_weight gp_set_weight (gp_duplicate ex_id) (mkPF h [0; 1; 2]%nat) (fun _ => 1 / 2) = Ok (f', true) /\ pf_ptrs f' <> [0; 1; 2]%nat /\
  exists a b, refs (pf_heap f') (pf_ptrs f') [a; b; b] /\ (gp_master x = false -> a = b /\ gp_master b = false) /\ NoDup (pf_ptrs f').
Proof.
  intros Hx Hy Hz Wx Wy Wz.
  assert (F : refs h [0; 1; 2]%nat [x; y; z]) by (repeat constructor; assumption).
  assert (T := try_resample_spec gp_weight gp_set_weight (gp_duplicate (RV := unit) (G := unit) ex_id) (mkPF h [0; 1; 2]%nat) [x; y; z] (fun _ => 1 / 2) F).
  assert (ND : NoDup [0; 1; 2]%nat) by (repeat constructor; cbn; intuition lia). specialize (T ND ltac:(discriminate)).
  assert (RQ : resampling_is_required (map gp_weight [x; y; z]) = true).
  { cbn [map]. rewrite Wx, Wy, Wz. unfold resampling_is_required. cbn [sum_squares length]. apply R_lt_true. cbn [dadd dmul ddiv dofZ ROps Z.of_nat Pos.of_succ_nat Pos.succ]. replace (0 + 1 * 1 + 0 * 0 + 0 * 0) with 1 by ring. lra. }
  rewrite RQ in T. destruct T as (f' & E & ND' & R). exists f'. split; [exact E|].
  assert (RS : resample (map gp_weight [x; y; z]) (fun _ => 1 / 2) = [0; 0; 0]%nat).
  { cbn [map]. rewrite Wx, Wy, Wz. unfold resample. cbn [length seq map draw]. replace (dlt (1 / 2) (dadd (dofZ 0) 1)) with true; [reflexivity|]. symmetry. apply R_lt_true. cbn [dadd dofZ ROps]. lra. }
  cbv zeta in R. rewrite RS in R. cbn [taken nth_error existsb Nat.eqb orb] in R. split; [|eexists _, _; split; [exact R|split; [intros Mx; split; [unfold gp_duplicate, gp_sample, ex_id; cbn; destruct x; cbn in *; subst; reflexivity|reflexivity]|exact ND']]].
  unfold pf_try_resample in E. cbn [pf_heap pf_ptrs] in E. replace (objects h [0; 1; 2]%nat) with (Ok [x; y; z]) in E by (symmetry; apply objects_refs; exact F). cbn [bind] in E. rewrite RQ in E. cbn [negb] in E.
  rewrite RS in E. cbn [take_particles nth_error existsb Nat.eqb orb] in E. unfold deref in E. rewrite Hx in E. cbn [bind] in E. rewrite nth_error_app1 in E by (apply nth_error_Some; congruence). rewrite Hx in E. cbn [bind] in E.
  unfold normalize_weights in E. cbn [pf_heap pf_ptrs] in E. apply bind_Ok_inv in E as (g & E & E'). injection E' as <-. apply bind_Ok_inv in E as (xs & _ & E). apply bind_Ok_inv in E as (h' & _ & E). injection E as <-. cbn [pf_ptrs].
  intros C. injection C as C _. assert (L : (2 < length h)%nat) by (apply nth_error_Some; congruence). lia.
Qed.
Definition fresh (p : gparticle R unit unit) : Prop := gp_next p = mkPose 0 0 0 /\ gp_first p = true /\ gp_map p = 0%nat /\ gp_weight p = 1 / 3.
(** two pointers of the filter to equal particles *)
Definition ex_twins (f : gfilter R unit nat unit unit) : Prop :=
  exists p q b, p <> q /\ In p (pf_ptrs (gf_pf f)) /\ In q (pf_ptrs (gf_pf f)) /\ nth_error (pf_heap (gf_pf f)) p = Some b /\ nth_error (pf_heap (gf_pf f)) q = Some b.
Lemma ex_step x y z : fresh x -> fresh y -> fresh z -> let f0 := mkGF (mkPF [x; y; z] [0; 1; 2]%nat) delta_zero [tt] 0%nat in gf_inv 0 f0 ->
  exists f1, leads cos sin ex_rv ex_id tt ex_sm ex_adder f0 [EScan ex_scan] f1 /\ replaces f0 f1 /\ (gp_master x = false -> ex_twins f1) /\ gf_sm f1 <> 0%nat.
Proof.
  intros Fx Fy Fz f0 I0. set (dl := mkPose 1 0 0).
  destruct (gf_update_inv cos sin 0 f0 dl I0) as (f1 & E1 & I1).
  set (u := gp_update_robot_pose (G := unit) (RV := unit) cos sin dl).
  assert (U : forall q, fresh q -> fresh (u q)) by (intros q H; exact H).
  assert (E1' : gf_update cos sin f0 dl = Ok (mkGF (mkPF [u x; u y; u z] [0; 1; 2]%nat) (pose_add delta_zero (delta_abs dl)) [tt] 0%nat)) by reflexivity.
  rewrite E1 in E1'. assert (Ef : f1 = mkGF (mkPF [u x; u y; u z] [0; 1; 2]%nat) (pose_add delta_zero (delta_abs dl)) [tt] 0%nat) by congruence. clear E1'.
  assert (Gx : gp_master (u x) = gp_master x) by reflexivity.
  apply U in Fx. apply U in Fy. apply U in Fz. revert Gx Fx Fy Fz Ef. generalize (u x) (u y) (u z). intros x1 y1 z1 Gx Fx Fy Fz Ef.
  assert (O : exists f2, gf_observe ex_rv ex_id tt ex_sm ex_adder f1 (mkTS (ts_delta ex_scan) (fst (ts_scan ex_scan)) (ts_quality ex_scan)) (snd (ts_scan ex_scan)) = Ok f2 /\ pf_ptrs (gf_pf f2) <> [0; 1; 2]%nat /\ (gp_master x1 = false -> ex_twins f2) /\ gf_sm f2 <> 0%nat).
  { rewrite Ef. unfold gf_observe. cbn [gf_pf pf_heap pf_ptrs gf_observe_each deref nth_error bind gf_trav gf_maps gf_sm]. set (s := mkTS _ _ _).
    destruct Fx as (Nx & F1 & Mx & Wx), Fy as (Ny & F2 & My & Wy), Fz as (Nz & F3 & Mz & Wz).
    destruct (ex_observe [tt] 0 x1 s tt Nx F1 Mx eq_refl) as (x2 & Ex & Vx). assert (Kx := Ex). apply gp_observe_keeps in Kx as [[Kx _] _]. rewrite Ex. cbn [bind upd nth_error firstn skipn app deref].
    destruct (ex_observe [tt] 1 y1 s tt Ny F2 My eq_refl) as (y2 & Ey & Vy). rewrite Ey. cbn [bind upd nth_error firstn skipn app].
    destruct (ex_observe [tt] 2 z1 s tt Nz F3 Mz eq_refl) as (z2 & Ez & Vz). rewrite Ez. cbn [bind upd nth_error firstn skipn app].
    rewrite Wx in Vx. rewrite Wy in Vy. rewrite Wz in Vz. cbn [Nat.eqb] in Vx, Vy, Vz.
    assert (F : refs [x2; y2; z2] [0; 1; 2]%nat [x2; y2; z2]) by (repeat constructor).
    assert (ND : NoDup [0; 1; 2]%nat) by (repeat constructor; cbn; intuition lia).
    destruct (normalize_spec gp_weight gp_set_weight (mkPF [x2; y2; z2] [0; 1; 2]%nat) [x2; y2; z2] F ND) as (p1 & En & Ep & _ & R1). rewrite En. cbn [bind].
    destruct p1 as [h1 q1]. cbn [pf_ptrs pf_heap] in Ep, R1. subst q1. cbn [map] in R1. set (tot := total_weight _ _) in R1.
    assert (T : tot = 1 / 3) by (unfold tot; cbn [map total_weight]; rewrite Vx, Vy, Vz; cbn [dadd dofZ ROps]; lra).
    inversion R1 as [|? ? ? ? N1 R2]; subst. inversion R2 as [|? ? ? ? N2 R3]; subst. inversion R3 as [|? ? ? ? N3 R4]; subst.
    destruct (ex_resample h1 _ _ _ N1 N2 N3) as (f' & Er & C & (a & b & Ry & Ma & NDf)); [cbn [gp_weight gp_set_weight ddiv ROps]; rewrite T; first [rewrite Vx|rewrite Vy|rewrite Vz]; field ..|].
    unfold gf_try_resample. cbn [gf_trav gf_pf gf_maps gf_sm].
    replace (dle _ _ && _)%bool with false.
    2: { symmetry. apply not_true_is_false. rewrite not_far. intros N. apply N. left. unfold pose_add, delta_abs, delta_zero, ex_scan. cbn [dl px py pth dadd dabs dofZ ROps]. rewrite Rabs_R1, Rabs_R0. lra. }
    change (snd (ts_scan ex_scan)) with (fun _ : nat => 1 / 2). rewrite Er. cbn [bind negb].
    assert (ME : exists g, gf_ensure_master tt f' = Ok g /\ pf_ptrs g = pf_ptrs f' /\ (gp_master x1 = false -> exists p q b, p <> q /\ In p (pf_ptrs f') /\ In q (pf_ptrs f') /\ nth_error (pf_heap g) p = Some b /\ nth_error (pf_heap g) q = Some b)).
    { unfold gf_ensure_master. rewrite (proj2 (objects_refs _ _ _) Ry). cbn [bind].
      destruct f' as [hf pt]. cbn [pf_ptrs pf_heap] in *.
      inversion Ry as [|p0 ? pt0 ? Np0 Ry1 Ep0 El0]. subst pt. inversion Ry1 as [|p1 ? pt1 ? Np1 Ry2 Ep1 El1]. subst pt0. inversion Ry2 as [|p2 ? pt2 ? Np2 Ry3 Ep2 El2]. subst pt1. inversion Ry3. subst pt2.
      apply NoDup_cons_iff in NDf as [Q0 NDf]. apply NoDup_cons_iff in NDf as [Q1 _]. cbn [In] in Q0, Q1.
      destruct (existsb gp_master [a; b; b]) eqn:XM.
      - eexists. split; [reflexivity|]. split; [reflexivity|]. intros M1. exfalso. destruct Ma as [-> Mb]; [cbn [gp_master gp_set_weight]; congruence|]. cbn [existsb] in XM. rewrite Mb in XM. discriminate.
      - destruct (heaviest_ptr_ok gp_weight (mkPF hf [p0; p1; p2]) [a; b; b] Ry ltac:(discriminate)) as (i & q & v & Hq & _). rewrite Hq. cbn [bind]. eexists. split; [reflexivity|]. split; [reflexivity|].
        intros M1. destruct Ma as [-> Mb]; [cbn [gp_master gp_set_weight]; congruence|]. cbn [pf_heap].
        unfold heaviest_ptr in Hq. cbn [pf_heap pf_ptrs] in Hq. rewrite (proj2 (objects_refs _ _ _) Ry) in Hq. cbn [bind map heaviest] in Hq. replace (dlt (gp_weight b) (gp_weight b)) with false in Hq by (symmetry; apply R_lt_false; lra). cbn [nth_error] in Hq. injection Hq as <-.
        exists p0, p1, b. split; [intros ->; intuition|]. split; [left; reflexivity|]. split; [right; left; reflexivity|].
        assert (L2 : (p2 < length hf)%nat) by (apply nth_error_Some; congruence).
        rewrite !HistProofs.upd_nth by exact L2. 
        replace (Nat.eqb p0 p2) with false by (symmetry; apply Nat.eqb_neq; intros ->; apply Q0; right; left; reflexivity).
        replace (Nat.eqb p1 p2) with false by (symmetry; apply Nat.eqb_neq; intros ->; apply Q1; left; reflexivity). auto. }
    destruct ME as (g & -> & Eg & Tg). cbn [bind]. eexists. split; [reflexivity|]. cbn [gf_pf]. rewrite Eg. split; [exact C|]. split; [|discriminate].
    intros M1. destruct (Tg M1) as (p & q & c & A1 & A2 & A3 & A4). exists p, q, c. cbn [gf_pf]. rewrite Eg. auto. }
  destruct O as (f2 & E2 & C & TW & HK). exists f2. split; [|split; [intros H; exact (C H)|split; [intros H; apply TW; rewrite Gx; exact H|exact HK]]]. exists wo_new.
  assert (I2 : gf_inv 0 f2) by (eapply gf_observe_inv; [exact I1|exact E2]). destruct I2 as (xs & R & ND & NE & _ & HM & HL).
  destruct (heaviest_ptr_ok gp_weight (gf_pf f2) xs R NE) as (i & q & v & Eh & _ & _ & Nv & Nq).
  assert (Mv : gp_map v = 0%nat) by (rewrite Forall_forall in HM; apply HM; eapply nth_error_In; eauto).
  assert (Mm : exists m, nth_error (gf_maps f2) 0 = Some m) by (destruct (gf_maps f2); [cbn in HL; lia|eexists; reflexivity]). destruct Mm as [m Mm].
  unfold gf_run. cbn [world_run]. unfold handle_sensor_data. change (ts_delta ex_scan) with dl. rewrite E1. cbn [bind]. change dl with (ts_delta ex_scan). rewrite E2. cbn [bind].
  unfold gf_pose at 1, gf_map at 1. rewrite Eh. cbn [bind]. unfold deref. rewrite Nq. cbn [bind]. rewrite Mv, Mm. cbn [bind]. eexists. eexists. reflexivity.
Qed.
Example C71_case : exists f0 f1, gf_new ex_rv ex_id tt tt tt (fun _ => tt) tt 0%nat 3 = Ok f0 /\ leads cos sin ex_rv ex_id tt ex_sm ex_adder f0 [EScan ex_scan] f1 /\ replaces f0 f1 /\ ex_twins f1 /\ gf_sm f1 <> 0%nat.
Proof.
  destruct (gf_new_inv ex_rv ex_id tt tt tt (fun _ => tt) tt 0%nat 3 ltac:(lia)) as (f0 & E0 & I0 & L0). exists f0.
  assert (E0' := E0). unfold gf_new, pf_new in E0. set (w := @ddiv R ROps _ _) in E0. assert (W : w = 1 / 3) by (unfold w; cbn; lra). clearbody w.
  cbn -[dlt dofZ heaviest_ptr] in E0. apply bind_Ok_inv in E0 as (k & Ek & E0). injection E0 as E0.
  assert (K2 : k = 2%nat).
  { unfold heaviest_ptr in Ek. cbn [pf_heap pf_ptrs objects nth_error deref bind map heaviest gp_weight gp_set_weight gp_sample] in Ek. cbn -[dlt] in Ek. replace (dlt w w) with false in Ek by (symmetry; apply R_lt_false; lra). cbn -[dlt] in Ek. replace (dlt w w) with false in Ek by (symmetry; apply R_lt_false; lra). cbn in Ek. congruence. }
  subst k.
  assert (H : exists x y z, fresh x /\ fresh y /\ fresh z /\ gp_master x = false /\ f0 = mkGF (mkPF [x; y; z] [0; 1; 2]%nat) delta_zero [tt] 0%nat).
  { rewrite <- E0. do 3 eexists; (split; [|split; [|split; [|split; [|reflexivity]]]]); [..|reflexivity]; (split; [reflexivity|]); (split; [reflexivity|]); (split; [reflexivity|exact W]). }
  destruct H as (x & y & z & Fx & Fy & Fz & Nm & E). subst f0. rewrite E in *. destruct (ex_step x y z Fx Fy Fz I0) as (f1 & L & C & T & HK). exists f1. auto 6.
Qed.
