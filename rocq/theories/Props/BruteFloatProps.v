(** C24 in binary64: brute force matching ends, and when it does not. *)
From Coq Require Import Reals ZArith List Bool Lia Lra.
From Flocq Require Import Core IEEE754.BinarySingleNaN IEEE754.Binary IEEE754.Bits.
From Verif.Base Require Import Outcome Num F64Facts.
From Verif.Model Require Import Matchers Sensor.
From Verif.Spec Require Import MatchSpec BruteFloatSpec.
From Verif.Proofs Require Import CellProofs TbmFloatProofs BruteForceProofs BruteFloatProofs.
From Verif.Props Require Import MatcherProps.
Import ListNotations.
Local Open Scope R_scope.

(** In doubles, with steps not finer than the spacing of doubles at the limits: a fresh matcher ends for every scoring function
    and tests the initial pose and then, around it, the product of three strictly increasing lists of offsets, x changing
    fastest.  Each list begins at its lower limit, keeps to multiples of its step within k half spacings for the k-th value,
    and goes as far as the limit says: x and y until a value reaches it, the rotation as long as values do not exceed it. *)
Theorem C24_brute_force_in_binary64 : forall (cfg : bf_cfg F64) (score : pose F64 -> F64) (obs : observers) (init : pose F64),
  sane_axis (from_x cfg) (to_x cfg) (step_x cfg) -> sane_axis (from_y cfg) (to_y cfg) (step_y cfg) ->
  sane_axis (from_t cfg) (to_t cfg) (step_t cfg) ->
  exists enough r xs ys ts,
    (forall fuel, (enough <= fuel)%nat -> process_scan (bf_enum cfg) score obs fuel (bf_new cfg) init = Ok r) /\
    bf_has_next cfg (mr_enum r) = false /\
    mr_tested r = init :: map (fun o => mkPose (dadd (px init) (px o)) (dadd (py init) (py o)) (dadd (pth init) (pth o)))
                              (flat_map (fun t => flat_map (fun y => map (fun x => mkPose x y t) xs) ys) ts) /\
    (increasing xs /\ keeps_grid (from_x cfg) (to_x cfg) (step_x cfg) xs /\ steps_until (step_x cfg) (to_x cfg) (from_x cfg) xs) /\
    (increasing ys /\ keeps_grid (from_y cfg) (to_y cfg) (step_y cfg) ys /\ steps_until (step_y cfg) (to_y cfg) (from_y cfg) ys) /\
    (increasing ts /\ keeps_grid (from_t cfg) (to_t cfg) (step_t cfg) ts /\ steps_while (step_t cfg) (to_t cfg) (from_t cfg) ts).
Proof.
  intros cfg score obs init Hx Hy Ht.
  destruct (until_ends _ _ _ Hx _ (from_inside _ _ _ Hx)) as (xs & Sx & Gx). apply from_grid in Gx as [Ix Kx].
  destruct (until_ends _ _ _ Hy _ (from_inside _ _ _ Hy)) as (ys & Sy & Gy). apply from_grid in Gy as [Iy Ky].
  destruct (while_ends _ _ _ Ht _ (from_inside _ _ _ Ht)) as (ts & St & Gt). apply from_grid in Gt as [It Kt].
  set (offs := offsets xs ys ts).
  destruct (bf_process cfg score obs xs ys ts (bf_new cfg) init (length offs) Sx Sy St (Nat.le_refl _)) as (r & HR & HT & _ & HN).
  exists (length offs), r, xs, ys, ts. split; [|split; [exact HN|split; [exact HT|auto]]].
  intros fuel Hf. destruct (bf_process cfg score obs xs ys ts (bf_new cfg) init fuel Sx Sy St Hf) as (r' & HR' & _).
  rewrite HR'. f_equal. clear - HR HR' Hf. rewrite process_scan_run in HR, HR'.
  apply bind_Ok_inv in HR. destruct HR as (st & HL & HR). apply bind_Ok_inv in HR'. destruct HR' as (st' & HL' & HR').
  destruct (run_loop_runs _ _ _ _ _ _ HL) as (n & Ln & Rn & Sn).
  rewrite (runs_finish _ _ _ _ _ _ fuel Rn Sn ltac:(lia)) in HL'. injection HL' as <-.
  destruct st as [[[[? ?] ?] ?] ?]. congruence.
Qed.
Print Assumptions C24_brute_force_in_binary64.

(** A positive step finer than that may never end: as soon as adding the rotation step does not change a value within the
    limit.  (The configuration is not checked for it.) *)
Theorem C24_too_fine_rotation_step_never_ends : forall (cfg : bf_cfg F64) score obs init fuel,
  dle (from_t cfg) (to_t cfg) = true -> dadd (from_t cfg) (step_t cfg) = from_t cfg ->
  process_scan (bf_enum cfg) score obs fuel (bf_new cfg) init = OutOfFuel.
Proof.
  intros cfg score obs init fuel H0 Hs. unfold process_scan.
  rewrite (pe_loop_diverges score obs (bf_enum cfg) (fun s => bf_t s = from_t cfg)); [reflexivity| | |reflexivity].
  - intros e He. cbn. unfold bf_has_next. rewrite He. exact H0.
  - intros e p ok He. cbn [e_next e_feedback bf_enum bf_next snd]. unfold bf_feedback. cbn [bf_x bf_y bf_t bf_base].
    destruct (dlt (bf_x e) _); [exact He|]. destruct (dlt (bf_y e) _); cbn [bf_t]; [exact He|]. rewrite He. exact Hs.
Qed.
Print Assumptions C24_too_fine_rotation_step_never_ends.

(** *** both happen: from 1 to 2 with a step of 2^-52, and with a step of 2^-53 (positive, but too fine) *)
Lemma spacing_1 : spacing 1 = bpow radix2 (-52).
Proof. unfold spacing. change 1 with (bpow radix2 0). rewrite ulp_bpow. reflexivity. Qed.
Lemma spacing_2 : spacing 2 = bpow radix2 (-51).
Proof. unfold spacing. change 2 with (bpow radix2 1). rewrite ulp_bpow. reflexivity. Qed.
Example C24_example_sane : sane_axis (dofZ 1) (dofZ 2) (dlit 1 (2 ^ 51)).
Proof.
  destruct (F_ofZ_correct 1 ltac:(cbn; lia)) as [E1 F1]. destruct (F_ofZ_correct 2 ltac:(cbn; lia)) as [E2 F2].
  assert (B1 : bpow radix2 0 <= bpow radix2 1000) by (apply bpow_le; lia). assert (B2 : bpow radix2 1 <= bpow radix2 1000) by (apply bpow_le; lia).
  change (bpow radix2 0) with 1 in B1. change (bpow radix2 1) with 2 in B2.
  assert (V : 1 / IZR (2 ^ 51) = bpow radix2 (-51)) by (change (IZR (2 ^ 51)) with (bpow radix2 51); change (-51)%Z with (- (51))%Z; rewrite bpow_opp; unfold Rdiv; ring).
  assert (L : bpow radix2 (-51) <= bpow radix2 0) by (apply bpow_le; lia). change (bpow radix2 0) with 1 in L. assert (P := bpow_gt_0 radix2 (-51)).
  destruct (F_dlit_correct 1 (2 ^ 51) ltac:(lia) ltac:(lia)) as [E3 F3]; [apply no_ovf_1; rewrite V; lra|].
  rewrite V, rnd_id in E3 by (apply generic_format_bpow; vm_compute; discriminate).
  constructor.
  - auto.
  - rewrite E1, E2, E3, !Rabs_pos_eq by lra. repeat split; lra.
  - rewrite E1, E2, E3, spacing_1, spacing_2. split; [|lra]. apply bpow_le. lia.
Qed.
Example C24_example_too_fine : dlt (dofZ 0) (dlit 1 (2 ^ 53) : F64) = true /\ dle (dofZ 1 : F64) (dofZ 2) = true /\ dadd (dofZ 1) (dlit 1 (2 ^ 53)) = (dofZ 1 : F64).
Proof.
  split; [vm_compute; reflexivity|]. split; [vm_compute; reflexivity|].
  destruct (F_ofZ_correct 1 ltac:(cbn; lia)) as [E1 F1].
  assert (V : 1 / IZR (2 ^ 53) = bpow radix2 (-53)) by (change (IZR (2 ^ 53)) with (bpow radix2 53); change (-53)%Z with (- (53))%Z; rewrite bpow_opp; unfold Rdiv; ring).
  assert (L : bpow radix2 (-53) <= bpow radix2 0) by (apply bpow_le; lia). change (bpow radix2 0) with 1 in L. assert (P := bpow_gt_0 radix2 (-53)).
  assert (W : F2R64 (dlit 1 (2 ^ 53)) = bpow radix2 (-53) /\ F_fin (dlit 1 (2 ^ 53)) = true).
  { unfold dlit. destruct (F_ofZ_correct (2 ^ 53)) as [E F].
    { cbn. lia. }
    destruct (F_div_correct (dofZ 1) (dofZ (2 ^ 53)) F1) as [A B]; [rewrite E; apply not_0_IZR; lia|apply no_ovf_1; rewrite E, E1, V; lra|].
    split; [|exact B]. rewrite A, E, E1, V. apply rnd_id, generic_format_bpow. vm_compute. discriminate. }
  destruct W as [E3 F3].
  assert (Q : rnd (1 + bpow radix2 (-53)) = 1).
  { apply Rle_antisym; [apply rnd_le_1'; unfold hh; lra|apply rnd_ge; [apply fmt_1|lra]]. }
  destruct (F_add_correct (dofZ 1) (dlit 1 (2 ^ 53)) F1 F3) as [A B].
  { rewrite E1, E3. unfold no_ovf. rewrite Q, Rabs_R1. unfold fmax_bound. change 1 with (bpow radix2 0). apply bpow_lt. lia. }
  rewrite E1, E3, Q in A. apply (B2R_inj 53 1024).
  - revert A B. generalize (dadd (dofZ 1) (dlit 1 (2 ^ 53)) : F64). intros x A B. destruct x as [s|s|s pl h|s m e h]; try discriminate B; [unfold F2R64 in A; cbn in A; lra|reflexivity].
  - revert E1 F1. generalize (dofZ 1 : F64). intros x E F. destruct x as [s|s|s pl h|s m e h]; try discriminate F; [unfold F2R64 in E; cbn in E; lra|reflexivity].
  - fold (F2R64 (dadd (dofZ 1) (dlit 1 (2 ^ 53)))) (F2R64 (dofZ 1)). rewrite A. symmetry. exact E1.
Qed.
