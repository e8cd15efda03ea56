(** C39, C55 in binary64: the accumulated pose and the GMapping odometry step with their rounding errors. *)
From Coq Require Import Reals ZArith List Lia Lra Bool.
From Flocq Require Import Core IEEE754.BinarySingleNaN IEEE754.Binary IEEE754.Bits.
From Verif.Base Require Import Outcome Num F64Facts.
From Verif.Model Require Import MathUtils Geometry Sensor Histogram World ParticleFilter Gmapping.
From Verif.Spec Require Import WorldSpec ParticleSpec LaserFloatSpec.
From Verif.Proofs Require Import TbmFloatProofs MeanFloatProofs ParticleProofs WorldProofs PoseFloatProofs.
Import ListNotations.
Local Open Scope R_scope.
Local Open Scope bool_scope.

(** C39 in binary64.  Whatever the matcher and the adder do: each coordinate of the pose after [n] scans is a finite double,
    off the exact sum of the initial coordinate, the odometry deltas and the corrections by at most [n 2^-51] times the sum of
    their magnitudes. *)
Theorem C39_pose_error_in_binary64 :
  forall (S M SM : Type) (sm_reset : SM -> SM) (sm : SM -> S -> pose F64 -> M -> outcome (F64 * pose F64 * SM))
    (adder : M -> pose F64 -> S -> F64 -> F64 -> outcome M) (q_loc q_raw margin : F64) o (w : ss_world F64 M SM) history o' w' notes
    (coordinate : pose F64 -> F64),
  ss_log w = [] -> ss_run sm_reset sm adder q_loc q_raw margin o w history = Ok (o', w', notes) ->
  In coordinate [px; py; pth] ->
  let n := length (scan_deltas history) in
  let moves := map coordinate (scan_deltas history ++ ss_log w') in
  let start := coordinate (ss_pose w) in
  let size := Rsum (map (fun x => Rabs (F2R64 x)) (start :: moves)) in
  Forall (fun x => F_fin x = true) (start :: moves) -> size <= bpow radix2 1000 -> INR n <= bpow radix2 51 ->
  F_fin (coordinate (ss_pose w')) = true /\
  Rabs (F2R64 (coordinate (ss_pose w')) - Rsum (map (fun x => F2R64 x) (start :: moves))) <= INR n * bpow radix2 (-51) * size.
Proof.
  intros S M SM sm_reset sm adder q_loc q_raw margin o w history o' w' notes co L0 E Hc n moves start size HF HS HN.
  apply ss_run_pose in E as (cs & L & LC & HP). rewrite L0 in L. cbn [app] in L. subst moves. rewrite L in *. fold n in LC.
  assert (HX : co (ss_pose w') = fold_left dadd (map co (interleave (scan_deltas history) cs)) start).
  { rewrite HP. destruct (fold_pose (interleave (scan_deltas history) cs) (ss_pose w)) as (A & B & C).
    destruct Hc as [<-|[<-|[<-|[]]]]; assumption. }
  apply Forall_cons_iff in HF as [F0 F1].
  assert (PS : forall l : list F64, 0 <= Rsum (map (fun x => Rabs (F2R64 x)) l)).
  { clear. unfold Rsum. induction l as [|x l IH]; cbn [map fold_right]; [lra|]. assert (H := Rabs_pos (F2R64 x)). lra. }
  assert (LI : length (map co (interleave (scan_deltas history) cs)) = (2 * n)%nat) by (rewrite map_length, interleave_len by exact LC; reflexivity).
  assert (SA : Rsum (map (fun x => Rabs (F2R64 x)) (map co (interleave (scan_deltas history) cs))) =
    Rsum (map (fun x => Rabs (F2R64 x)) (map co (scan_deltas history ++ cs)))).
  { rewrite !map_map. apply interleave_sum. exact LC. }
  assert (SE : Rsum (map (fun x => F2R64 x) (map co (interleave (scan_deltas history) cs))) =
    Rsum (map (fun x => F2R64 x) (map co (scan_deltas history ++ cs)))).
  { rewrite !map_map. apply interleave_sum. exact LC. }
  assert (FI : Forall (fun x => F_fin x = true) (map co (interleave (scan_deltas history) cs))).
  { apply Forall_map. apply Forall_forall. intros x Hx. apply interleave_In in Hx. rewrite Forall_map, Forall_forall in F1. exact (F1 x Hx). }
  assert (S0 : size = Rabs (F2R64 start) + Rsum (map (fun x => Rabs (F2R64 x)) (map co (scan_deltas history ++ cs)))) by (unfold size; rewrite L; reflexivity).
  destruct (sum_error size (map co (interleave (scan_deltas history) cs)) (conj (PS _) HS) start (F2R64 start) (Rabs (F2R64 start)) 0 F0 FI) as [R1 R2].
  - rewrite Rminus_diag_eq, Rabs_R0 by reflexivity. cbn [INR]. lra.
  - lra.
  - rewrite SA. lra.
  - rewrite LI. cbn [Nat.add]. rewrite mult_INR. change (INR 2) with 2. change 52%Z with (1 + 51)%Z. rewrite bpow_plus. change (bpow radix2 1) with 2. lra.
  - rewrite HX. split; [exact R1|]. rewrite SE in R2. unfold Rsum at 1. cbn [map fold_right].
    fold (Rsum (map (fun x => F2R64 x) (map co (scan_deltas history ++ cs)))).
    eapply Rle_trans; [exact R2|]. rewrite LI. cbn [Nat.add]. rewrite mult_INR. change (INR 2) with 2.
    assert (B : bpow radix2 (-51) = 4 * hh) by (change (-51)%Z with (1 + -52)%Z; rewrite bpow_plus, b52; change (bpow radix2 1) with 2; ring).
    rewrite B. right. ring.
Qed.
Print Assumptions C39_pose_error_in_binary64.

(** C55 in binary64: with a sine and cosine within 2^-52 of the real ones, an odometry step [(x, y, t)] of finite coordinates up to
    [L] moves a particle by the step turned by the difference [a] of the headings of particle and raw odometry, that difference
    being rounded once; each coordinate is off by at most [2^-53 (|old coordinate| + 12 L)] *)
Theorem C55_odometry_step_in_binary64 :
  forall (G RV : Type) (fcos fsin : F64 -> F64) (p : gparticle F64 G RV) (d : pose F64) (L : R),
  accurate fcos cos -> accurate fsin sin ->
  Forall (fun x => F_fin x = true) [px (gp_pose p); py (gp_pose p); pth (gp_pose p); pth (gp_raw p); px d; py d] ->
  Rabs (F2R64 (px (gp_pose p))) <= bpow radix2 1000 -> Rabs (F2R64 (py (gp_pose p))) <= bpow radix2 1000 ->
  Rabs (F2R64 (pth (gp_pose p))) <= bpow radix2 1000 -> Rabs (F2R64 (pth (gp_raw p))) <= bpow radix2 1000 ->
  Rabs (F2R64 (px d)) <= L -> Rabs (F2R64 (py d)) <= L -> bpow radix2 (-1022) <= L <= bpow radix2 900 ->
  let p' := gp_update_robot_pose fcos fsin d p in
  let turn := F2R64 (pth (gp_pose p)) - F2R64 (pth (gp_raw p)) in
  let x := F2R64 (px d) in let y := F2R64 (py d) in
  exists a, Rabs (a - turn) <= bpow radix2 (-53) * Rabs turn /\
    F_fin (px (gp_pose p')) = true /\ F_fin (py (gp_pose p')) = true /\
    Rabs (F2R64 (px (gp_pose p')) - (F2R64 (px (gp_pose p)) + (x * cos a - y * sin a))) <= bpow radix2 (-53) * (Rabs (F2R64 (px (gp_pose p))) + 12 * L) /\
    Rabs (F2R64 (py (gp_pose p')) - (F2R64 (py (gp_pose p)) + (x * sin a + y * cos a))) <= bpow radix2 (-53) * (Rabs (F2R64 (py (gp_pose p))) + 12 * L) /\
    pth (gp_pose p') = dadd (pth (gp_pose p)) (pth d) /\
    gp_raw p' = mkPose (dadd (px (gp_raw p)) (px d)) (dadd (py (gp_raw p)) (py d)) (dadd (pth (gp_raw p)) (pth d)) /\
    gp_weight p' = gp_weight p /\ gp_map p' = gp_map p.
Proof.
  intros G RV fcos fsin p d L AC AS HF B1 B2 B3 B4 Bx By HL p' turn x y.
  repeat match goal with H : Forall _ (_ :: _) |- _ => apply Forall_cons_iff in H as [? H] end.
  assert (NO : no_ovf (F2R64 (pth (gp_pose p)) - F2R64 (pth (gp_raw p)))).
  { apply ovf_1001. change 1001%Z with (1 + 1000)%Z. rewrite bpow_plus. change (bpow radix2 1) with 2.
    replace (F2R64 (pth (gp_pose p)) - F2R64 (pth (gp_raw p))) with (F2R64 (pth (gp_pose p)) + - F2R64 (pth (gp_raw p))) by ring.
    eapply Rle_trans; [apply Rabs_triang|]. rewrite Rabs_Ropp. lra. }
  destruct (F_sub_correct (pth (gp_pose p)) (pth (gp_raw p))) as [Ea Fa]; auto.
  set (a := dsub (pth (gp_pose p)) (pth (gp_raw p))) in *. exists (F2R64 a).
  destruct (AC a Fa) as [Fc Dc]. destruct (AS a Fa) as [Fs Ds]. rewrite b52 in Dc, Ds.
  assert (HC : Rabs (cos (F2R64 a)) <= 1) by (apply Rabs_le; apply COS_bound).
  assert (HS : Rabs (sin (F2R64 a)) <= 1) by (apply Rabs_le; apply SIN_bound).
  split.
  { rewrite Ea. unfold turn, Rminus. apply add_rel_abs; [apply F_fmt|apply fmt_opp; apply F_fmt]. }
  destruct (moved true (px (gp_pose p)) (fcos a) (px d) (fsin a) (py d) (cos (F2R64 a)) (sin (F2R64 a)) L) as [X1 X2]; auto.
  destruct (moved false (py (gp_pose p)) (fsin a) (px d) (fcos a) (py d) (sin (F2R64 a)) (cos (F2R64 a)) L) as [Y1 Y2]; auto.
  split; [exact X1|]. split; [exact Y1|]. split; [|split; [|repeat split]].
  - replace (x * cos (F2R64 a) - y * sin (F2R64 a)) with (cos (F2R64 a) * x + - (sin (F2R64 a) * y)) by ring. exact X2.
  - replace (x * sin (F2R64 a) + y * cos (F2R64 a)) with (sin (F2R64 a) * x + cos (F2R64 a) * y) by ring. exact Y2.
Qed.
Print Assumptions C55_odometry_step_in_binary64.

(** a particle with the raw odometry's heading moves, in doubles, exactly by the odometry step, and keeps that heading *)
Theorem C55_same_heading_in_binary64 :
  forall (G RV : Type) (fcos fsin : F64 -> F64) (p : gparticle F64 G RV) (d : pose F64),
  (forall z : F64, F_fin z = true -> F2R64 z = 0 -> F_fin (fcos z) = true /\ F2R64 (fcos z) = 1 /\ F_fin (fsin z) = true /\ F2R64 (fsin z) = 0) ->
  Forall (fun x => F_fin x = true) [px (gp_pose p); py (gp_pose p); pth (gp_pose p); px d; py d] ->
  pth (gp_pose p) = pth (gp_raw p) ->
  Rabs (F2R64 (px (gp_pose p)) + F2R64 (px d)) <= bpow radix2 1001 -> Rabs (F2R64 (py (gp_pose p)) + F2R64 (py d)) <= bpow radix2 1001 ->
  let p' := gp_update_robot_pose fcos fsin d p in
  F2R64 (px (gp_pose p')) = F2R64 (dadd (px (gp_pose p)) (px d)) /\ F2R64 (py (gp_pose p')) = F2R64 (dadd (py (gp_pose p)) (py d)) /\
  pth (gp_pose p') = dadd (pth (gp_pose p)) (pth d) /\ pth (gp_raw p') = pth (gp_pose p').
Proof.
  intros G RV fcos fsin p d HZ HF HE BX BY p'.
  repeat match goal with H : Forall _ (_ :: _) |- _ => apply Forall_cons_iff in H as [? H] end.
  assert (NO : no_ovf (F2R64 (pth (gp_pose p)) - F2R64 (pth (gp_pose p)))).
  { rewrite Rminus_diag_eq by reflexivity. apply no_ovf_1. lra. }
  destruct (F_sub_correct (pth (gp_pose p)) (pth (gp_pose p))) as [Ea Fa]; auto. rewrite Rminus_diag_eq in Ea by reflexivity.
  assert (R0 : rnd 0 = 0) by (unfold rnd; apply round_0; typeclasses eauto). rewrite R0 in Ea.
  assert (RX : forall x : F64, rnd (F2R64 x) = F2R64 x) by (intros x; apply round_generic; [typeclasses eauto|apply F_fmt]).
  assert (NX : forall x : F64, F_fin x = true -> no_ovf (F2R64 x)) by (intros x Hx; unfold no_ovf; rewrite RX; apply abs_B2R_lt_emax).
  subst p'. unfold gp_update_robot_pose, gp_move. cbn [gp_pose gp_raw px py pth pose_add pose_sub]. rewrite <- HE.
  set (z := dsub (pth (gp_pose p)) (pth (gp_pose p))) in *. destruct (HZ z Fa Ea) as (Fc & Ec & Fs & Es).
  assert (ONE : forall x : F64, F_fin x = true -> F2R64 (dmul (fcos z) x) = F2R64 x /\ F_fin (dmul (fcos z) x) = true).
  { intros x Hx. destruct (F_mul_correct (fcos z) x Fc Hx) as [A B]; rewrite Ec, Rmult_1_l in *; [now apply NX|]. rewrite RX in A. auto. }
  assert (ZERO : forall x : F64, F_fin x = true -> F2R64 (dmul (fsin z) x) = 0 /\ F_fin (dmul (fsin z) x) = true).
  { intros x Hx. destruct (F_mul_correct (fsin z) x Fs Hx) as [A B]; rewrite Es, Rmult_0_l in *; [apply no_ovf_1; lra|]. rewrite R0 in A. auto. }
  destruct (ONE (px d)) as [A1 A2]; auto. destruct (ZERO (py d)) as [A3 A4]; auto.
  destruct (ZERO (px d)) as [A5 A6]; auto. destruct (ONE (py d)) as [A7 A8]; auto.
  destruct (F_sub_correct (dmul (fcos z) (px d)) (dmul (fsin z) (py d))) as [C1 C2]; auto; [rewrite A1, A3, Rminus_0_r; now apply NX|].
  destruct (F_add_correct (dmul (fsin z) (px d)) (dmul (fcos z) (py d))) as [C3 C4]; auto; [rewrite A5, A7, Rplus_0_l; now apply NX|].
  rewrite A1, A3, Rminus_0_r, RX in C1. rewrite A5, A7, Rplus_0_l, RX in C3.
  split; [|split; [|split; reflexivity]].
  - destruct (F_add_correct (px (gp_pose p)) (dsub (dmul (fcos z) (px d)) (dmul (fsin z) (py d)))) as [P1 _]; auto; [rewrite C1; now apply ovf_1001|].
    destruct (F_add_correct (px (gp_pose p)) (px d)) as [Q1 _]; auto; [now apply ovf_1001|]. rewrite P1, Q1, C1. reflexivity.
  - destruct (F_add_correct (py (gp_pose p)) (dadd (dmul (fsin z) (px d)) (dmul (fcos z) (py d)))) as [P1 _]; auto; [rewrite C3; now apply ovf_1001|].
    destruct (F_add_correct (py (gp_pose p)) (py d)) as [Q1 _]; auto; [now apply ovf_1001|]. rewrite P1, Q1, C3. reflexivity.
Qed.
Print Assumptions C55_same_heading_in_binary64.

(** ** cases meeting the hypotheses *)
(** a run of two scans with odometry (1/10, 2, 0) and a matcher that always corrects by (1/3, -1, 1/7) *)
Definition c39_delta : pose F64 := mkPose (dlit 1 10) (dofZ 2) (dofZ 0).
Definition c39_corr : pose F64 := mkPose (dlit 1 3) (dofZ (-1)) (dlit 1 7).
Example C39_binary64_case :
  exists o' w' notes, ss_run (fun u : unit => u) (fun _ (_ : unit) _ (_ : nat) => Ok (dofZ 1, c39_corr, tt)) (fun m _ _ _ _ => Ok (S m))
      (dofZ 1 : F64) (dofZ 1) (dofZ 0) wo_new (mkSS (mkPose (dofZ 5) (dofZ 0) (dofZ 0)) 0%nat tt [])
      [EScan (mkTS c39_delta tt (dofZ 1)); EScan (mkTS c39_delta tt (dofZ 1))] = Ok (o', w', notes) /\
    ss_log w' = [c39_corr; c39_corr] /\
    let all := map px ([c39_delta; c39_delta] ++ ss_log w') in
    Forall (fun x => F_fin x = true) ((dofZ 5 : F64) :: all) /\
    Rsum (map (fun x => Rabs (F2R64 x)) ((dofZ 5 : F64) :: all)) <= bpow radix2 1000 /\ INR 2 <= bpow radix2 51.
Proof.
  eexists _, _, _. split; [reflexivity|]. split; [reflexivity|]. cbv zeta. split; [|split].
  - cbn [map app ss_log]. repeat (apply Forall_cons; [vm_cast_no_check (eq_refl true)|]). apply Forall_nil.
  - assert (G : forall x : F64, (F_fin x && dle x (dofZ 8) && dle (dofZ (-8)) x)%bool = true -> Rabs (F2R64 x) <= 8).
    { intros x H. apply andb_true_iff in H as [H H3]. apply andb_true_iff in H as [H1 H2].
      assert (F8 : F_fin (dofZ 8 : F64) = true /\ F2R64 (dofZ 8) = 8) by (destruct (F_ofZ_correct 8) as [A B]; [lia|split; assumption]).
      assert (F8' : F_fin (dofZ (-8) : F64) = true /\ F2R64 (dofZ (-8)) = -8) by (destruct (F_ofZ_correct (-8)) as [A B]; [lia|split; assumption]).
      destruct F8 as [P1 P2], F8' as [P3 P4]. apply F_le_fin in H2; auto. apply F_le_fin in H3; auto. apply Rabs_le. lra. }
    cbn [map app ss_log].
    assert (A1 := G (dofZ 5) ltac:(vm_cast_no_check (eq_refl true))). assert (A2 := G (px c39_delta) ltac:(vm_cast_no_check (eq_refl true))).
    assert (A3 := G (px c39_corr) ltac:(vm_cast_no_check (eq_refl true))).
    apply Rle_trans with (bpow radix2 6); [|apply bpow_le; lia]. change (bpow radix2 6) with 64.
    change (Rabs (F2R64 (dofZ 5)) + (Rabs (F2R64 (px c39_delta)) + (Rabs (F2R64 (px c39_delta)) + (Rabs (F2R64 (px c39_corr)) + (Rabs (F2R64 (px c39_corr)) + 0)))) <= 64).
    generalize dependent (Rabs (F2R64 (dofZ 5))). generalize dependent (Rabs (F2R64 (px c39_delta))). generalize dependent (Rabs (F2R64 (px c39_corr))).
    clear. intros. lra.
  - change (INR 2) with 2. apply Rle_trans with (bpow radix2 1); [|apply bpow_le; lia]. apply Rle_refl.
Qed.

(** such a sine and cosine exist: the correctly rounded ones *)
Example C55_binary64_case : let fc := fun x : F64 => double_of (cos (F2R64 x)) in let fs := fun x : F64 => double_of (sin (F2R64 x)) in
  accurate fc cos /\ accurate fs sin /\
  (forall z : F64, F_fin z = true -> F2R64 z = 0 -> F_fin (fc z) = true /\ F2R64 (fc z) = 1 /\ F_fin (fs z) = true /\ F2R64 (fs z) = 0).
Proof.
  cbv zeta. split; [|split].
  - apply (rounded_accurate cos). intros x. apply Rabs_le. apply COS_bound.
  - apply (rounded_accurate sin). intros x. apply Rabs_le. apply SIN_bound.
  - intros z Fz Ez. rewrite Ez, cos_0, sin_0. destruct (double_of_correct 1) as [A B]; [apply no_ovf_1; lra|].
    destruct (double_of_correct 0) as [C D]; [apply no_ovf_1; lra|]. rewrite A, C. split; [exact B|]. split; [|split; [exact D|]].
    + apply round_generic; [typeclasses eauto|apply fmt_1].
    + apply round_0; typeclasses eauto.
Qed.
