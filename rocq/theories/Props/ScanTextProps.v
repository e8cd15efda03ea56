(** C88: a scan or a pose written to a text file and read back. *)
From Coq Require Import Reals ZArith List Bool Lia Lra.
From Flocq Require Import Core IEEE754.BinarySingleNaN IEEE754.Binary IEEE754.Bits.
From Verif.Base Require Import Outcome Num F64Facts.
From Verif.Model Require Import MathUtils Geometry Sensor ScanText.
From Verif.Spec Require Import ScanTextSpec.
From Verif.Proofs Require Import ScanTextProofs.
Import ListNotations.
Local Open Scope R_scope.

(** A recorded scan of numbers loads: as many points, in the same order, with the same flags, each distance and angle
    with the same sign and within 10^-5 of its value; all in polar form and with the default quality. *)
Theorem C88_scan_round_trip_partial : forall (datan2 : F64 -> F64 -> F64) (pts : list (scan_point F64)),
  Forall (sp_finite datan2) pts ->
  exists qs, load_scan (dump_scan datan2 pts) = Ok qs /\ Forall2 (point_about datan2) pts qs.
Proof.
  intros datan2 pts H. exists (map (trip_point datan2) pts). split; [now apply load_scan_finite|].
  induction H as [|p pts Hp _ IH]; constructor; [now apply trip_point_about|exact IH].
Qed.
Print Assumptions C88_scan_round_trip_partial.

(** It is the recorded scan exactly when every point is polar, of default quality, and made of six-digit numbers. *)
Theorem C88_scan_restored_iff : forall (datan2 : F64 -> F64 -> F64) (pts : list (scan_point F64)),
  Forall (sp_finite datan2) pts ->
  (load_scan (dump_scan datan2 pts) = Ok pts <-> Forall exact_point pts).
Proof.
  intros datan2 pts H. rewrite load_scan_finite by exact H. split.
  - intros E. match type of E with Ok ?l = _ => assert (X : l = pts) by congruence end. clear E.
    induction H as [|p pts [H1 H2] _ IH]; [constructor|].
    cbn [map] in X.
    assert (Xp : trip_point datan2 p = p) by congruence.
    assert (Xt : map (trip_point datan2) pts = pts) by congruence. clear X.
    constructor; [|exact (IH Xt)].
    assert (P : sp_polar p = true) by (rewrite <- Xp; reflexivity).
    assert (Fa : sp_factor p = dofZ 1) by (rewrite <- Xp; reflexivity).
    assert (Er : trip (sp_range p) = sp_u p) by (rewrite <- Xp at 2; reflexivity).
    assert (Ea : trip (sp_angle datan2 p) = sp_v p) by (rewrite <- Xp at 2; reflexivity).
    unfold sp_range in *. unfold sp_angle in *. rewrite P in *.
    split; [exact P|]. split; [exact Fa|]. split; apply trip_restores; assumption.
  - intros E. f_equal. induction H as [|p pts [H1 H2] _ IH]; [reflexivity|].
    inversion_clear E as [|? ? Ep Et]. cbn [map]. rewrite (IH Et). f_equal.
    destruct p as [po u v f o]. destruct Ep as [P [Fa [Eu Ev]]]. cbn [sp_polar sp_factor sp_u sp_v] in *. subst po f.
    unfold trip_point, sp_make_polar. cbn [sp_range sp_angle sp_polar sp_u sp_v sp_occ] in *.
    cbn [sp_range sp_angle sp_polar sp_u sp_v] in H1, H2.
    rewrite (proj2 (trip_restores u H1) Eu), (proj2 (trip_restores v H2) Ev). reflexivity.
Qed.
Print Assumptions C88_scan_restored_iff.

(** Further recordings lose nothing more: a loaded scan is the one that is loaded after recording it again. *)
Theorem C88_scan_second_trip : forall (datan2 : F64 -> F64 -> F64) (pts qs : list (scan_point F64)),
  load_scan (dump_scan datan2 pts) = Ok qs -> load_scan (dump_scan datan2 qs) = Ok qs.
Proof.
  intros datan2 pts qs E.
  assert (D : Forall (sp_finite datan2) pts).
  { assert (Dec : forall p, {sp_finite datan2 p} + {~ sp_finite datan2 p}).
    { intros p. unfold sp_finite. destruct (F_fin (sp_range p)), (F_fin (sp_angle datan2 p));
        try (left; split; reflexivity); right; intros [? ?]; discriminate. }
    destruct (Forall_dec (sp_finite datan2) Dec pts) as [D|D]; [exact D|].
    rewrite (load_scan_nonfinite datan2 pts D) in E. discriminate. }
  rewrite (load_scan_finite datan2 pts D) in E.
  match type of E with Ok ?l = _ => assert (X : l = qs) by congruence end. subst qs.
  rewrite load_scan_finite.
  - f_equal. rewrite map_map. apply map_ext_in. intros p Hp. apply trip_point_trip.
    rewrite Forall_forall in D. now apply D.
  - rewrite Forall_forall in *. intros q Hq. apply in_map_iff in Hq. destruct Hq as [p [<- Hp]].
    apply trip_point_finite. now apply D.
Qed.
Print Assumptions C88_scan_second_trip.

(** A scan with an infinite or undefined distance or angle cannot be loaded: reading its file uses a flag that was never
    given a value. *)
Theorem C88_undefined_value_refuted : forall (datan2 : F64 -> F64 -> F64) (pts : list (scan_point F64)),
  ~ Forall (sp_finite datan2) pts -> load_scan (dump_scan datan2 pts) = UB.
Proof. apply load_scan_nonfinite. Qed.
Print Assumptions C88_undefined_value_refuted.

(** A recorded file that is cut short between two words: cut before the first word it silently loads as a scan without
    points, anywhere else the loader uses a flag that was never given a value. *)
Theorem C88_scan_file_cut_short : forall (datan2 : F64 -> F64 -> F64) (pts : list (scan_point F64)) (k : nat),
  (k < length (dump_scan datan2 pts))%nat ->
  load_scan (firstn k (dump_scan datan2 pts)) = if (k =? 0)%nat then Ok [] else UB.
Proof.
  intros datan2 pts k Hk. rewrite dump_scan_length in Hk. destruct k as [|k]; [reflexivity|].
  unfold load_scan, dump_scan, read_scan, write_scan. cbn [firstn read_count is_good is_rest].
  rewrite Nat2Z.id, read_points_short by lia. reflexivity.
Qed.
Print Assumptions C88_scan_file_cut_short.

(** A recorded pose of numbers loads with the same signs and each coordinate within 10^-5 of its value; it is exactly the
    recorded one when, and only when, its coordinates are six-digit numbers. *)
Theorem C88_pose_round_trip : forall p : pose F64, pose_finite p ->
  about (px p) (px (load_pose (dump_pose p))) /\ about (py p) (py (load_pose (dump_pose p))) /\
  about (pth p) (pth (load_pose (dump_pose p))) /\
  (load_pose (dump_pose p) = p <-> six_digit_double (px p) /\ six_digit_double (py p) /\ six_digit_double (pth p)) /\
  load_pose (dump_pose (load_pose (dump_pose p))) = load_pose (dump_pose p).
Proof.
  assert (L : forall p : pose F64, pose_finite p -> load_pose (dump_pose p) = mkPose (trip (px p)) (trip (py p)) (trip (pth p))).
  { intros p [Hx [Hy Ht]]. unfold load_pose, dump_pose.
    rewrite (read_printed _ _ _ Hx), (read_printed _ _ _ Hy), (read_printed _ _ _ Ht). reflexivity. }
  intros p Hp. rewrite (L p Hp). destruct Hp as [Hx [Hy Ht]]. cbn [px py pth].
  split; [now apply trip_about|]. split; [now apply trip_about|]. split; [now apply trip_about|]. split.
  - rewrite <- (trip_restores _ Hx), <- (trip_restores _ Hy), <- (trip_restores _ Ht).
    destruct p as [x y t]; cbn [px py pth] in *. split.
    + intros E. assert (Ex : trip x = x) by congruence. assert (Ey : trip y = y) by congruence.
      assert (Et : trip t = t) by congruence. auto.
    + intros [-> [-> ->]]. reflexivity.
  - rewrite L by (split; [|split]; apply trip_correct; assumption). cbn [px py pth].
    rewrite (trip_stable _ Hx), (trip_stable _ Hy), (trip_stable _ Ht). reflexivity.
Qed.
Print Assumptions C88_pose_round_trip.

(** A pose with a coordinate that is not a number loads without any error, with zero for that coordinate and for all that
    follow it. *)
Theorem C88_undefined_pose_refuted : forall p : pose F64,
  (F_fin (px p) = false -> load_pose (dump_pose p) = mkPose (dofZ 0) (dofZ 0) (dofZ 0)) /\
  (F_fin (px p) = true -> F_fin (py p) = false ->
     exists x, load_pose (dump_pose p) = mkPose x (dofZ 0) (dofZ 0) /\ about (px p) x) /\
  (F_fin (px p) = true -> F_fin (py p) = true -> F_fin (pth p) = false ->
     exists x y, load_pose (dump_pose p) = mkPose x y (dofZ 0) /\ about (px p) x /\ about (py p) y).
Proof.
  intros p. split; [|split].
  - intros Hx. unfold load_pose, dump_pose. rewrite (print_nonfin _ _ _ Hx). reflexivity.
  - intros Hx Hy. exists (trip (px p)). split; [|now apply trip_about].
    unfold load_pose, dump_pose. rewrite (read_printed _ _ _ Hx), (print_nonfin _ _ _ Hy). reflexivity.
  - intros Hx Hy Ht. exists (trip (px p)), (trip (py p)). split; [|split; now apply trip_about].
    unfold load_pose, dump_pose.
    rewrite (read_printed _ _ _ Hx), (read_printed _ _ _ Hy), (print_nonfin _ _ _ Ht). reflexivity.
Qed.
Print Assumptions C88_undefined_pose_refuted.

(** One third, as a double *)
Definition third : F64 := dlit 1 3.

Lemma third_value : 22369621 * bpow radix2 (-26) <= F2R64 third <= 22369622 * bpow radix2 (-26) /\ F_fin third = true.
Proof.
  destruct (F_dlit_correct 1 3 ltac:(lia) ltac:(lia) ltac:(apply no_ovf_1; lra)) as [E F]. split; [|exact F].
  unfold third. rewrite E.
  assert (B : bpow radix2 (-26) = / 67108864) by reflexivity.
  apply rnd_between.
  - apply generic_format_FLT. exists (Float radix2 22369621 (-26)); [reflexivity|cbn; lia|cbn; lia].
  - apply generic_format_FLT. exists (Float radix2 22369622 (-26)); [reflexivity|cbn; lia|cbn; lia].
  - rewrite B. lra.
Qed.

(** The recorded scan is in general not the one that is loaded: a distance of one third is not restored. *)
Theorem C88_scan_not_restored_refuted : forall (datan2 : F64 -> F64 -> F64) (occ : bool),
  let pts := [sp_make_polar third (dofZ 0) occ] in
  Forall (sp_finite datan2) pts /\ load_scan (dump_scan datan2 pts) <> Ok pts.
Proof.
  intros datan2 occ pts. destruct third_value as [B F].
  assert (Fi : Forall (sp_finite datan2) pts).
  { constructor; [|constructor]. split; [exact F|reflexivity]. }
  split; [exact Fi|]. rewrite C88_scan_restored_iff by exact Fi. intros E.
  inversion_clear E as [|? ? Ep _]. destruct Ep as [_ [_ [[d [Hd Er]] _]]]. cbn [pts sp_make_polar sp_u] in Er.
  (* such a decimal would have an integer number of millionths *)
  assert (B26 : bpow radix2 (-26) = / 67108864) by reflexivity. rewrite B26 in B.
  assert (Dd : 0.3333332 < d < 0.3333334).
  { assert (A := rnd_nearest d).
    split.
    - destruct (Rlt_or_le 0.3333332 d) as [L|L]; [exact L|]. exfalso.
      assert (W : rnd d <= 22369620 * / 67108864).
      { apply rnd_le_fmt; [|lra]. rewrite <- B26. apply generic_format_FLT.
        exists (Float radix2 22369620 (-26)); [reflexivity|cbn; lia|cbn; lia]. }
      lra.
    - destruct (Rlt_or_le d 0.3333334) as [L|L]; [exact L|]. exfalso.
      assert (W : 22369623 * / 67108864 <= rnd d).
      { apply rnd_ge; [|lra]. rewrite <- B26. apply generic_format_FLT.
        exists (Float radix2 22369623 (-26)); [reflexivity|cbn; lia|cbn; lia]. }
      lra. }
  apply six_digits_format in Hd.
  assert (M : mag radix10 d = 0%Z :> Z).
  { apply mag_unique. rewrite Rabs_pos_eq by lra.
    assert (B1 : bpow radix10 (0 - 1) = / 10) by reflexivity. rewrite B1. change (bpow radix10 0) with 1. lra. }
  unfold generic_format in Hd. set (m := Ztrunc (scaled_mantissa radix10 exp6 d)) in Hd.
  unfold F2R in Hd; cbn [Fnum Fexp] in Hd. unfold cexp, exp6, FLX_exp in Hd. rewrite M in Hd.
  assert (B6 : bpow radix10 (0 - 6) = / 1000000) by reflexivity. rewrite B6 in Hd.
  assert (L1 : IZR 333333 < IZR m) by lra.
  assert (L2 : IZR m < IZR 333334) by lra.
  apply lt_IZR in L1, L2. lia.
Qed.
Print Assumptions C88_scan_not_restored_refuted.

(** Cases meeting the hypotheses: a scan whose numbers have few digits is restored, negative zero included; a scan with an
    undefined distance is not a scan of numbers. *)
Lemma six_Z (z : Z) : (Z.abs z < 1000000)%Z -> six_digit_double (dofZ z).
Proof.
  intros H. exists (IZR z). split; [exists z, 0%Z; split; [exact H|reflexivity]|].
  destruct (F_ofZ_correct z ltac:(lia)) as [E _]. rewrite E. symmetry. apply rnd_id, fmt_IZR. lia.
Qed.
Lemma fin_Z (z : Z) : (Z.abs z < 1000000)%Z -> F_fin (dofZ z) = true.
Proof. intros H. destruct (F_ofZ_correct z ltac:(lia)) as [_ E]. exact E. Qed.
Lemma six_half : six_digit_double (dlit 1 2) /\ F_fin (dlit 1 2 : F64) = true.
Proof.
  destruct (F_dlit_correct 1 2 ltac:(lia) ltac:(lia) ltac:(apply no_ovf_1; lra)) as [E F]. split; [|exact F].
  exists (IZR 1 / IZR 2). split; [|exact E]. exists 5%Z, (-1)%Z. split; [lia|].
  change (Pos.to_nat 1) with 1%nat. lra.
Qed.

Example C88_case : forall datan2 : F64 -> F64 -> F64,
  let pts := [sp_make_polar (dofZ 30) (dlit 1 2) true; sp_make_polar (dofZ 12) (dofZ (-3)) false] in
  Forall (sp_finite datan2) pts /\ load_scan (dump_scan datan2 pts) = Ok pts /\
  ~ Forall (sp_finite datan2) [sp_make_polar (ddiv (dofZ 0) (dofZ 0)) (dofZ 1) true] /\
  pose_finite (mkPose (dofZ 3) (dlit 1 2) (dofZ (-3))) /\
  load_pose (dump_pose (mkPose (dofZ 3) (dlit 1 2) (dofZ (-3)))) = mkPose (dofZ 3) (dlit 1 2) (dofZ (-3)).
Proof.
  intros datan2 pts.
  assert (Fi : Forall (sp_finite datan2) pts).
  { repeat constructor; try apply fin_Z; try apply six_half; lia. }
  assert (Pf : pose_finite (mkPose (dofZ 3) (dlit 1 2) (dofZ (-3)))).
  { split; [|split]; cbn [px py pth]; try apply fin_Z; try apply six_half; lia. }
  split; [exact Fi|]. split.
  - apply C88_scan_restored_iff; [exact Fi|].
    repeat constructor; cbn [sp_make_polar sp_u sp_v]; try apply six_Z; try apply six_half; lia.
  - split.
    + intros H. inversion_clear H as [|? ? [H1 _] _].
      revert H1. vm_compute. discriminate.
    + split; [exact Pf|]. apply C88_pose_round_trip; [exact Pf|].
      cbn [px py pth]. split; [apply six_Z; lia|]. split; [apply six_half|apply six_Z; lia].
Qed.
