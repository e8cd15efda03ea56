(** Laser messages and the table of sines on floats and doubles: proofs. *)
From Coq Require Import Reals ZArith List Lia Lra Bool.
From Flocq Require Import Core IEEE754.BinarySingleNaN IEEE754.Binary IEEE754.Bits.
From Verif.Base Require Import Outcome Num F64Facts.
From Verif.Model Require Import MathUtils Geometry Sensor Trig LaserObserver Render LaserFloat.
From Verif.Spec Require Import LaserFloatSpec.
From Verif.Proofs Require Import RenderProofs.
Import ListNotations.
Local Open Scope R_scope.

Lemma widen_correct (x : F32) : fin32 x -> F2R64 (widen x) = F2R32 x /\ F_fin (widen x) = true.
Proof.
  intros Fx. destruct x as [s|s|s pl P|s m e P]; try discriminate Fx; [split; reflexivity|].
  assert (E : F2R32 (B754_finite 24 128 s m e P) = F2R (Float radix2 (if s then Zneg m else Zpos m) e)) by (destruct s; reflexivity).
  assert (G : generic_format radix2 (FLT_exp (-149) 24) (F2R32 (B754_finite 24 128 s m e P))) by apply generic_format_B2R.
  assert (B := abs_B2R_lt_emax 24 128 (B754_finite 24 128 s m e P)).
  assert (G64 : fmt64 (F2R32 (B754_finite 24 128 s m e P))).
  { apply generic_inclusion_mag with (fexp1 := FLT_exp (-149) 24); [|exact G]. intros _. unfold fexp64, FLT_exp. lia. }
  assert (C := binary_normalize_correct 53 1024 eq_refl eq_refl mode_NE (if s then Zneg m else Zpos m) e s).
  rewrite <- E in C.
  match type of C with context [round ?r ?f ?md (F2R32 ?x)] => change (round r f md (F2R32 x)) with (rnd (F2R32 x)) in C end.
  rewrite (rnd_id _ G64) in C.
  rewrite Rlt_bool_true in C.
  - destruct C as (C1 & C2 & _). split; [exact C1|exact C2].
  - eapply Rlt_trans; [exact B|]. apply bpow_lt. lia.
Qed.

Lemma rnd32_abs_err e x : (-149 + 24 <= e)%Z -> Rabs x < bpow radix2 e -> Rabs (rnd32 x - x) <= / 2 * bpow radix2 (e - 24).
Proof.
  intros He Hx. eapply Rle_trans; [apply error_le_half_ulp; apply FLT_exp_valid; reflexivity|]. apply Rmult_le_compat_l; [lra|].
  destruct (Req_dec x 0) as [->|N].
  - rewrite (@ulp_FLT_0 radix2 (-149) 24 eq_refl). apply bpow_le. lia.
  - rewrite ulp_neq_0 by exact N. apply bpow_le. unfold cexp, FLT_exp. assert (mag radix2 x <= e)%Z by (apply mag_le_bpow; assumption). lia.
Qed.
Lemma rnd32_small8 x : Rabs x <= 8 -> Rabs (rnd32 x) < bpow radix2 128.
Proof. intros H. apply rnd32_small. eapply Rle_trans; [exact H|]. change 8 with (bpow radix2 3). apply bpow_le. lia. Qed.

Lemma minus32 (x y : F32) : fin32 x -> fin32 y -> Rabs (F2R32 x - F2R32 y) <= 8 ->
  fin32 (b32_minus mode_NE x y) /\ Rabs (F2R32 (b32_minus mode_NE x y) - (F2R32 x - F2R32 y)) <= bpow radix2 (-21).
Proof.
  intros Fx Fy H. assert (C := Bminus_correct 24 128 eq_refl eq_refl binop_nan_pl32 mode_NE x y Fx Fy).
  fold (F2R32 x) in C. fold (F2R32 y) in C.
  match type of C with context [round ?r ?f ?md (F2R32 x - F2R32 y)] =>
    change (round r f md (F2R32 x - F2R32 y)) with (rnd32 (F2R32 x - F2R32 y)) in C end.
  rewrite Rlt_bool_true in C by (apply rnd32_small8; exact H). destruct C as (C1 & C2 & _).
  split; [exact C2|]. unfold F2R32 at 1. unfold b32_minus. rewrite C1.
  eapply Rle_trans; [apply (rnd32_abs_err 4); [lia|]|].
  - eapply Rle_lt_trans; [exact H|]. cbn. lra.
  - right. cbn. lra.
Qed.
Lemma plus32 (x y : F32) : fin32 x -> fin32 y -> Rabs (F2R32 x + F2R32 y) <= 8 ->
  fin32 (b32_plus mode_NE x y) /\ Rabs (F2R32 (b32_plus mode_NE x y) - (F2R32 x + F2R32 y)) <= bpow radix2 (-21).
Proof.
  intros Fx Fy H. assert (C := Bplus_correct 24 128 eq_refl eq_refl binop_nan_pl32 mode_NE x y Fx Fy).
  fold (F2R32 x) in C. fold (F2R32 y) in C.
  match type of C with context [round ?r ?f ?md (F2R32 x + F2R32 y)] =>
    change (round r f md (F2R32 x + F2R32 y)) with (rnd32 (F2R32 x + F2R32 y)) in C end.
  rewrite Rlt_bool_true in C by (apply rnd32_small8; exact H). destruct C as (C1 & C2 & _).
  split; [exact C2|]. unfold F2R32 at 1. unfold b32_plus. rewrite C1.
  eapply Rle_trans; [apply (rnd32_abs_err 4); [lia|]|].
  - eapply Rle_lt_trans; [exact H|]. cbn. lra.
  - right. cbn. lra.
Qed.

(** *** repeated additions *)
Fixpoint iter (inc x : F64) (k : nat) : F64 := match k with O => x | S k => dadd (iter inc x k) inc end.
Lemma iter_shift inc x k : iter inc (dadd x inc) k = iter inc x (S k).
Proof. induction k as [|k IH]; [reflexivity|]. cbn [iter] in *. now rewrite IH. Qed.

Lemma small_no_ovf e r : (e <= 1000)%Z -> (-1074 <= e)%Z -> Rabs r <= bpow radix2 e -> no_ovf r.
Proof. intros He He2 H. apply (no_ovf_le (bpow radix2 e)); [now apply fmt_bpow| |exact H]. apply bpow_lt. lia. Qed.

Lemma iter_err (inc x : F64) (n : nat) : F_fin inc = true -> F_fin x = true -> Rabs (F2R64 x) <= 9 ->
  INR n * Rabs (F2R64 inc) <= 20 -> (Z.of_nat n <= 2 ^ 24)%Z -> forall k, (k <= n)%nat ->
  F_fin (iter inc x k) = true /\ Rabs (F2R64 (iter inc x k) - (F2R64 x + INR k * F2R64 inc)) <= INR k * bpow radix2 (-49).
Proof.
  intros Fi Fx Hx Hn HN k. induction k as [|k IH]; intros Hk.
  - split; [exact Fx|]. cbn [iter INR]. rewrite !Rmult_0_l, Rplus_0_r, Rminus_diag_eq, Rabs_R0 by reflexivity. lra.
  - destruct IH as [F E]; [lia|]. cbn [iter].
    assert (K : INR k <= bpow radix2 24).
    { change (bpow radix2 24) with (IZR (2 ^ 24)). rewrite INR_IZR_INZ. apply IZR_le. lia. }
    assert (K0 := pos_INR k).
    assert (SK : INR (S k) <= INR n) by (apply le_INR; lia). rewrite S_INR in SK.
    assert (A : Rabs (INR (S k) * F2R64 inc) <= 20).
    { rewrite Rabs_mult, Rabs_pos_eq by apply pos_INR. rewrite S_INR.
      apply Rle_trans with (INR n * Rabs (F2R64 inc)); [|exact Hn]. apply Rmult_le_compat_r; [apply Rabs_pos|exact SK]. }
    assert (Eb : INR k * bpow radix2 (-49) <= 1).
    { apply Rle_trans with (bpow radix2 24 * bpow radix2 (-49)); [apply Rmult_le_compat_r; [apply bpow_ge_0|exact K]|].
      rewrite <- bpow_plus. change 1 with (bpow radix2 0). apply bpow_le. lia. }
    assert (E1 := Rabs_le_inv _ _ E). assert (A1 := Rabs_le_inv _ _ A). assert (X1 := Rabs_le_inv _ _ Hx). rewrite S_INR in A1.
    assert (S : Rabs (F2R64 (iter inc x k) + F2R64 inc) < bpow radix2 5) by (apply Rabs_lt; cbn; lra).
    assert (O : no_ovf (F2R64 (iter inc x k) + F2R64 inc)) by (apply (small_no_ovf 5); [lia|lia|lra]).
    destruct (F_add_correct _ _ F Fi O) as [V F']. split; [exact F'|]. rewrite V.
    assert (R := rnd_err 5 _ ltac:(lia) S). change (5 - 53)%Z with (-48)%Z in R.
    replace (/ 2 * bpow radix2 (-48)) with (bpow radix2 (-49)) in R by (cbn; lra).
    rewrite S_INR. set (u := bpow radix2 (-49)) in *. apply Rabs_le. apply Rabs_le_inv in R. lra.
Qed.
Lemma iter_err_small (inc x : F64) (n : nat) : F_fin inc = true -> F_fin x = true -> Rabs (F2R64 x) <= 9 ->
  INR n * Rabs (F2R64 inc) <= 20 -> (Z.of_nat n <= 2 ^ 24)%Z -> forall k, (k <= n)%nat ->
  F_fin (iter inc x k) = true /\ Rabs (F2R64 (iter inc x k) - (F2R64 x + INR k * F2R64 inc)) <= bpow radix2 (-25).
Proof.
  intros Fi Fx Hx Hn HN k Hk. destruct (iter_err inc x n Fi Fx Hx Hn HN k Hk) as [F E]. split; [exact F|].
  eapply Rle_trans; [exact E|]. replace (bpow radix2 (-25)) with (bpow radix2 24 * bpow radix2 (-49)) by (rewrite <- bpow_plus; f_equal; lia).
  apply Rmult_le_compat_r; [apply bpow_ge_0|]. change (bpow radix2 24) with (IZR (2 ^ 24)). rewrite INR_IZR_INZ. apply IZR_le. lia.
Qed.

(** *** the points of a message *)
Definition beam_angles (inc x : F64) (n : nat) : list F64 := map (fun i => iter inc x (S i)) (seq 0 n).
Lemma msg_points_spec (m : laser_msg32) (skip : bool) : forall ranges x,
  msg_points (widen_msg m) skip (map widen ranges) x =
  (flat_map (fun ar => beam_point (widen (l_rmin m)) (widen (l_rmax m)) skip (fst ar) (widen (snd ar)))
     (combine (beam_angles (widen (l_inc m)) x (length ranges)) ranges),
   iter (widen (l_inc m)) x (length ranges)).
Proof.
  induction ranges as [|r l IH]; intros x; [reflexivity|].
  assert (B : beam_angles (widen (l_inc m)) x (length (r :: l)) =
              dadd x (widen (l_inc m)) :: beam_angles (widen (l_inc m)) (dadd x (widen (l_inc m))) (length l)).
  { unfold beam_angles. cbn [length seq map]. f_equal. rewrite <- seq_shift, map_map. apply map_ext. intros i.
    symmetry. apply iter_shift. }
  rewrite B. cbn [map msg_points]. change (lm_inc (widen_msg m)) with (widen (l_inc m)).
  change (lm_rmin (widen_msg m)) with (widen (l_rmin m)). change (lm_rmax (widen_msg m)) with (widen (l_rmax m)).
  rewrite IH. cbn [combine flat_map fst snd]. rewrite iter_shift. cbn [length].
  match goal with |- context [flat_map ?f ?c] => set (rest := flat_map f c) end. unfold beam_point.
  destruct (dlt (widen r) (widen (l_rmin m))); [reflexivity|].
  destruct (dle (widen (l_rmax m)) (widen r)); [destruct skip; reflexivity|reflexivity].
Qed.

Lemma start_angle (m : laser_msg32) : plain_fan m ->
  let x := widen (b32_minus mode_NE (l_amin m) (l_inc m)) in
  F_fin x = true /\ Rabs (F2R64 x - (F2R32 (l_amin m) - F2R32 (l_inc m))) <= bpow radix2 (-21) /\ Rabs (F2R64 x) <= 9.
Proof.
  intros (F1 & F2 & F3 & B1 & B2 & B3 & _) x.
  apply Rabs_le_inv in B1. apply Rabs_le_inv in B3.
  destruct (minus32 (l_amin m) (l_inc m) F1 F3) as [F E]; [apply Rabs_le; lra|].
  destruct (widen_correct _ F) as [V Fv]. unfold x. split; [exact Fv|]. rewrite V. split; [exact E|].
  apply Rabs_le_inv in E. assert (bpow radix2 (-21) <= 1) by (change 1 with (bpow radix2 0); apply bpow_le; lia). apply Rabs_le. lra.
Qed.

Lemma beam_angle_close (m : laser_msg32) : plain_fan m -> forall i, (i <= length (l_ranges m))%nat ->
  let a := iter (widen (l_inc m)) (widen (b32_minus mode_NE (l_amin m) (l_inc m))) i in
  F_fin a = true /\ Rabs (F2R64 a - (F2R32 (l_amin m) + (INR i - 1) * F2R32 (l_inc m))) <= bpow radix2 (-20).
Proof.
  intros H i Hi a. destruct (start_angle m H) as (Fs & Es & Bs). destruct H as (F1 & F2 & F3 & B1 & B2 & B3 & B4 & B5).
  destruct (widen_correct _ F3) as [V Fv].
  destruct (iter_err_small (widen (l_inc m)) _ (length (l_ranges m)) Fv Fs Bs ltac:(rewrite V; lra) B5 i Hi) as [F E].
  split; [exact F|]. rewrite V in E. fold a in E. apply Rabs_le_inv in E. apply Rabs_le_inv in Es.
  assert (bpow radix2 (-25) + bpow radix2 (-21) <= bpow radix2 (-20)) by (cbn; lra). apply Rabs_le. lra.
Qed.

(** *** the check of the last angle *)
Definition eps0 : F64 := deg2rad f_pi (dlit 1 1000).
Lemma dyadic (n : Z) : (Z.abs n <= 2 ^ 53)%Z -> F_fin (dlit n (2 ^ 30) : F64) = true -> F2R64 (dlit n (2 ^ 30)) = IZR n * bpow radix2 (-30).
Proof.
  intros H _. destruct (F_dlit_correct n (2 ^ 30) H ltac:(lia)) as [V _].
  { apply (small_no_ovf 53); [lia|lia|]. unfold Rdiv. rewrite Rabs_mult, <- abs_IZR. rewrite (Rabs_pos_eq (/ _)) by (left; apply Rinv_0_lt_compat; apply IZR_lt; lia).
    apply Rle_trans with (IZR (2 ^ 53) * 1); [|rewrite Rmult_1_r; right; reflexivity]. apply Rmult_le_compat; [apply IZR_le; lia|left; apply Rinv_0_lt_compat; apply IZR_lt; lia|apply IZR_le; exact H|].
    rewrite <- Rinv_1. apply Rinv_le; [lra|]. apply IZR_le. lia. }
  rewrite V.
  change (IZR n * bpow radix2 (-30)) with (F2R (Float radix2 n (-30))).
  replace (IZR n / IZR (2 ^ 30)) with (F2R (Float radix2 n (-30))).
  2:{ unfold F2R. cbn [Fnum Fexp]. change (bpow radix2 (-30)) with (/ IZR (2 ^ 30)). reflexivity. }
  destruct (Z.eq_dec (Z.abs n) (2 ^ 53)) as [E|N].
  - assert (G : fmt64 (bpow radix2 23)) by (apply fmt_bpow; lia).
    assert (X : F2R (Float radix2 n (-30)) = bpow radix2 23 \/ F2R (Float radix2 n (-30)) = - bpow radix2 23).
    { unfold F2R. cbn [Fnum Fexp]. assert (Y : n = (2 ^ 53)%Z \/ n = (- 2 ^ 53)%Z) by lia. destruct Y as [-> | ->]; [left|right].
      - change (IZR (2 ^ 53)) with (bpow radix2 53). rewrite <- bpow_plus. reflexivity.
      - rewrite opp_IZR. change (IZR (2 ^ 53)) with (bpow radix2 53). rewrite Ropp_mult_distr_l_reverse, <- bpow_plus. reflexivity. }
    destruct X as [-> | ->]; apply rnd_id; [exact G|now apply fmt_opp].
  - apply rnd_id. apply generic_format_FLT. exists (Float radix2 n (-30)); cbn [Fnum Fexp]; [reflexivity| |lia].
    change (Z.abs n < 2 ^ 53)%Z. lia.
Qed.
Lemma eps0_bounds : F_fin eps0 = true /\ 174 / 10000000 <= F2R64 eps0 <= 175 / 10000000.
Proof.
  assert (F : F_fin eps0 = true) by (vm_compute; reflexivity). split; [exact F|].
  assert (F1 : F_fin (dlit 18684 (2 ^ 30) : F64) = true) by (vm_compute; reflexivity).
  assert (F2 : F_fin (dlit 18790 (2 ^ 30) : F64) = true) by (vm_compute; reflexivity).
  assert (L1 : dlt (dlit 18684 (2 ^ 30)) eps0 = true) by (vm_compute; reflexivity).
  assert (L2 : dlt eps0 (dlit 18790 (2 ^ 30)) = true) by (vm_compute; reflexivity).
  apply (F_lt_fin _ _ F1 F) in L1. apply (F_lt_fin _ _ F F2) in L2.
  rewrite (dyadic 18684 ltac:(lia) F1) in L1. rewrite (dyadic 18790 ltac:(lia) F2) in L2.
  change (bpow radix2 (-30)) with (/ 1073741824) in *. lra.
Qed.

(** *** rounding to the index *)
Lemma round_int_close (x : F64) (k : Z) : F_fin x = true -> (0 <= k <= 2 ^ 30)%Z -> Rabs (F2R64 x - IZR k) <= / 4 -> round_int x = Ok k.
Proof.
  intros F Hk H. unfold round_int. rewrite (F_floor_correct _ F).
  apply Rabs_le_inv in H. set (v := F2R64 x) in *.
  assert (Hf : Zfloor v = k /\ IZR k <= v \/ Zfloor v = (k - 1)%Z /\ v < IZR k).
  { destruct (Rle_or_lt (IZR k) v) as [L|L]; [left|right]; (split; [|exact L]); apply Zfloor_imp.
    - rewrite plus_IZR. lra.
    - replace (k - 1 + 1)%Z with k by lia. rewrite minus_IZR. lra. }
  assert (HV : forall f, (Z.abs f <= 2 ^ 31)%Z -> F2R64 (dadd (dofZ f) (dlit 1 2)) = IZR f + / 2 /\ F_fin (dadd (dofZ f) (dlit 1 2) : F64) = true).
  { intros f Hz. destruct (F_ofZ_correct f ltac:(lia)) as [Vf Ff].
    assert (Fh : F_fin (dlit 1 2 : F64) = true) by (vm_compute; reflexivity).
    assert (Vh : F2R64 (dlit 1 2) = / 2).
    { destruct (F_dlit_correct 1 2 ltac:(lia) ltac:(lia)) as [W _]; [apply no_ovf_1; lra|]. rewrite W.
      replace (IZR 1 / IZR 2) with (/ 2) by lra. apply rnd_id, fmt_half. }
    assert (G : fmt64 (IZR f + / 2)).
    { apply generic_format_FLT. exists (Float radix2 (2 * f + 1) (-1)); cbn [Fnum Fexp]; [|change (Z.abs (2 * f + 1) < 2 ^ 53)%Z; lia|lia].
      unfold F2R. cbn [Fnum Fexp]. rewrite plus_IZR, mult_IZR. cbn. lra. }
    assert (O : no_ovf (F2R64 (dofZ f) + F2R64 (dlit 1 2))).
    { rewrite Vf, Vh. apply (small_no_ovf 32); [lia|lia|]. apply IZR_le in Hz. rewrite abs_IZR in Hz. apply Rabs_le_inv in Hz.
      change (bpow radix2 32) with 4294967296. change (IZR (2 ^ 31)) with 2147483648 in Hz. apply Rabs_le. lra. }
    destruct (F_add_correct _ _ Ff Fh O) as [V Fv]. split; [|exact Fv]. rewrite V, Vf, Vh. apply rnd_id, G. }
  destruct (F_ofZ_correct 0 ltac:(lia)) as [V0 F0].
  assert (Kp : 0 <= IZR k) by (apply IZR_le; lia).
  assert (Ik : to_int (Some k) = Ok k).
  { unfold to_int. replace (in_int k) with true; [reflexivity|]. symmetry. unfold in_int, int_min, int_max. apply andb_true_intro. split; apply Z.leb_le; lia. }
  destruct Hf as [[-> L]|[-> L]].
  - destruct (HV k ltac:(lia)) as [Vh Fh]. cbv zeta.
    assert (X : dlt x (dofZ 0) = false) by (apply (F_lt_fin_false _ _ F F0); rewrite V0; fold v; lra). rewrite X.
    assert (Y : dle (dadd (dofZ k) (dlit 1 2)) x = false).
    { destruct (dle (dadd (dofZ k) (dlit 1 2)) x) eqn:Q; [|reflexivity]. apply (F_le_fin _ _ Fh F) in Q. rewrite Vh in Q. fold v in Q. lra. }
    rewrite Y. exact Ik.
  - destruct (HV (k - 1)%Z ltac:(lia)) as [Vh Fh]. cbv zeta. rewrite minus_IZR in Vh.
    assert (Y : dle (dadd (dofZ (k - 1)) (dlit 1 2)) x = true) by (apply (F_le_fin _ _ Fh F); rewrite Vh; fold v; lra).
    assert (Z : dlt (dadd (dofZ (k - 1)) (dlit 1 2)) x = true) by (apply (F_lt_fin _ _ Fh F); rewrite Vh; fold v; lra).
    rewrite Y, Z. destruct (dlt x (dofZ 0)); replace (k - 1 + 1)%Z with k by lia; exact Ik.
Qed.

(** *** the check of the last angle, in real numbers *)
Lemma accepted_close (m : laser_msg32) : plain_fan m ->
  let last := iter (widen (l_inc m)) (widen (b32_minus mode_NE (l_amin m) (l_inc m))) (length (l_ranges m)) in
  let r := F2R32 (l_amin m) + (INR (length (l_ranges m)) - 1) * F2R32 (l_inc m) - F2R32 (l_amax m) in
  (are_equal_eps last (widen (l_amax m)) eps0 = true -> Rabs r <= 186 / 10000000) /\
  (Rabs r <= 164 / 10000000 -> are_equal_eps last (widen (l_amax m)) eps0 = true).
Proof.
  intros H last r. destruct (beam_angle_close m H (length (l_ranges m)) ltac:(lia)) as [Fl El]. fold last in Fl, El.
  destruct H as (F1 & F2 & F3 & B1 & B2 & B3 & B4 & B5).
  destruct (widen_correct _ F2) as [V Fv]. destruct eps0_bounds as [Fe Be].
  assert (L : Rabs (F2R64 last - F2R64 (widen (l_amax m))) < bpow radix2 6).
  { rewrite V. apply Rabs_le_inv in El. apply Rabs_le_inv in B1. apply Rabs_le_inv in B2. apply Rabs_le_inv in B3.
    assert (N0 := pos_INR (length (l_ranges m))).
    assert (X : Rabs (INR (length (l_ranges m)) * F2R32 (l_inc m)) <= 16) by (rewrite Rabs_mult, Rabs_pos_eq by exact N0; exact B4).
    apply Rabs_le_inv in X. assert (bpow radix2 (-20) <= 1) by (change 1 with (bpow radix2 0); apply bpow_le; lia).
    apply Rabs_lt. change (bpow radix2 6) with 64. lra. }
  assert (O : no_ovf (F2R64 last - F2R64 (widen (l_amax m)))) by (apply (small_no_ovf 6); [lia|lia|lra]).
  destruct (F_sub_correct _ _ Fl Fv O) as [Vs Fs].
  destruct (F_dabs_correct (dsub last (widen (l_amax m)))) as [Va Fa]. rewrite Fs in Fa.
  assert (Er := rnd_err 6 _ ltac:(lia) L). change (6 - 53)%Z with (-47)%Z in Er. rewrite V in *.
  rewrite Vs in Va.
  assert (K : Rabs (F2R64 (dabs (dsub last (widen (l_amax m)))) - Rabs r) <= / 1000000).
  { rewrite Va. eapply Rle_trans; [apply Rabs_triang_inv2|].
    replace (rnd (F2R64 last - F2R32 (l_amax m)) - r) with
      ((rnd (F2R64 last - F2R32 (l_amax m)) - (F2R64 last - F2R32 (l_amax m))) +
       (F2R64 last - (F2R32 (l_amin m) + (INR (length (l_ranges m)) - 1) * F2R32 (l_inc m)))) by (unfold r; ring).
    eapply Rle_trans; [apply Rabs_triang|]. assert (/ 2 * bpow radix2 (-47) + bpow radix2 (-20) <= / 1000000) by (cbn; lra). lra. }
  apply Rabs_le_inv in K. unfold are_equal_eps. split; intros Q.
  - apply (F_le_fin _ _ Fa Fe) in Q. lra.
  - apply (F_le_fin _ _ Fa Fe). lra.
Qed.

(** *** the table *)
Lemma tc_angles_total d a b n : (forall j, (j < n)%nat -> dlt (iter d a j) b = true) -> dlt (iter d a n) b = false ->
  forall fuel, (n <= fuel)%nat -> tc_angles fuel a b d = Ok (map (iter d a) (seq 0 n)).
Proof.
  revert a. induction n as [|n IH]; intros a Ht Hf fuel Hfuel.
  - cbn [iter] in Hf. destruct fuel; cbn [tc_angles]; rewrite Hf; reflexivity.
  - destruct fuel as [|fuel]; [lia|]. cbn [tc_angles]. assert (H0 := Ht 0%nat ltac:(lia)). cbn [iter] in H0. rewrite H0.
    rewrite (IH (dadd a d)).
    + cbn [bind seq map iter]. do 2 f_equal. rewrite <- seq_shift, map_map. apply map_ext. intros j. apply iter_shift.
    + intros j Hj. rewrite iter_shift. apply Ht. lia.
    + rewrite iter_shift. exact Hf.
    + lia.
Qed.
Lemma first_false (f : nat -> bool) n : f n = false -> exists k, (k <= n)%nat /\ f k = false /\ forall j, (j < k)%nat -> f j = true.
Proof.
  induction n as [n IH] using lt_wf_ind. intros H.
  destruct (Nat.eq_dec n 0) as [->|N]; [exists 0%nat; repeat split; [lia|exact H|lia]|].
  destruct (existsb (fun j => negb (f j)) (seq 0 n)) eqn:E.
  - apply existsb_exists in E. destruct E as [j [Hj Q]]. apply in_seq in Hj. apply negb_true_iff in Q.
    destruct (IH j ltac:(lia) Q) as (k & K1 & K2 & K3). exists k. repeat split; [lia|exact K2|exact K3].
  - exists n. repeat split; [lia|exact H|]. intros j Hj. destruct (f j) eqn:Q; [reflexivity|].
    assert (X : existsb (fun j => negb (f j)) (seq 0 n) = true); [|congruence].
    apply existsb_exists. exists j. split; [apply in_seq; lia|]. now rewrite Q.
Qed.

Section Table.
  Variable m : laser_msg32.
  Hypothesis Hfan : plain_fan m.
  Hypothesis Hinc : bpow radix2 (-14) <= F2R32 (l_inc m).
  Let N := length (l_ranges m).
  Let d := widen (l_inc m).
  Let a := widen (l_amin m).
  Let b := widen (b32_plus mode_NE (l_amax m) (l_inc m)).
  Let ri := F2R32 (l_inc m).
  Let ra := F2R32 (l_amin m).
  Hypothesis Hacc : Rabs (ra + (INR N - 1) * ri - F2R32 (l_amax m)) <= 186 / 10000000.

  Lemma d_ok : F2R64 d = ri /\ F_fin d = true.
  Proof. apply widen_correct. apply Hfan. Qed.
  Lemma a_ok : F2R64 a = ra /\ F_fin a = true.
  Proof. apply widen_correct. apply Hfan. Qed.
  Lemma inc_bounds : / 16384 <= ri <= 1.
  Proof.
    split; [exact Hinc|]. destruct Hfan as (_ & _ & _ & _ & _ & B & _). apply Rabs_le_inv in B. apply B.
  Qed.
  Lemma b_ok : F_fin b = true /\ Rabs (F2R64 b - (F2R32 (l_amax m) + ri)) <= bpow radix2 (-21).
  Proof.
    destruct Hfan as (F1 & F2 & F3 & B1 & B2 & B3 & _). apply Rabs_le_inv in B2. apply Rabs_le_inv in B3.
    destruct (plus32 (l_amax m) (l_inc m) F2 F3) as [F E]; [apply Rabs_le; lra|].
    destruct (widen_correct _ F) as [V Fv]. split; [exact Fv|]. unfold b. rewrite V. exact E.
  Qed.
  (** table entries up to index [n] *)
  Lemma entry_close n : INR n * ri <= 20 -> (Z.of_nat n <= 2 ^ 24)%Z -> forall j, (j <= n)%nat ->
    F_fin (iter d a j) = true /\ Rabs (F2R64 (iter d a j) - (ra + INR j * ri)) <= bpow radix2 (-25).
  Proof.
    intros H1 H2 j Hj. destruct d_ok as [Vd Fd]. destruct a_ok as [Va Fa].
    destruct (iter_err_small d a n Fd Fa) with (k := j) as [F E]; [|rewrite Vd, Rabs_pos_eq; [exact H1|]|exact H2|exact Hj|].
    - rewrite Va. destruct Hfan as (_ & _ & _ & B & _). fold ra in B. lra.
    - assert (X := inc_bounds). lra.
    - rewrite Va, Vd in E. split; assumption.
  Qed.
  Lemma small25 : bpow radix2 (-25) <= / 10000000 /\ bpow radix2 (-21) <= 5 / 10000000 /\ bpow radix2 (-20) <= / 1000000.
  Proof. cbn. lra. Qed.

  Lemma beams_in_table j : (j < N)%nat -> dlt (iter d a j) b = true.
  Proof.
    intros Hj. destruct Hfan as (_ & _ & _ & _ & _ & _ & B4 & B5). assert (I := inc_bounds). fold ri in B4. rewrite Rabs_pos_eq in B4 by lra.
    destruct (entry_close N ltac:(fold N in B4; lra) B5 j ltac:(lia)) as [F E]. destruct b_ok as [Fb Eb].
    apply (F_lt_fin _ _ F Fb). apply Rabs_le_inv in E. apply Rabs_le_inv in Eb. assert (Sm := small25). apply Rabs_le_inv in Hacc.
    assert (J : INR j * ri <= (INR N - 1) * ri).
    { apply Rmult_le_compat_r; [lra|]. assert (X : INR (S j) <= INR N) by (apply le_INR; lia). rewrite S_INR in X. lra. }
    lra.
  Qed.
  Lemma table_ends : exists n, INR n * ri <= 20 /\ (Z.of_nat n <= 2 ^ 24)%Z /\ dlt (iter d a n) b = false.
  Proof.
    assert (I := inc_bounds). set (n := Z.to_nat (up (16 / ri))).
    assert (P : 0 < 16 / ri) by (apply Rdiv_lt_0_compat; lra).
    destruct (archimed (16 / ri)) as [U1 U2].
    assert (Un : (0 <= up (16 / ri))%Z) by (apply le_IZR; lra).
    assert (En : INR n = IZR (up (16 / ri))) by (unfold n; rewrite INR_IZR_INZ, Z2Nat.id by exact Un; reflexivity).
    assert (L1 : 16 < INR n * ri).
    { rewrite En. apply Rmult_lt_reg_r with (/ ri); [apply Rinv_0_lt_compat; lra|]. rewrite Rmult_assoc, Rinv_r, Rmult_1_r by lra. exact U1. }
    assert (L2 : INR n * ri <= 16 + ri).
    { rewrite En. apply Rle_trans with ((16 / ri + 1) * ri); [apply Rmult_le_compat_r; lra|]. right. field. lra. }
    exists n. split; [lra|]. split.
    - unfold n. rewrite Z2Nat.id by exact Un. apply le_IZR. apply Rle_trans with (16 / ri + 1); [lra|].
      assert (16 / ri <= 16 * 16384).
      { unfold Rdiv. apply Rmult_le_compat_l; [lra|]. rewrite <- (Rinv_inv 16384). apply Rinv_le; lra. }
      change (IZR (2 ^ 24)) with 16777216. lra.
    - assert (Hz : (Z.of_nat n <= 2 ^ 24)%Z).
      { unfold n. rewrite Z2Nat.id by exact Un. apply le_IZR. apply Rle_trans with (16 / ri + 1); [lra|].
        assert (16 / ri <= 16 * 16384).
        { unfold Rdiv. apply Rmult_le_compat_l; [lra|]. rewrite <- (Rinv_inv 16384). apply Rinv_le; lra. }
        change (IZR (2 ^ 24)) with 16777216. lra. }
      destruct (entry_close n ltac:(lra) Hz n ltac:(lia)) as [F E]. destruct b_ok as [Fb Eb].
      apply (F_lt_fin_false _ _ F Fb). apply Rabs_le_inv in E. apply Rabs_le_inv in Eb. assert (Sm := small25).
      destruct Hfan as (_ & _ & _ & B1 & B2 & _). apply Rabs_le_inv in B1. apply Rabs_le_inv in B2. fold ra in B1. lra.
  Qed.

  Lemma table : exists n, (N <= n)%nat /\ INR n * ri <= 20 /\ (Z.of_nat n <= 2 ^ 24)%Z /\
    forall fuel, (n <= fuel)%nat -> tc_angles fuel a b d = Ok (map (iter d a) (seq 0 n)).
  Proof.
    destruct table_ends as (n0 & H1 & H2 & H3). assert (I := inc_bounds).
    destruct (first_false (fun j => dlt (iter d a j) b) n0 H3) as (n & K1 & K2 & K3).
    exists n. split; [|split; [|split]].
    - destruct (le_lt_dec N n) as [L|L]; [exact L|]. rewrite beams_in_table in K2 by exact L. discriminate.
    - apply Rle_trans with (INR n0 * ri); [|exact H1]. apply Rmult_le_compat_r; [lra|]. now apply le_INR.
    - lia.
    - apply tc_angles_total; assumption.
  Qed.

  Lemma count_ok : exists nm, trunc_int (dadd (ddiv (dsub b a) d) (dofZ 1)) = Ok nm /\ (0 <=? nm)%Z = true.
  Proof.
    assert (I := inc_bounds). destruct b_ok as [Fb Eb]. destruct a_ok as [Va Fa]. destruct d_ok as [Vd Fd].
    destruct Hfan as (_ & _ & _ & B1 & B2 & _ & B4 & _). apply Rabs_le_inv in B1. apply Rabs_le_inv in B2. apply Rabs_le_inv in Eb.
    apply Rabs_le_inv in Hacc. fold ra in B1. fold ri in B4. rewrite (Rabs_pos_eq ri) in B4 by lra. assert (Sm := small25).
    assert (N0 := pos_INR N). assert (NR : 0 <= INR N * ri) by (apply Rmult_le_pos; lra).
    assert (L : - / 40000 <= F2R64 b - F2R64 a <= 16) by (rewrite Va; lra).
    assert (L' : Rabs (F2R64 b - F2R64 a) < bpow radix2 5) by (apply Rabs_lt; change (bpow radix2 5) with 32; lra).
    destruct (F_sub_correct b a Fb Fa) as [Vs Fs]; [apply (small_no_ovf 5); [lia|lia|lra]|].
    assert (Es := rnd_err 5 _ ltac:(lia) L'). change (5 - 53)%Z with (-48)%Z in Es. apply Rabs_le_inv in Es.
    assert (S48 : bpow radix2 (-48) <= / 1000000000) by (cbn; lra).
    set (v := F2R64 (dsub b a)) in *. rewrite <- Vs in Es.
    assert (Lv : - / 39000 <= v <= 17) by lra.
    assert (Q : - / 2 <= v / ri <= 2 ^ 19).
    { assert (Ri : 0 < / ri <= 16384).
      { split; [apply Rinv_0_lt_compat; lra|]. rewrite <- (Rinv_inv 16384). apply Rinv_le; lra. }
      unfold Rdiv. split.
      - apply Rle_trans with (- / 39000 * / ri); [|apply Rmult_le_compat_r; lra]. 
        replace (- / 39000 * / ri) with (- (/ 39000 * / ri)) by ring. apply Ropp_le_contravar.
        apply Rle_trans with (/ 39000 * 16384); [apply Rmult_le_compat_l; lra|lra].
      - apply Rle_trans with (17 * / ri); [apply Rmult_le_compat_r; lra|]. apply Rle_trans with (17 * 16384); [apply Rmult_le_compat_l; lra|lra]. }
    assert (Q' : Rabs (F2R64 (dsub b a) / F2R64 d) < bpow radix2 20) by (rewrite Vd; fold v; apply Rabs_lt; change (bpow radix2 20) with 1048576; lra).
    destruct (F_div_correct (dsub b a) d Fs) as [Vq Fq]; [rewrite Vd; lra|apply (small_no_ovf 20); [lia|lia|lra]|].
    assert (Eq := rnd_err 20 _ ltac:(lia) Q'). change (20 - 53)%Z with (-33)%Z in Eq. rewrite <- Vq in Eq. rewrite Vd in Eq. fold v in Eq.
    apply Rabs_le_inv in Eq. assert (S33 : bpow radix2 (-33) <= / 1000000000) by (cbn; lra).
    set (q := F2R64 (ddiv (dsub b a) d)) in *.
    destruct (F_ofZ_correct 1 ltac:(lia)) as [V1 F1].
    assert (T' : Rabs (q + F2R64 (dofZ 1)) < bpow radix2 20) by (rewrite V1; apply Rabs_lt; change (bpow radix2 20) with 1048576; lra).
    destruct (F_add_correct _ _ Fq F1) as [Vt Ft]; [apply (small_no_ovf 20); [lia|lia|fold q; lra]|].
    assert (Et := rnd_err 20 _ ltac:(lia) T'). change (20 - 53)%Z with (-33)%Z in Et. fold q in Vt. rewrite <- Vt in Et. rewrite V1 in Et. apply Rabs_le_inv in Et.
    unfold trunc_int. rewrite (F_trunc_correct _ Ft). set (t := F2R64 (dadd (ddiv (dsub b a) d) (dofZ 1))) in *.
    assert (Lt : 0 <= t <= 2 ^ 20) by lra.
    assert (Zt : (0 <= Ztrunc t <= 2 ^ 20)%Z).
    { rewrite Ztrunc_floor by lra. split; [apply Zfloor_lub; lra|]. apply le_IZR. eapply Rle_trans; [apply Zfloor_lb|]. change (IZR (2 ^ 20)) with 1048576. lra. }
    exists (Ztrunc t). split; [|apply Z.leb_le; lia]. unfold to_int. replace (in_int (Ztrunc t)) with true; [reflexivity|].
    symmetry. unfold in_int, int_min, int_max. apply andb_true_intro. split; apply Z.leb_le; lia.
  Qed.

  Lemma cache_ok (dcos dsin : F64 -> F64) : exists n, (N <= n)%nat /\ INR n * ri <= 20 /\ (Z.of_nat n <= 2 ^ 24)%Z /\
    forall fuel, (n <= fuel)%nat -> msg_trig_cache32 dcos dsin fuel m =
      Ok (mkTC (map dsin (map (iter d a) (seq 0 n))) (map dcos (map (iter d a) (seq 0 n))) (dsin (dofZ 0)) (dcos (dofZ 0)) a b d).
  Proof.
    destruct table as (n & H1 & H2 & H3 & H4). exists n. split; [exact H1|split; [exact H2|split; [exact H3|]]].
    intros fuel Hf. unfold msg_trig_cache32, tc_update. fold a b d. destruct d_ok as [Vd Fd]. assert (I := inc_bounds).
    assert (E : deq d (tc_delta (tc_new dcos dsin)) = false).
    { destruct (deq d (tc_delta (tc_new dcos dsin))) eqn:Q; [|reflexivity].
      destruct (F_ofZ_correct 0 ltac:(lia)) as [V0 F0]. change (tc_delta (tc_new dcos dsin)) with (dofZ 0 : F64) in Q.
      apply (F_eq_fin _ _ Fd F0) in Q. rewrite V0, Vd in Q. lra. }
    rewrite E, andb_false_r. destruct count_ok as (nm & C1 & C2). rewrite C1. cbn [bind]. rewrite C2. cbn [assert_ bind].
    rewrite (H4 fuel Hf). reflexivity.
  Qed.

  Lemma lookup_ok (t : tcache F64) (tab : list F64) (g : F64 -> F64) (n i : nat) (x : F64) :
    tc_min t = a -> tc_delta t = d -> tab = map g (map (iter d a) (seq 0 n)) -> (i < n)%nat -> (i < N)%nat ->
    F_fin x = true -> Rabs (F2R64 x - (ra + INR i * ri)) <= bpow radix2 (-20) ->
    tc_lookup t tab x = Ok (g (iter d a i)).
  Proof.
    intros T1 T2 -> Hn Hi Fx Ex. unfold tc_lookup. rewrite T1, T2.
    assert (I := inc_bounds). destruct a_ok as [Va Fa]. destruct d_ok as [Vd Fd].
    destruct Hfan as (_ & _ & _ & B1 & B2 & _ & B4 & _). apply Rabs_le_inv in B1. fold ra in B1. fold ri in B4. rewrite (Rabs_pos_eq ri) in B4 by lra.
    fold N in B4. assert (Sm := small25). apply Rabs_le_inv in Ex.
    assert (J : 0 <= INR i * ri <= 16).
    { split; [apply Rmult_le_pos; [apply pos_INR|lra]|]. eapply Rle_trans; [|exact B4]. apply Rmult_le_compat_r; [lra|]. apply le_INR. lia. }
    assert (L' : Rabs (F2R64 x - F2R64 a) < bpow radix2 5) by (rewrite Va; apply Rabs_lt; change (bpow radix2 5) with 32; lra).
    destruct (F_sub_correct x a Fx Fa) as [Vs Fs]; [apply (small_no_ovf 5); [lia|lia|lra]|].
    assert (Es := rnd_err 5 _ ltac:(lia) L'). change (5 - 53)%Z with (-48)%Z in Es. apply Rabs_le_inv in Es. rewrite <- Vs in Es. rewrite Va in Es.
    assert (S48 : bpow radix2 (-48) <= / 1000000000) by (cbn; lra).
    set (v := F2R64 (dsub x a)) in *.
    assert (Ri : 0 < / ri <= 16384).
    { split; [apply Rinv_0_lt_compat; lra|]. rewrite <- (Rinv_inv 16384). apply Rinv_le; lra. }
    assert (Q : Rabs (v / ri - INR i) <= / 16).
    { replace (v / ri - INR i) with ((v - INR i * ri) * / ri) by (field; lra). rewrite Rabs_mult, (Rabs_pos_eq (/ ri)) by lra.
      apply Rle_trans with (2 / 1000000 * 16384); [|lra]. apply Rmult_le_compat; [apply Rabs_pos|lra|apply Rabs_le; lra|lra]. }
    assert (Hi20 : INR i <= 16 * 16384).
    { apply Rmult_le_reg_r with ri; [lra|]. apply Rle_trans with 16; [lra|]. apply Rle_trans with (16 * 16384 * / 16384); [lra|]. apply Rmult_le_compat_l; lra. }
    assert (I0 := pos_INR i). apply Rabs_le_inv in Q.
    assert (Q' : Rabs (F2R64 (dsub x a) / F2R64 d) < bpow radix2 20) by (rewrite Vd; fold v; apply Rabs_lt; change (bpow radix2 20) with 1048576; lra).
    destruct (F_div_correct (dsub x a) d Fs) as [Vq Fq]; [rewrite Vd; lra|apply (small_no_ovf 20); [lia|lia|lra]|].
    assert (Eq := rnd_err 20 _ ltac:(lia) Q'). change (20 - 53)%Z with (-33)%Z in Eq. rewrite <- Vq in Eq. rewrite Vd in Eq. fold v in Eq.
    apply Rabs_le_inv in Eq. assert (S33 : bpow radix2 (-33) <= / 1000000000) by (cbn; lra).
    rewrite (round_int_close (ddiv (dsub x a) d) (Z.of_nat i) Fq).
    - cbn [bind]. replace (Z.of_nat i <? 0)%Z with false by (symmetry; apply Z.ltb_ge; lia). rewrite Nat2Z.id, map_map.
      rewrite (map_nth_error (fun x => g (iter d a x)) i (seq 0 n) (d := i)); [reflexivity|].
      rewrite nth_error_nth' with (d := 0%nat) by (rewrite seq_length; exact Hn). now rewrite seq_nth by exact Hn.
    - split; [lia|]. apply le_IZR. rewrite <- INR_IZR_INZ. change (IZR (2 ^ 30)) with 1073741824. lra.
    - rewrite <- INR_IZR_INZ. apply Rabs_le. lra.
  Qed.
End Table.
