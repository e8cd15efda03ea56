(** Poses in binary64: how far the accumulated pose is from the exact sum (C39), and one GMapping odometry step (C55). *)
From Coq Require Import Reals ZArith List Lia Lra Bool.
From Flocq Require Import Core Plus_error IEEE754.BinarySingleNaN IEEE754.Binary IEEE754.Bits.
From Verif.Base Require Import Outcome Num F64Facts.
From Verif.Model Require Import MathUtils Geometry Sensor Histogram World ParticleFilter Gmapping.
From Verif.Spec Require Import WorldSpec ParticleSpec LaserFloatSpec.
From Verif.Proofs Require Import TbmFloatProofs MeanFloatProofs ParticleProofs WorldProofs.
Import ListNotations.
Local Open Scope R_scope.
Local Open Scope bool_scope.

#[local] Instance prec53' : Prec_gt_0 53 := eq_refl.
Lemma add_rel_abs x y : fmt64 x -> fmt64 y -> Rabs (rnd (x + y) - (x + y)) <= hh * Rabs (x + y).
Proof.
  intros Hx Hy. destruct (Rle_or_lt 0 (x + y)) as [S|S].
  - assert (A := add_rel x y Hx Hy S). rewrite (Rabs_pos_eq (x + y)) by exact S. apply Rabs_le. lra.
  - assert (A := add_rel (- x) (- y) (fmt_opp _ Hx) (fmt_opp _ Hy) ltac:(lra)).
    replace (- x + - y) with (- (x + y)) in A by ring.
    assert (O : rnd (- (x + y)) = - rnd (x + y)) by (unfold rnd; apply round_NE_opp). rewrite O in A.
    rewrite (Rabs_left (x + y)) by exact S. apply Rabs_le. lra.
Qed.
Lemma ovf_1001 r : Rabs r <= bpow radix2 1001 -> no_ovf r.
Proof. intros H. apply (no_ovf_le (bpow radix2 1001)); [apply fmt_bpow; lia|apply bpow_lt; lia|exact H]. Qed.

(** recursive summation *)
Lemma sum_error A (xs : list F64) : 0 <= A <= bpow radix2 1000 -> forall (s : F64) (S T : R) (k : nat),
  F_fin s = true -> Forall (fun x => F_fin x = true) xs -> Rabs (F2R64 s - S) <= INR k * (2 * hh * A) ->
  Rabs S <= T -> T + Rsum (map (fun x => Rabs (F2R64 x)) xs) <= A -> INR (k + length xs) <= bpow radix2 52 ->
  F_fin (fold_left dadd xs s) = true /\
  Rabs (F2R64 (fold_left dadd xs s) - (S + Rsum (map (fun x => F2R64 x) xs))) <= INR (k + length xs) * (2 * hh * A).
Proof.
  intros HA. induction xs as [|x xs IH]; intros s S T k Fs Fx Es HS HT HK; cbn [fold_left map length].
  - unfold Rsum. cbn [fold_right]. rewrite Rplus_0_r, Nat.add_0_r. auto.
  - apply Forall_cons_iff in Fx as [Fx Fxs]. unfold Rsum in HT. cbn [map fold_right] in HT. fold (Rsum (map (fun x => Rabs (F2R64 x)) xs)) in HT.
    assert (PH := hh_pos). assert (NR : 0 <= Rsum (map (fun x : F64 => Rabs (F2R64 x)) xs)).
    { clear. unfold Rsum. induction xs as [|x xs IH]; cbn [map fold_right]; [lra|]. assert (H := Rabs_pos (F2R64 x)). lra. }
    assert (HA1 : INR k * (2 * hh * A) <= A).
    { assert (K : INR k <= bpow radix2 52) by (eapply Rle_trans; [|exact HK]; apply le_INR; lia).
      assert (P : 0 <= 2 * hh * A) by (apply Rmult_le_pos; lra).
      eapply Rle_trans; [apply Rmult_le_compat_r; [exact P|exact K]|].
      assert (U : bpow radix2 52 * (2 * hh) = 1).
      { rewrite <- b52, <- bpow_plus. reflexivity. }
      replace (bpow radix2 52 * (2 * hh * A)) with (bpow radix2 52 * (2 * hh) * A) by ring. rewrite U. lra. }
    assert (PS : Rabs (F2R64 s + F2R64 x) <= 2 * A).
    { replace (F2R64 s + F2R64 x) with ((F2R64 s - S) + (S + F2R64 x)) by ring.
      eapply Rle_trans; [apply Rabs_triang|]. assert (H := Rabs_triang S (F2R64 x)). lra. }
    assert (NO : no_ovf (F2R64 s + F2R64 x)).
    { apply ovf_1001. eapply Rle_trans; [exact PS|]. change 1001%Z with (1 + 1000)%Z. rewrite bpow_plus. change (bpow radix2 1) with 2. lra. }
    destruct (F_add_correct s x Fs Fx NO) as [E F].
    assert (D := add_rel_abs (F2R64 s) (F2R64 x) (F_fmt s) (F_fmt x)). rewrite <- E in D.
    assert (D' : Rabs (F2R64 (dadd s x) - (F2R64 s + F2R64 x)) <= 2 * hh * A).
    { eapply Rle_trans; [exact D|]. replace (2 * hh * A) with (hh * (2 * A)) by ring. apply Rmult_le_compat_l; [lra|exact PS]. }
    destruct (IH (dadd s x) (S + F2R64 x) (T + Rabs (F2R64 x)) (Datatypes.S k) F Fxs) as [IF IE].
    + rewrite S_INR. replace (F2R64 (dadd s x) - (S + F2R64 x)) with ((F2R64 (dadd s x) - (F2R64 s + F2R64 x)) + (F2R64 s - S)) by ring.
      eapply Rle_trans; [apply Rabs_triang|]. lra.
    + eapply Rle_trans; [apply Rabs_triang|]. lra.
    + lra.
    + cbn [length] in HK. replace (Datatypes.S k + length xs)%nat with (k + Datatypes.S (length xs))%nat by lia. exact HK.
    + split; [exact IF|]. cbn [length] in *. replace (k + Datatypes.S (length xs))%nat with (Datatypes.S k + length xs)%nat by lia.
      unfold Rsum. cbn [map fold_right]. fold (Rsum (map (fun x : F64 => F2R64 x) xs)).
      replace (S + (F2R64 x + Rsum (map (fun x0 : F64 => F2R64 x0) xs))) with (S + F2R64 x + Rsum (map (fun x0 : F64 => F2R64 x0) xs)) by ring. exact IE.
Qed.

Lemma fold_pose (l : list (pose F64)) : forall p,
  px (fold_left pose_add l p) = fold_left dadd (map px l) (px p) /\
  py (fold_left pose_add l p) = fold_left dadd (map py l) (py p) /\
  pth (fold_left pose_add l p) = fold_left dadd (map pth l) (pth p).
Proof. induction l as [|d l IH]; intros p; cbn [fold_left map]; [auto|]. exact (IH (pose_add p d)). Qed.

Lemma interleave_sum {D} (g : pose D -> R) : forall ds cs, length cs = length ds ->
  Rsum (map g (interleave ds cs)) = Rsum (map g (ds ++ cs)).
Proof.
  unfold Rsum. assert (A : forall l l' : list R, fold_right Rplus 0 (l ++ l') = fold_right Rplus 0 l + fold_right Rplus 0 l').
  { induction l as [|x l IH]; intros l'; cbn; [lra|]. rewrite IH. lra. }
  induction ds as [|d ds IH]; intros [|c cs] H; try discriminate; [reflexivity|].
  cbn [interleave app map fold_right]. rewrite (IH cs) by (now injection H). rewrite !map_app, !A. cbn [map fold_right]. lra.
Qed.
Lemma interleave_In {D} (x : pose D) : forall ds cs, In x (interleave ds cs) -> In x (ds ++ cs).
Proof.
  induction ds as [|d ds IH]; intros [|c cs] H; try contradiction. cbn [interleave] in H. destruct H as [H|[H|H]].
  - left. exact H.
  - right. apply in_or_app. right. left. exact H.
  - right. apply IH in H. apply in_app_or in H as [H|H]; apply in_or_app; [now left|right; now right].
Qed.
Lemma interleave_len {D} : forall ds cs : list (pose D), length cs = length ds -> length (interleave ds cs) = (2 * length ds)%nat.
Proof. induction ds as [|d ds IH]; intros [|c cs] H; try discriminate; [reflexivity|]. cbn [interleave length]. rewrite IH by (now injection H). lia. Qed.

(** ** one odometry step of a GMapping particle *)
Lemma trig_bound (v : F64) (r : R) : Rabs r <= 1 -> Rabs (F2R64 v - r) <= 2 * hh -> Rabs (F2R64 v) <= 1 + 2 * hh.
Proof. intros A B. replace (F2R64 v) with ((F2R64 v - r) + r) by ring. eapply Rle_trans; [apply Rabs_triang|]. lra. Qed.

Lemma scaled (v x : F64) (r L : R) : F_fin v = true -> F_fin x = true -> Rabs r <= 1 -> Rabs (F2R64 v - r) <= 2 * hh ->
  bpow radix2 (-1022) <= L <= bpow radix2 900 -> Rabs (F2R64 x) <= L ->
  F_fin (dmul v x) = true /\ Rabs (F2R64 (dmul v x) - r * F2R64 x) <= (31 / 10) * hh * L.
Proof.
  intros Fv Fx Hr Hv HL Hx. assert (PH := hh_pos). assert (SH := hh_small). assert (P : 0 < bpow radix2 (-1022)) by apply bpow_gt_0.
  assert (BV := trig_bound v r Hr Hv).
  assert (M : Rabs (F2R64 v * F2R64 x) <= (1 + 2 * hh) * L).
  { rewrite Rabs_mult. apply Rmult_le_compat; auto using Rabs_pos. }
  assert (M2 : (1 + 2 * hh) * L <= 2 * L) by (apply Rmult_le_compat_r; lra).
  assert (NO : no_ovf (F2R64 v * F2R64 x)).
  { apply ovf_1001. eapply Rle_trans; [exact M|]. eapply Rle_trans; [exact M2|].
    apply Rle_trans with (bpow radix2 901); [|apply bpow_le; lia]. change 901%Z with (1 + 900)%Z. rewrite bpow_plus. change (bpow radix2 1) with 2. lra. }
  destruct (F_mul_correct v x Fv Fx NO) as [E F]. split; [exact F|].
  assert (Y : bpow radix2 (-1022) <= (1 + 2 * hh) * L) by nra.
  assert (D := err_bound _ _ Y M). rewrite <- E in D.
  replace (F2R64 (dmul v x) - r * F2R64 x) with ((F2R64 (dmul v x) - F2R64 v * F2R64 x) + (F2R64 v - r) * F2R64 x) by ring.
  eapply Rle_trans; [apply Rabs_triang|]. rewrite Rabs_mult.
  assert (Q : Rabs (F2R64 v - r) * Rabs (F2R64 x) <= 2 * hh * L) by (apply Rmult_le_compat; auto using Rabs_pos).
  assert (W : hh * ((1 + 2 * hh) * L) <= (11 / 10) * hh * L).
  { replace (hh * ((1 + 2 * hh) * L)) with ((1 + 2 * hh) * (hh * L)) by ring. replace (11 / 10 * hh * L) with (11 / 10 * (hh * L)) by ring.
    apply Rmult_le_compat_r; [apply Rmult_le_pos; lra|]. lra. }
  lra.
Qed.

(** [p + (u x + v y)] in doubles, [u] and [v] within 2^-52 of [r1] and [r2] ([sub]: subtracted instead) *)
Lemma moved (sub : bool) (p u x v y : F64) (r1 r2 L : R) :
  F_fin p = true -> Rabs (F2R64 p) <= bpow radix2 1000 ->
  F_fin u = true -> F_fin x = true -> Rabs r1 <= 1 -> Rabs (F2R64 u - r1) <= 2 * hh -> Rabs (F2R64 x) <= L ->
  F_fin v = true -> F_fin y = true -> Rabs r2 <= 1 -> Rabs (F2R64 v - r2) <= 2 * hh -> Rabs (F2R64 y) <= L ->
  bpow radix2 (-1022) <= L <= bpow radix2 900 ->
  let q := dadd p ((if sub then dsub else dadd) (dmul u x) (dmul v y)) in
  F_fin q = true /\
  Rabs (F2R64 q - (F2R64 p + (r1 * F2R64 x + (if sub then - (r2 * F2R64 y) else r2 * F2R64 y)))) <= hh * (Rabs (F2R64 p) + 12 * L).
Proof.
  intros Fp Bp Fu Fx H1 Eu Bx Fv Fy H2 Ev By HL q. assert (PH := hh_pos). assert (SH := hh_small).
  assert (P : 0 < bpow radix2 (-1022)) by apply bpow_gt_0.
  destruct (scaled u x r1 L Fu Fx H1 Eu HL Bx) as [F1 D1]. destruct (scaled v y r2 L Fv Fy H2 Ev HL By) as [F2 D2].
  set (m1 := dmul u x) in *. set (m2 := dmul v y) in *.
  set (t := if sub then - F2R64 m2 else F2R64 m2). set (e := if sub then - (r2 * F2R64 y) else r2 * F2R64 y).
  assert (Dt : Rabs (t - e) <= (31 / 10) * hh * L).
  { unfold t, e. destruct sub; [|exact D2]. replace (- F2R64 m2 - - (r2 * F2R64 y)) with (- (F2R64 m2 - r2 * F2R64 y)) by ring. now rewrite Rabs_Ropp. }
  assert (Ft : fmt64 t) by (unfold t; destruct sub; [apply fmt_opp|]; apply F_fmt).
  assert (B1 : Rabs (r1 * F2R64 x) <= L) by (rewrite Rabs_mult; rewrite <- (Rmult_1_l L); apply Rmult_le_compat; auto using Rabs_pos).
  assert (B2 : Rabs e <= L).
  { unfold e. assert (K : Rabs (r2 * F2R64 y) <= L) by (rewrite Rabs_mult; rewrite <- (Rmult_1_l L); apply Rmult_le_compat; auto using Rabs_pos).
    destruct sub; [rewrite Rabs_Ropp|]; exact K. }
  assert (HS : hh * L <= / 1000000 * L) by (apply Rmult_le_compat_r; lra).
  assert (BS : Rabs (F2R64 m1 + t) <= (21 / 10) * L).
  { replace (F2R64 m1 + t) with (((F2R64 m1 - r1 * F2R64 x) + (t - e)) + (r1 * F2R64 x + e)) by ring.
    eapply Rle_trans; [apply Rabs_triang|]. assert (K1 := Rabs_triang (F2R64 m1 - r1 * F2R64 x) (t - e)). assert (K2 := Rabs_triang (r1 * F2R64 x) e). lra. }
  assert (BL : 4 * L <= bpow radix2 902).
  { change 902%Z with (2 + 900)%Z. rewrite bpow_plus. change (bpow radix2 2) with 4. lra. }
  assert (BL' : bpow radix2 902 <= bpow radix2 1000) by (apply bpow_le; lia).
  assert (BB : bpow radix2 1001 = 2 * bpow radix2 1000) by (change 1001%Z with (1 + 1000)%Z; rewrite bpow_plus; reflexivity).
  assert (NO : no_ovf (F2R64 m1 + t)) by (apply ovf_1001; lra).
  set (s := (if sub then dsub else dadd) m1 m2). assert (HS' : F2R64 s = rnd (F2R64 m1 + t) /\ F_fin s = true).
  { unfold s, t in *. destruct sub; [apply F_sub_correct|apply F_add_correct]; auto. }
  destruct HS' as [Es Fs]. assert (Ds := add_rel_abs (F2R64 m1) t (F_fmt m1) Ft). rewrite <- Es in Ds.
  assert (Ds' : Rabs (F2R64 s - (F2R64 m1 + t)) <= (21 / 10) * (hh * L)).
  { eapply Rle_trans; [exact Ds|]. replace (21 / 10 * (hh * L)) with (hh * (21 / 10 * L)) by ring. apply Rmult_le_compat_l; lra. }
  assert (HP : 0 <= hh * L) by (apply Rmult_le_pos; lra).
  assert (Dc : Rabs (F2R64 s - (r1 * F2R64 x + e)) <= (84 / 10) * (hh * L)).
  { replace (F2R64 s - (r1 * F2R64 x + e)) with ((F2R64 s - (F2R64 m1 + t)) + ((F2R64 m1 - r1 * F2R64 x) + (t - e))) by ring.
    eapply Rle_trans; [apply Rabs_triang|]. assert (K1 := Rabs_triang (F2R64 m1 - r1 * F2R64 x) (t - e)). lra. }
  assert (Bs : Rabs (F2R64 s) <= (21 / 10) * L).
  { replace (F2R64 s) with ((F2R64 s - (r1 * F2R64 x + e)) + (r1 * F2R64 x + e)) by ring. eapply Rle_trans; [apply Rabs_triang|].
    assert (K2 := Rabs_triang (r1 * F2R64 x) e). lra. }
  assert (BP : Rabs (F2R64 p + F2R64 s) <= Rabs (F2R64 p) + (21 / 10) * L) by (eapply Rle_trans; [apply Rabs_triang|]; lra).
  assert (NO2 : no_ovf (F2R64 p + F2R64 s)) by (apply ovf_1001; lra).
  destruct (F_add_correct p s Fp Fs NO2) as [Eq Fq]. subst q. fold m1 m2. fold s. split; [exact Fq|].
  assert (Dq := add_rel_abs (F2R64 p) (F2R64 s) (F_fmt p) (F_fmt s)). rewrite <- Eq in Dq.
  assert (Dq' : Rabs (F2R64 (dadd p s) - (F2R64 p + F2R64 s)) <= hh * (Rabs (F2R64 p) + (21 / 10) * L)).
  { eapply Rle_trans; [exact Dq|]. apply Rmult_le_compat_l; lra. }
  fold e. replace (F2R64 (dadd p s) - (F2R64 p + (r1 * F2R64 x + e))) with ((F2R64 (dadd p s) - (F2R64 p + F2R64 s)) + (F2R64 s - (r1 * F2R64 x + e))) by ring.
  eapply Rle_trans; [apply Rabs_triang|]. assert (0 <= hh * L) by (apply Rmult_le_pos; lra). lra.
Qed.

(** ** a sine and a cosine that round correctly: [accurate] and exact at zero *)
Definition double_of (r : R) : F64 :=
  Binary.binary_normalize 53 1024 eq_refl eq_refl mode_NE (Ztrunc (scaled_mantissa radix2 fexp64 (rnd r))) (cexp radix2 fexp64 (rnd r)) false.
Lemma double_of_correct r : no_ovf r -> F2R64 (double_of r) = rnd r /\ F_fin (double_of r) = true.
Proof.
  intros H. unfold double_of. generalize (Binary.binary_normalize_correct 53 1024 eq_refl eq_refl mode_NE
    (Ztrunc (scaled_mantissa radix2 fexp64 (rnd r))) (cexp radix2 fexp64 (rnd r)) false).
  assert (V : Valid_exp fexp64) by (apply FLT_exp_valid; reflexivity).
  assert (G : fmt64 (rnd r)) by (apply generic_format_round; typeclasses eauto).
  assert (E : F2R (Float radix2 (Ztrunc (scaled_mantissa radix2 fexp64 (rnd r))) (cexp radix2 fexp64 (rnd r))) = rnd r) by (symmetry; exact G).
  rewrite E. assert (RR : round radix2 fexp64 ZnearestE (rnd r) = rnd r) by (apply round_generic; [typeclasses eauto|exact G]).
  change (SpecFloat.fexp 53 1024) with fexp64. cbn [round_mode]. rewrite RR. rewrite Rlt_bool_true by exact H. intros (A & B & _). split; [exact A|exact B].
Qed.
Lemma rounded_accurate (g : R -> R) : (forall x, Rabs (g x) <= 1) -> accurate (fun x => double_of (g (F2R64 x))) g.
Proof.
  intros B x Fx. destruct (double_of_correct (g (F2R64 x))) as [E F]; [apply no_ovf_1; apply Rabs_le_inv; apply B|].
  split; [exact F|]. rewrite E. assert (P := hh_pos). eapply Rle_trans; [apply (err_bound _ 1)|].
  - change 1 with (bpow radix2 0). apply bpow_le. lia.
  - apply B.
  - rewrite b52. lra.
Qed.
