(** Cached trigonometry and laser messages (C40, C44). *)
From Coq Require Import Reals ZArith List Lia Lra Bool.
From Flocq Require Import Core.
From Verif.Base Require Import Outcome Num.
From Verif.Model Require Import MathUtils Geometry Sensor Trig LaserObserver.
From Verif.Proofs Require Import GridNumProofs.
Import ListNotations.
Local Open Scope R_scope.

Lemma tc_angles_spec fuel : forall (a b d : R) l, 0 < d -> tc_angles fuel a b d = Ok l ->
  forall k, nth_error l k = if R_lt (a + INR k * d) b then Some (a + INR k * d) else None.
Proof.
  induction fuel as [|fuel IH]; intros a b d l Hd E k; cbn [tc_angles dlt dadd ROps] in E; destruct (R_lt a b) eqn:L; try discriminate.
  - injection E as <-. apply R_lt_false in L. replace (nth_error [] k) with (@None R) by (destruct k; reflexivity).
    assert (0 <= INR k) by apply pos_INR. replace (R_lt (a + INR k * d) b) with false; [reflexivity|].
    symmetry. apply R_lt_false. nra.
  - apply bind_Ok_inv in E as (t & Et & E). injection E as <-. destruct k as [|k]; cbn [nth_error].
    + cbn [INR]. rewrite Rmult_0_l, Rplus_0_r, L. reflexivity.
    + rewrite (IH _ _ _ _ Hd Et k), S_INR. replace (a + (INR k + 1) * d) with (a + d + INR k * d) by ring. reflexivity.
  - injection E as <-. apply R_lt_false in L. replace (nth_error [] k) with (@None R) by (destruct k; reflexivity).
    assert (0 <= INR k) by apply pos_INR. replace (R_lt (a + INR k * d) b) with false; [reflexivity|].
    symmetry. apply R_lt_false. nra.
Qed.

(** enough fuel always exists *)
Lemma tc_angles_total (a b d : R) n : 0 < d -> b <= a + INR n * d -> exists l, tc_angles n a b d = Ok l /\ (length l <= n)%nat.
Proof.
  intros Hd. revert a. induction n as [|n IH]; intros a H; cbn [tc_angles dlt dadd ROps].
  - cbn [INR] in H. replace (R_lt a b) with false by (symmetry; apply R_lt_false; lra). exists []. auto.
  - destruct (R_lt a b); [|exists []; split; [reflexivity|cbn; lia]].
    destruct (IH (a + d)) as (l & E & HL); [rewrite S_INR in H; lra|]. rewrite E. cbn [bind]. exists (a :: l). cbn [length]. split; [reflexivity|lia].
Qed.

Lemma round_int_near (x : R) (k : Z) : Rabs (x - IZR k) < 1 / 2 -> (0 <= k <= 2 ^ 31 - 1)%Z -> round_int x = Ok k.
Proof.
  intros H Hk. apply Rabs_def2 in H. unfold round_int. cbn [dfloor ROps dlt dle dadd dofZ]. unfold dlit. cbn [ddiv dofZ ROps].
  assert (K : Zfloor x = k /\ x < IZR k + 1 / 2 /\ IZR k <= x \/ Zfloor x = (k - 1)%Z /\ IZR k - 1 / 2 < x /\ x < IZR k).
  { destruct (Rle_or_lt (IZR k) x) as [L|L].
    - left. split; [|lra]. apply Zfloor_imp. rewrite plus_IZR. lra.
    - right. split; [|lra]. apply Zfloor_imp. rewrite !minus_IZR, plus_IZR, minus_IZR. lra. }
  assert (T : forall z : Z, z = k -> to_int (Some z) = Ok k).
  { intros z ->. unfold to_int, in_int, int_min, int_max. replace ((- 2 ^ 31 <=? k)%Z) with true by lia. replace ((k <=? 2 ^ 31 - 1)%Z) with true by lia. reflexivity. }
  destruct K as [(F & A & B)|(F & A & B)]; rewrite F.
  - assert (Q : R_le (IZR k + 1 / 2) x = false) by (apply R_le_false; lra).
    assert (Q' : R_lt (IZR k + 1 / 2) x = false) by (apply R_lt_false; lra).
    rewrite Q, Q'. destruct (R_lt x 0); apply T; reflexivity.
  - rewrite minus_IZR.
    assert (Q : R_le (IZR k - 1 + 1 / 2) x = true) by (apply R_le_true; lra).
    assert (Q' : R_lt (IZR k - 1 + 1 / 2) x = true) by (apply R_lt_true; lra).
    rewrite Q, Q'. destruct (R_lt x 0); apply T; lia.
Qed.

Definition tc_good (t : tcache R) : Prop :=
  (exists fuel l, tc_angles fuel (tc_min t) (tc_max t) (tc_delta t) = Ok l /\ tc_sin t = map sin l /\ tc_cos t = map cos l) /\
  (0 < tc_delta t -> tc_max t - tc_min t < IZR (2 ^ 31 - 1) * tc_delta t).

Lemma tc_new_good : tc_good (tc_new cos sin).
Proof.
  split; [exists O, []|]; cbn.
  - replace (R_lt 0 0) with false by (symmetry; apply R_lt_false; lra). auto.
  - lra.
Qed.
Lemma tc_update_good fuel (a b d : R) t t' : tc_good t -> tc_update cos sin fuel a b d t = Ok t' ->
  tc_good t' /\ tc_min t' = a /\ tc_max t' = b /\ tc_delta t' = d /\ tc_sb t' = tc_sb t /\ tc_cb t' = tc_cb t.
Proof.
  intros G E. unfold tc_update in E. cbn [deq ROps] in E.
  destruct (R_eq a (tc_min t) && R_eq b (tc_max t) && R_eq d (tc_delta t))%bool eqn:Q.
  - injection E as <-. rewrite !andb_true_iff, !R_eq_true in Q. intuition.
  - apply bind_Ok_inv in E as (nm & En & E). apply bind_Ok_inv in E as ([] & A & E). apply bind_Ok_inv in E as (l & El & E).
    injection E as <-. cbn [tc_min tc_max tc_delta tc_sb tc_cb]. split; [|auto].
    split; cbn [tc_min tc_max tc_delta tc_sin tc_cos]; [exists fuel, l; auto|].
    intros Hd. unfold trunc_int in En. cbn [dtrunc ROps dadd ddiv dsub dofZ] in En. apply to_int_Ok in En as [En I].
    injection En as En. unfold in_int, int_max in I. apply andb_true_iff in I as [_ I]. apply Z.leb_le in I.
    set (q := (b - a) / d) in *. assert (Eq : b - a = q * d) by (unfold q; field; lra). rewrite Eq.
    apply Rmult_lt_compat_r; [exact Hd|].
    apply Rnot_le_lt. intros C.
    assert (IZR (2 ^ 31) <= q + 1) by (rewrite minus_IZR in C; lra).
    assert (2 ^ 31 <= Ztrunc (q + 1))%Z.
    { rewrite Ztrunc_floor by (apply Rle_trans with (IZR (2 ^ 31)); [apply IZR_le; lia|assumption]). now apply Zfloor_lub. }
    lia.
Qed.

Lemma tc_lookup_R (t : tcache R) (f : R -> R) table l fuel (k : nat) (angle : R) : 0 < tc_delta t ->
  tc_max t - tc_min t < IZR (2 ^ 31 - 1) * tc_delta t ->
  tc_angles fuel (tc_min t) (tc_max t) (tc_delta t) = Ok l -> table = map f l ->
  Rabs (angle - (tc_min t + INR k * tc_delta t)) < tc_delta t / 2 -> tc_min t + INR k * tc_delta t < tc_max t ->
  tc_lookup t table angle = Ok (f (tc_min t + INR k * tc_delta t)).
Proof.
  intros Hd HM El -> Ha Hk. unfold tc_lookup. cbn [ddiv dsub ROps].
  rewrite (round_int_near _ (Z.of_nat k)).
  - cbn [bind]. destruct (Z.ltb_spec (Z.of_nat k) 0); [lia|]. rewrite Nat2Z.id, nth_error_map, (tc_angles_spec fuel _ _ _ _ Hd El k).
    replace (R_lt _ _) with true by (symmetry; now apply R_lt_true). reflexivity.
  - replace ((angle - tc_min t) / tc_delta t - IZR (Z.of_nat k)) with ((angle - (tc_min t + INR k * tc_delta t)) / tc_delta t)
      by (rewrite <- INR_IZR_INZ; field; lra).
    unfold Rdiv. rewrite Rabs_mult, (Rabs_pos_eq (/ tc_delta t)) by (left; now apply Rinv_0_lt_compat).
    apply Rmult_lt_reg_r with (tc_delta t); [exact Hd|]. rewrite Rmult_assoc, Rinv_l by lra. lra.
  - split; [lia|]. assert (INR k < IZR (2 ^ 31 - 1)).
    { apply Rmult_lt_reg_r with (tc_delta t); [exact Hd|]. lra. }
    rewrite INR_IZR_INZ in H. apply lt_IZR in H. lia.
Qed.

Lemma tc_good_exact (t : tcache R) (base : R) (k : nat) (angle : R) : tc_good t -> tc_sb t = sin base -> tc_cb t = cos base ->
  0 < tc_delta t -> tc_min t + INR k * tc_delta t < tc_max t -> Rabs (angle - (tc_min t + INR k * tc_delta t)) < tc_delta t / 2 ->
  tc_sin_of t angle = Ok (sin (base + (tc_min t + INR k * tc_delta t))) /\
  tc_cos_of t angle = Ok (cos (base + (tc_min t + INR k * tc_delta t))).
Proof.
  intros [(fuel & l & El & Es & Ec) HM] Hs Hc Hd Hk Ha. unfold tc_sin_of, tc_cos_of.
  rewrite (tc_lookup_R t cos (tc_cos t) l fuel k angle), (tc_lookup_R t sin (tc_sin t) l fuel k angle); auto. cbn [bind dadd dsub dmul ROps].
  rewrite Hs, Hc, (sin_plus base), (cos_plus base). split; reflexivity.
Qed.

(** the last parameters given in a history of calls *)
Fixpoint last_update (l : list (tc_op R)) (acc : R * R * R) : R * R * R :=
  match l with [] => acc | TUpdate a b d :: l => last_update l (a, b, d) | TBase _ :: l => last_update l acc end.
Fixpoint last_base (l : list (tc_op R)) (acc : R) : R :=
  match l with [] => acc | TUpdate _ _ _ :: l => last_base l acc | TBase x :: l => last_base l x end.

Lemma tc_run_good fuel ops : forall t t' base, tc_good t -> tc_sb t = sin base -> tc_cb t = cos base -> tc_run cos sin fuel t ops = Ok t' ->
  tc_good t' /\ (tc_min t', tc_max t', tc_delta t') = last_update ops (tc_min t, tc_max t, tc_delta t) /\
  tc_sb t' = sin (last_base ops base) /\ tc_cb t' = cos (last_base ops base).
Proof.
  induction ops as [|[a b d|x] ops IH]; intros t t' base G S C E; cbn [tc_run last_update last_base] in *.
  - injection E as <-. auto.
  - apply bind_Ok_inv in E as (t1 & E1 & E). destruct (tc_update_good fuel a b d t t1 G E1) as (G1 & A1 & A2 & A3 & A4 & A5).
    destruct (IH t1 t' base G1 ltac:(congruence) ltac:(congruence) E) as (R1 & R2 & R3). rewrite <- A1, <- A2, <- A3. auto.
  - apply (IH (tc_set_base cos sin t x) t' x) in E; auto.
Qed.

(** ** messages *)
Definition beam_points (m : laser_msg R) (skip_max : bool) (i : Z) (r : R) : list (scan_point R) :=
  let angle := lm_amin m + IZR i * lm_inc m in
  if Rlt_dec r (lm_rmin m) then []
  else if Rle_dec (lm_rmax m) r then (if skip_max then [] else [mkSP true (lm_rmax m) angle 1 false])
  else [mkSP true r angle 1 true].
Fixpoint beams (m : laser_msg R) (skip_max : bool) (i : Z) (ranges : list R) : list (scan_point R) :=
  match ranges with [] => [] | r :: ranges => beam_points m skip_max i r ++ beams m skip_max (i + 1) ranges end.

Lemma msg_points_R (m : laser_msg R) skip_max ranges : forall i,
  msg_points m skip_max ranges (lm_amin m + IZR (i - 1) * lm_inc m) =
  (beams m skip_max i ranges, lm_amin m + IZR (i - 1 + Z.of_nat (length ranges)) * lm_inc m).
Proof.
  induction ranges as [|r ranges IH]; intros i; cbn [msg_points beams length].
  - rewrite Z.add_0_r. reflexivity.
  - cbn [dadd ROps]. replace (lm_amin m + IZR (i - 1) * lm_inc m + lm_inc m) with (lm_amin m + IZR (i + 1 - 1) * lm_inc m)
      by (rewrite !minus_IZR, plus_IZR; ring).
    rewrite IH. replace (i + 1 - 1 + Z.of_nat (length ranges))%Z with (i - 1 + Z.of_nat (S (length ranges)))%Z by lia.
    unfold beam_points, sp_make_polar. cbn [dlt dle dofZ ROps]. unfold R_lt, R_le. replace (i + 1 - 1)%Z with i by lia.
    destruct (Rlt_dec r (lm_rmin m)); [reflexivity|]. destruct (Rle_dec (lm_rmax m) r); [destruct skip_max; reflexivity|reflexivity].
Qed.

Lemma msg2points_R (m : laser_msg R) skip_max pts : msg2points PI m skip_max = Ok pts ->
  pts = beams m skip_max 0 (lm_ranges m) /\
  Rabs (lm_amin m + IZR (Z.of_nat (length (lm_ranges m)) - 1) * lm_inc m - lm_amax m) <= 1 / 1000 * PI / 180.
Proof.
  unfold msg2points. cbn [dsub ROps]. replace (lm_amin m - lm_inc m) with (lm_amin m + IZR (0 - 1) * lm_inc m) by (cbn; ring).
  rewrite msg_points_R. intros E. apply bind_Ok_inv in E as ([] & A & E). injection E as <-. split; [reflexivity|].
  unfold are_equal_eps in A. destruct (dle _ _) eqn:L in A; [|discriminate]. cbn in L. apply R_le_true in L.
  replace (Z.of_nat (length (lm_ranges m)) - 1)%Z with (0 - 1 + Z.of_nat (length (lm_ranges m)))%Z by lia. cbn. cbn in L. lra.
Qed.

Lemma beams_In (m : laser_msg R) skip_max ranges s : forall i, In s (beams m skip_max i ranges) ->
  exists k r, nth_error ranges k = Some r /\ In s (beam_points m skip_max (i + Z.of_nat k) r).
Proof.
  induction ranges as [|r ranges IH]; intros i H; cbn [beams] in H; [destruct H|]. apply in_app_iff in H as [H|H].
  - exists O, r. cbn. rewrite Z.add_0_r. auto.
  - destruct (IH _ H) as (k & r' & A & B). exists (S k), r'. split; [exact A|].
    replace (i + Z.of_nat (S k))%Z with (i + 1 + Z.of_nat k)%Z by lia. exact B.
Qed.
Lemma beam_points_angle (m : laser_msg R) skip_max i r s : In s (beam_points m skip_max i r) ->
  sp_polar s = true /\ sp_v s = lm_amin m + IZR i * lm_inc m.
Proof.
  unfold beam_points. destruct (Rlt_dec _ _); [intros []|]. destruct (Rle_dec _ _); [destruct skip_max; [intros []|]|]; intros [<-|[]]; auto.
Qed.

Lemma pose_deltas_sum (poses : list (pose R)) : forall prev,
  let sum f := fold_right (fun d acc => f d + acc) 0 (pose_deltas prev poses) in
  sum px = px (last poses prev) - px prev /\ sum py = py (last poses prev) - py prev /\ sum pth = pth (last poses prev) - pth prev.
Proof.
  induction poses as [|p poses IH]; intros prev; cbn [pose_deltas fold_right].
  - cbn [last]. lra.
  - destruct (IH p) as (A & B & C). cbv zeta in *. rewrite A, B, C.
    assert (E : last (p :: poses) prev = last poses p).
    { clear. revert p prev. induction poses as [|q poses IH]; intros p prev; [reflexivity|].
      change (last (p :: q :: poses) prev) with (last (q :: poses) prev). rewrite IH. symmetry. apply IH. }
    rewrite E. cbn. lra.
Qed.
