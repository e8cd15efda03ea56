(** C40 laser messages, C44 cached trigonometry, C51 angle histograms. *)
From Coq Require Import Reals ZArith List Lia Lra Bool.
From Flocq Require Import Core.
From Verif.Base Require Import Outcome Num.
From Verif.Model Require Import MathUtils Geometry Sensor Trig LaserObserver Histogram.
From Verif.Spec Require Import LaserSpec DirectionSpec.
From Verif.Proofs Require Import FixedHcProofs TrigProofs HistProofs AlignProofs.
Import ListNotations.
Local Open Scope R_scope.

(** C40.  [scan_of_beams] (Spec/LaserSpec.v) says what becomes of each beam. *)
Theorem C40_message_becomes_exactly_its_beams :
  forall (m : laser_msg R) (skip_max : bool) (pts : list (scan_point R)),
  msg2points PI m skip_max = Ok pts ->
  pts = scan_of_beams (lm_amin m) (lm_inc m) (lm_rmin m) (lm_rmax m) skip_max (lm_ranges m).
Proof.
  intros m skip_max pts E. apply msg2points_R in E as [-> _]. unfold scan_of_beams.
  assert (G : forall l k, beams m skip_max (Z.of_nat k) l =
    flat_map (fun ir => beam_result (lm_amin m) (lm_inc m) (lm_rmin m) (lm_rmax m) skip_max (fst ir) (snd ir)) (combine (seq k (length l)) l)).
  { induction l as [|r l IH]; intros k; [reflexivity|]. cbn [beams length seq combine flat_map fst snd].
    replace (Z.of_nat k + 1)%Z with (Z.of_nat (S k)) by lia. rewrite IH. f_equal.
    unfold beam_points, beam_result. now rewrite <- INR_IZR_INZ. }
  apply (G _ O).
Qed.
Print Assumptions C40_message_becomes_exactly_its_beams.

(** it is refused (assertion) exactly when the last beam's angle is not the announced maximum within 0.001 degree *)
Theorem C40_message_is_refused_iff_its_fan_is_inconsistent :
  forall (m : laser_msg R) (skip_max : bool),
  (exists pts, msg2points PI m skip_max = Ok pts) <->
  Rabs (lm_amin m + (INR (length (lm_ranges m)) - 1) * lm_inc m - lm_amax m) <= 1 / 1000 * PI / 180.
Proof.
  intros m skip_max. unfold msg2points. cbn [dsub ROps].
  replace (lm_amin m - lm_inc m) with (lm_amin m + IZR (0 - 1) * lm_inc m) by (cbn; ring). rewrite msg_points_R.
  unfold are_equal_eps. cbn [dle dsub dabs ROps]. unfold deg2rad, dlit. cbn [ddiv dmul dofZ ROps].
  replace (IZR (0 - 1 + Z.of_nat (length (lm_ranges m)))) with (INR (length (lm_ranges m)) - 1)
    by (rewrite plus_IZR, <- INR_IZR_INZ; cbn; ring).
  destruct (R_le _ _) eqn:L; cbn [assert_ bind].
  - apply R_le_true in L. split; [intros _; exact L|eauto].
  - apply R_le_false in L. split; [intros [pts H]; discriminate|lra].
Qed.
Print Assumptions C40_message_is_refused_iff_its_fan_is_inconsistent.

(** the odometry deltas handed over for successive messages add up to the total displacement *)
Theorem C40_odometry_deltas_add_up :
  forall (prev : pose R) (poses : list (pose R)),
  let sum f := fold_right (fun d acc => f d + acc) 0 (pose_deltas prev poses) in
  sum px = px (last poses prev) - px prev /\ sum py = py (last poses prev) - py prev /\ sum pth = pth (last poses prev) - pth prev.
Proof. intros. apply pose_deltas_sum. Qed.
Print Assumptions C40_odometry_deltas_add_up.

(** NaN ranges (invalid readings in ROS) are kept as obstacles *)
Theorem C40_nan_ranges_become_obstacles :
  let nan := ddiv (dofZ 0) (dofZ 0) : F64 in
  let m := mkMsg (dofZ 0) (dofZ 0) (dofZ 1) (dlit 1 10) (dofZ 30) [nan] in
  match msg2points (dlit 3141592653589793 1000000000000000) m true with
  | Ok [s] => sp_occ s && disnan (sp_range s) | _ => false end = true.
Proof. vm_compute. reflexivity. Qed.
Print Assumptions C40_nan_ranges_become_obstacles.

Example C40_case : let m := mkMsg 0 2 1 (1 / 10) 30 [5; 1 / 20; 40] in
  (exists pts, msg2points PI m false = Ok pts) /\
  scan_of_beams (lm_amin m) (lm_inc m) (lm_rmin m) (lm_rmax m) false (lm_ranges m) =
    [mkSP true 5 (0 + INR 0 * 1) 1 true; mkSP true 30 (0 + INR 2 * 1) 1 false].
Proof.
  cbv zeta. split.
  - apply C40_message_is_refused_iff_its_fan_is_inconsistent. cbn [lm_amin lm_amax lm_inc lm_ranges length INR].
    replace (0 + (1 + 1 + 1 - 1) * 1 - 2) with 0 by ring. rewrite Rabs_R0. assert (P := PI_RGT_0). lra.
  - unfold scan_of_beams. cbn [lm_amin lm_inc lm_rmin lm_rmax lm_ranges length seq combine flat_map fst snd]. unfold beam_result.
    repeat (destruct (Rlt_dec _ _) || destruct (Rle_dec _ _)); try lra. reflexivity.
Qed.

(** C44.  Any sequence of update / set_base_angle calls on a fresh provider; [last_update], [last_base] read off the last
    parameters given (Proofs/TrigProofs.v).  Angles may be off a table angle by less than half a step. *)
Theorem C44_cached_trigonometry_is_exact :
  forall (fuel : nat) (ops : list (tc_op R)) (t : tcache R) (a b d base angle : R) (k : nat),
  tc_run cos sin fuel (tc_new cos sin) ops = Ok t ->
  last_update ops (0, 0, 0) = (a, b, d) -> last_base ops 0 = base ->
  0 < d -> a + INR k * d < b -> Rabs (angle - (a + INR k * d)) < d / 2 ->
  tc_sin_of t angle = Ok (sin (base + (a + INR k * d))) /\ tc_cos_of t angle = Ok (cos (base + (a + INR k * d))).
Proof.
  intros fuel ops t a b d base angle k E HU HB Hd Hk Ha.
  destruct (tc_run_good fuel ops (tc_new cos sin) t 0 tc_new_good eq_refl eq_refl E) as (G & HP & Hs & Hc).
  change (tc_min (tc_new cos sin), tc_max (tc_new cos sin), tc_delta (tc_new cos sin)) with (0, 0, 0) in HP.
  rewrite HU in HP. injection HP as P1 P2 P3. rewrite HB in *.
  rewrite <- P1, <- P3 in *. rewrite <- P2 in Hk. now apply tc_good_exact.
Qed.
Print Assumptions C44_cached_trigonometry_is_exact.

(** the provider made for a laser message (with a step above 0.001 degree) serves every point of the converted scan, and gives
    exactly what the direct provider gives *)
Theorem C44_every_scan_point_is_in_the_table :
  forall (fuel : nat) (m : laser_msg R) (skip_max : bool) (pts : list (scan_point R)) (t : tcache R) (s : scan_point R) (base : R) (datan2 : R -> R -> R),
  1 / 1000 * PI / 180 < lm_inc m ->
  msg2points PI m skip_max = Ok pts -> msg_trig_cache cos sin fuel m = Ok t -> In s pts ->
  tp_sin (tc_trig (tc_set_base cos sin t base)) (sp_angle datan2 s) = tp_sin (raw_trig cos sin base) (sp_angle datan2 s) /\
  tp_cos (tc_trig (tc_set_base cos sin t base)) (sp_angle datan2 s) = tp_cos (raw_trig cos sin base) (sp_angle datan2 s).
Proof.
  intros fuel m skip_max pts t s base datan2 Hi EP ET Hin. apply msg2points_R in EP as [-> HA].
  assert (P := PI_RGT_0). assert (Hd : 0 < lm_inc m) by lra.
  apply beams_In in Hin as (k & r & Hk & Hs). rewrite Z.add_0_l in Hs. apply beam_points_angle in Hs as [Hpol Hv].
  assert (EA : sp_angle datan2 s = lm_amin m + INR k * lm_inc m) by (unfold sp_angle; now rewrite Hpol, Hv, INR_IZR_INZ). rewrite EA.
  unfold msg_trig_cache in ET. cbn [dadd ROps] in ET.
  destruct (tc_update_good fuel _ _ _ _ _ tc_new_good ET) as (G & A1 & A2 & A3 & _).
  cbn [tp_sin tp_cos tc_trig raw_trig dadd ROps].
  set (t' := tc_set_base cos sin t base).
  assert (G' : tc_good t') by exact G.
  assert (Hlt : (k < length (lm_ranges m))%nat) by (apply nth_error_Some; congruence).
  assert (LE : INR k <= INR (length (lm_ranges m)) - 1) by (rewrite <- (S_INR k) || idtac; assert (INR (S k) <= INR (length (lm_ranges m))) by (apply le_INR; lia); rewrite S_INR in *; lra).
  apply Rabs_le_inv in HA. rewrite minus_IZR, <- INR_IZR_INZ in HA.
  destruct (tc_good_exact t' base k (lm_amin m + INR k * lm_inc m) G' eq_refl eq_refl) as [S C];
    change (tc_min t') with (tc_min t) in *; change (tc_max t') with (tc_max t) in *; change (tc_delta t') with (tc_delta t) in *;
    rewrite ?A1, ?A2, ?A3 in *; auto.
  - assert (INR k * lm_inc m <= (INR (length (lm_ranges m)) - 1) * lm_inc m) by (apply Rmult_le_compat_r; lra). lra.
  - rewrite Rminus_diag_eq, Rabs_R0 by reflexivity. lra.
Qed.
Print Assumptions C44_every_scan_point_is_in_the_table.

(** the table ends before a_max, and nothing checks the index: the fan's end angle itself is out of bounds when the fan is
    exact (binary64, any sine and cosine) *)
Theorem C44_end_angle_is_out_of_bounds_refuted :
  forall fsin fcos : F64 -> F64,
  match tc_update fcos fsin 10 (dofZ 0) (dofZ 1) (dlit 1 4) (tc_new fcos fsin) with
  | Ok t => match tc_sin_of t (dofZ 1) with UB => true | _ => false end
  | _ => false
  end = true.
Proof. intros fsin fcos. vm_compute. reflexivity. Qed.
Print Assumptions C44_end_angle_is_out_of_bounds_refuted.

(** a clockwise fan (negative step, max below min) leaves the table empty: every lookup is out of bounds *)
Theorem C44_clockwise_fans_have_no_table :
  forall (fuel : nat) (a b d : R) (t t' : tcache R) (angle : R), b <= a -> (a <> tc_min t \/ b <> tc_max t \/ d <> tc_delta t) ->
  tc_update cos sin fuel a b d t = Ok t' -> forall x, tc_sin_of t' angle <> Ok x.
Proof.
  intros fuel a b d t t' angle H NE E x. unfold tc_update in E. cbn [deq ROps] in E.
  assert (Q : (R_eq a (tc_min t) && R_eq b (tc_max t) && R_eq d (tc_delta t))%bool = false).
  { apply not_true_is_false. rewrite !andb_true_iff, !R_eq_true. tauto. }
  rewrite Q in E. apply bind_Ok_inv in E as (nm & _ & E). apply bind_Ok_inv in E as ([] & _ & E). apply bind_Ok_inv in E as (l & El & E).
  assert (l = []).
  { destruct fuel; cbn [tc_angles dlt ROps] in El; replace (R_lt a b) with false in El by (symmetry; apply R_lt_false; lra); congruence. }
  subst l. injection E as <-. unfold tc_sin_of, tc_lookup. cbn [tc_cos map]. destruct (round_int _); cbn [bind]; try discriminate.
  destruct (_ <? _)%Z; cbn [bind]; [discriminate|]. destruct (Z.to_nat a0); discriminate.
Qed.
Print Assumptions C44_clockwise_fans_have_no_table.

Example C44_case : exists t, tc_run cos sin 10 (tc_new cos sin) [TUpdate 0 1 (1 / 4); TBase 2; TUpdate 0 1 (1 / 4)] = Ok t /\
  last_update [TUpdate 0 1 (1 / 4); TBase 2; TUpdate 0 1 (1 / 4)] (0, 0, 0) = (0, 1, 1 / 4) /\ 0 + INR 3 * (1 / 4) < 1.
Proof.
  assert (U : forall t, tc_good t -> exists t', tc_update cos sin 10 0 1 (1 / 4) t = Ok t' /\ tc_good t').
  { intros t G. unfold tc_update. destruct (deq 0 (tc_min t) && deq 1 (tc_max t) && deq (1 / 4) (tc_delta t))%bool eqn:Q; [exists t; auto|].
    unfold trunc_int. cbn [dadd ddiv dsub dofZ dtrunc ROps]. replace ((1 - 0) / (1 / 4) + 1) with 5 by field.
    rewrite (Ztrunc_IZR 5). cbn [to_int in_int bind assert_]. 
    destruct (tc_angles_total 0 1 (1 / 4) 10) as (l & E & _); [lra|cbn; lra|]. change (to_int (Some 5%Z)) with (Ok 5%Z). cbn [bind Z.leb Z.compare assert_]. rewrite E. cbn [bind].
    eexists. split; [reflexivity|]. split; cbn [tc_min tc_max tc_delta tc_sin tc_cos]; [exists 10%nat, l; auto|].
    intros _. assert (IZR 2 <= IZR (2 ^ 31 - 1))%R by (apply IZR_le; lia). apply Rlt_le_trans with (5 * (1/4)); [lra|].
    apply Rmult_le_compat_r; [lra|]. apply IZR_le; lia. }
  cbn [tc_run]. destruct (U _ tc_new_good) as (t1 & E1 & G1). rewrite E1. cbn [bind].
  destruct (U (tc_set_base cos sin t1 2)) as (t2 & E2 & G2); [exact G1|]. rewrite E2. cbn [bind].
  exists t2. split; [reflexivity|]. split; [reflexivity|]. cbn. lra.
Qed.

(** C51, exact reals: building never fails, [idx] gives the column of every consecutive pair: the one that holds the direction
    of the line through the two points ([heads], Spec/DirectionSpec.v), every column counts its pairs,
    the counts add up to the number of pairs, and every point's weight is defined, positive and at most 1 *)
Theorem C51_histogram_counts_every_edge_once :
  forall (n : nat) (p : scan_point R) (pts : list (scan_point R)), (0 < n)%nat ->
  exists h idx, hist_reset cos sin acos PI n (p :: pts) = Ok h /\ length (h_cols h) = n /\ length idx = length pts /\
    (forall k, nth_error (edges p pts) k = None <-> nth_error idx k = None) /\
    (forall k e i, nth_error (edges p pts) k = Some e -> nth_error idx k = Some i ->
       (i < n)%nat /\ exists a, heads e a /\ INR i * (PI / INR n) <= a < (INR i + 1) * (PI / INR n)) /\
    (forall i, (i < n)%nat -> nth_error (h_cols h) i = Some (Z.of_nat (count_occ Nat.eq_dec idx i))) /\
    fold_right Z.add 0%Z (h_cols h) = Z.of_nat (length pts).
Proof.
  intros n p pts Hn. unfold hist_reset.
  destruct (hist_loop_R n pts Hn p (repeat 0%Z n) (repeat (dofZ 0) n) (repeat_length _ _)) as (cols & sums & idx & E & F & HL & HC).
  rewrite E. cbn [bind]. eexists. exists idx. split; [reflexivity|]. cbn [h_cols].
  assert (LI : length idx = length pts) by (rewrite <- (edges_length pts p); symmetry; clear - F; induction F; cbn [length]; congruence).
  assert (HC' : forall i, (i < n)%nat -> nth_error cols i = Some (Z.of_nat (count_occ Nat.eq_dec idx i))).
  { intros i Hi. rewrite HC. rewrite (nth_error_repeat _ Hi). reflexivity. }
  split; [exact HL|]. split; [exact LI|]. split.
  { intros k. rewrite !nth_error_None, LI, edges_length. tauto. }
  split.
  { assert (G : forall k e i, nth_error (edges p pts) k = Some e -> nth_error idx k = Some i -> hist_index PI n (edge_angle e) = Ok i /\ (i < n)%nat).
    { clear - F. induction F; intros [|k] e i A B; try discriminate; cbn in *; [injection A as <-; injection B as <-; assumption|eauto]. }
    intros k e i A B. destruct (G k e i A B) as [I L]. split; [exact L|].
    exists (edge_angle e). split; [destruct e; apply ox_angle_heads|].
    destruct (hist_index_R n (edge_angle e) Hn (ox_angle_range _ _)) as (i' & I' & _ & R'). rewrite I in I'. injection I' as <-. exact R'. }
  split; [exact HC'|].
  assert (HI : forall k, In k idx -> (k < n)%nat).
  { clear - F. induction F as [|e i es is [_ H] _ IH]; intros k []; [now subst|auto]. }
  rewrite <- LI, <- (zsum_app_count n idx HI). f_equal.
  apply nth_ext with (d := 0%Z) (d' := 0%Z); [now rewrite map_length, seq_length|].
  intros i Hi. rewrite HL in Hi. rewrite (nth_error_nth _ _ _ (HC' i Hi)).
  rewrite (nth_indep _ 0%Z (Z.of_nat (count_occ Nat.eq_dec idx 0%nat))) by (rewrite map_length, seq_length; exact Hi).
  rewrite (map_nth (fun k => Z.of_nat (count_occ Nat.eq_dec idx k)) (seq 0 n) 0%nat i), seq_nth by exact Hi. reflexivity.
Qed.
Print Assumptions C51_histogram_counts_every_edge_once.

(** an edge has one direction, so the column of an edge is determined *)
Theorem C51_direction_is_unique : forall (e : scan_point R * scan_point R) (a b : R), heads e a -> heads e b -> a = b.
Proof. exact heads_unique. Qed.
Print Assumptions C51_direction_is_unique.

Theorem C51_every_point_has_a_positive_weight :
  forall (n : nat) (pts : list (scan_point R)) (h : hist R) (i : nat), (0 < n)%nat ->
  hist_reset cos sin acos PI n pts = Ok h -> (i < length pts)%nat ->
  exists w, ahr_weight PI h pts i = Ok w /\ 0 < w <= 1.
Proof.
  intros n [|p pts] h i Hn E Hi; [cbn in Hi; lia|]. unfold hist_reset in E.
  destruct (hist_loop_R n pts Hn p (repeat 0%Z n) (repeat (dofZ 0) n) (repeat_length _ _)) as (cols & sums & idx & EL & F & HL & HC).
  rewrite EL in E. cbn [bind] in E. injection E as <-.
  assert (W : forall v : Z, (1 <= v)%Z -> exists w, (_ <- assert_ (negb (v =? 0)%Z) ;; Ok (ddiv (dofZ 1) (dofZ v)))%out = Ok w /\ 0 < w <= 1).
  { intros v Hv. destruct (Z.eqb_spec v 0); [lia|]. cbn [negb assert_ bind]. eexists. split; [reflexivity|]. cbn [ddiv dofZ ROps].
    assert (1 <= IZR v) by (apply IZR_le; lia). unfold Rdiv. rewrite Rmult_1_l. split; [apply Rinv_0_lt_compat; lra|].
    apply Rle_trans with (/ 1); [apply Rinv_le_contravar; lra|rewrite Rinv_1; lra]. }
  unfold ahr_weight, hist_value. destruct i as [|i].
  - cbn [bind length]. apply W. lia.
  - cbn [h_dirs nth_error h_n h_cols]. cbn [length] in Hi.
    rewrite nth_error_map. destruct (nth_error (edges p pts) i) as [e|] eqn:Ee.
    2: { apply nth_error_None in Ee. rewrite edges_length in Ee. lia. }
    assert (G : exists k, nth_error idx i = Some k /\ hist_index PI n (edge_angle e) = Ok k /\ (k < n)%nat).
    { clear - F Ee. revert i Ee. induction F; intros [|i] Ee; cbn in *; try discriminate; [injection Ee as <-; eauto|eauto]. }
    destruct G as (k & Hk & Ek & Lk). cbn [option_map]. rewrite Ek. cbn [bind]. rewrite HC, (nth_error_repeat _ Lk). cbn [option_map bind].
    apply W. assert (C := proj1 (count_occ_In Nat.eq_dec idx k) (nth_error_In _ _ Hk)). lia.
Qed.
Print Assumptions C51_every_point_has_a_positive_weight.

(** in binary64 the assertion angle < pi can fail: two points one metre apart whose y differ by a nanometre (any acos with
    acos(-1) = M_PI) *)
Theorem C51_almost_horizontal_edges_abort_refuted :
  forall (fcos fsin facos : F64 -> F64) (mpi : F64), facos (dofZ (-1)) = mpi ->
  let p := sp_make_cartesian (dofZ 1, dofZ 0) true in let q := sp_make_cartesian (dofZ 0, dlit 1 1000000000) true in
  hist_reset fcos fsin facos mpi 20 [p; q] = Abort.
Proof.
  intros fcos fsin facos mpi H p q. unfold hist_reset, hist_loop.
  assert (A : ox_angle fcos fsin facos mpi p q = mpi).
  { rewrite <- H. unfold ox_angle. unfold sp_x, sp_y. cbn [p q sp_make_cartesian sp_polar sp_u sp_v ptx pty fst snd].
    match goal with |- (if ?c then _ else _) = _ => replace c with false by (vm_compute; reflexivity) end. cbv zeta.
    match goal with |- (if ?c then _ else _) = _ => replace c with false by (vm_compute; reflexivity) end.
    f_equal. apply F_eq_bits_eq. vm_compute. reflexivity. }
  rewrite A. unfold hist_index. assert (L : dlt mpi mpi = false) by apply OrdLaws.lt_irrefl_. rewrite L, andb_false_r. reflexivity.
Qed.
Print Assumptions C51_almost_horizontal_edges_abort_refuted.

Example C51_case : exists h, hist_reset cos sin acos PI 20 [sp_make_cartesian (0, 0) true; sp_make_cartesian (1, 1) true; sp_make_cartesian (2, 0) true] = Ok h.
Proof. destruct (C51_histogram_counts_every_edge_once 20 (sp_make_cartesian (0, 0) true) [sp_make_cartesian (1, 1) true; sp_make_cartesian (2, 0) true] ltac:(lia)) as (h & idx & E & _). eauto. Qed.
