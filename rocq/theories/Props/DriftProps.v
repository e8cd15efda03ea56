(** C63-C65: the ambiguous drift detector. *)
From Coq Require Import ZArith List Bool Lia Reals Lra.
From Verif.Base Require Import Outcome Num F64Facts OrdLaws.
From Verif.Model Require Import MathUtils Geometry Sensor LaserObserver Histogram Matchers DriftDetector.
From Verif.Spec Require Import MatchSpec DriftSpec.
From Verif.Proofs Require Import MatcherProofs HistProofs DriftProofs.
From Verif.Props Require MatcherProps.
Import ListNotations.
Local Open Scope R_scope.

(** the direction of the wall between two points, in [0, pi): the line through them (0 if they coincide) *)
Theorem C63_wall_direction : forall (p q : scan_point R),
  let a := edge_angle (p, q) in let dx := sp_x cos q - sp_x cos p in let dy := sp_y sin q - sp_y sin p in
  0 <= a < PI /\ dx * sin a = dy * cos a /\ (dx = 0 -> dy = 0 -> a = 0).
Proof.
  intros p q a dx dy. split; [apply ox_angle_range|].
  assert (Ea : a = ox_angle cos sin acos PI p q) by reflexivity. unfold ox_angle in Ea. cbn [dsub ROps] in Ea. fold dx dy in Ea. cbn [deq dofZ ROps] in Ea.
  destruct (R_eq dy 0) eqn:Q.
  - apply R_eq_true in Q. rewrite Ea, sin_0, cos_0, Q. split; [lra|]. reflexivity.
  - assert (Nz : dy <> 0) by (intros H; apply R_eq_true in H; congruence). split; [|contradiction].
    cbn [dadd dmul ddiv dsqrt dlt ROps] in Ea. set (dd := sqrt (dx * dx + dy * dy)) in Ea.
    assert (Y0 := Rsqr_pos_lt dy Nz). unfold Rsqr in Y0. assert (S0 : 0 < dx * dx + dy * dy) by nra. assert (D0 : 0 < dd) by (apply sqrt_lt_R0; exact S0). assert (D2 : dd * dd = dx * dx + dy * dy) by (apply sqrt_sqrt; lra).
    set (c := dx / dd) in Ea. assert (Ec : c * dd = dx) by (unfold c; field; lra). assert (C2 : c * c * (dd * dd) = dx * dx) by (rewrite <- Ec; ring).
    assert (Cb : -1 <= c <= 1).
    { assert (c * c < 1) by (apply Rmult_lt_reg_r with (dd * dd); nra). split; nra. }
    assert (Sa : 0 <= sin (acos c)) by (apply sin_ge_0; apply acos_bound).
    assert (Ca : cos (acos c) = c) by (apply cos_acos; exact Cb).
    assert (S2 : sin (acos c) * sin (acos c) = 1 - c * c) by (assert (H := sin2_cos2 (acos c)); unfold Rsqr in H; rewrite Ca in H; lra).
    assert (E2 : (sin (acos c) * dd) * (sin (acos c) * dd) = dy * dy) by (replace ((sin (acos c) * dd) * (sin (acos c) * dd)) with ((sin (acos c) * sin (acos c)) * (dd * dd)) by ring; rewrite S2; nra).
    assert (SE : sin (acos c) * dd = Rabs dy).
    { apply Rsqr_inj; [nra|apply Rabs_pos|]. rewrite <- Rsqr_abs. unfold Rsqr. exact E2. }
    destruct (R_lt dy 0) eqn:L; [apply R_lt_true in L|apply R_lt_false in L]; cbn [andb] in Ea.
    + rewrite Rabs_left in SE by lra. destruct (R_eq dx 0) eqn:X; cbn [negb] in Ea.
      * apply R_eq_true in X. assert (c = 0) by (unfold c; rewrite X; unfold Rdiv; ring). rewrite Ea, Ca, X, H. ring.
      * rewrite Ea. replace (PI - acos c) with (- (acos c) + PI) by ring. rewrite neg_sin, neg_cos, sin_neg, cos_neg, Ca. apply Rmult_eq_reg_r with dd; [|lra].
        replace (dx * - - sin (acos c) * dd) with (dx * (sin (acos c) * dd)) by ring. replace (dy * - c * dd) with (- dy * (c * dd)) by ring. rewrite SE, Ec. ring.
    + rewrite Rabs_right in SE by lra. rewrite Ea, Ca. apply Rmult_eq_reg_r with dd; [|lra].
      replace (dx * sin (acos c) * dd) with (dx * (sin (acos c) * dd)) by ring. replace (dy * c * dd) with (dy * (c * dd)) by ring. rewrite SE, Ec. ring.
Qed.
Print Assumptions C63_wall_direction.

(** C63, exact reals.  Whatever the wrapped matcher [w] answers and whatever the estimator: if the largest column has less than
    two fifths of the scan's points the answer is the wrapped one; otherwise it is the first best, for the walls outside that
    column('s size), of the wrapped pose and of the six poses 5, 15 and 25 cm before and behind it along the column's middle
    direction, with the probability of the whole (usable) scan there. *)
Theorem C63_correction_along_the_dominating_direction :
  forall (filter_pts : list (scan_point R) -> outcome (list (scan_point R))) (score : list (scan_point R) -> pose R -> R) (fuel : nat)
         (p0 : R) (d0 init : pose R) (out : list (Z * event R)) (raw pts : list (scan_point R)) (m : nat),
  filter_pts raw = Ok pts -> (6 <= fuel)%nat -> largest_column pts m ->
  let answer := dd_process cos sin acos PI filter_pts score fuel (Ok (p0, d0, out)) init raw in
  let base := pose_add init d0 in
  let direction := (INR m + / 2) * (PI / 20) in
  ((5 * column_size pts m < 2 * length pts)%nat -> answer = Ok (p0, d0, out)) /\
  ((2 * length pts <= 5 * column_size pts m)%nat ->
   exists kept best before after, ends_outside (column_size pts) (column_size pts m) (walls pts) kept /\
     base :: map (moved base direction) [- (1 / 4); - (3 / 20); - (1 / 20); 1 / 20; 3 / 20; 1 / 4] = before ++ best :: after /\
     (forall q, In q before -> score kept q < score kept best) /\ (forall q, In q after -> score kept q <= score kept best) /\
     answer = Ok (score pts best, pose_sub best init, out) /\ pose_add init (pose_sub best init) = best).
Proof.
  intros filter_pts score fuel p0 d0 init out raw pts m Ef Hfuel Hm answer base direction.
  destruct (hist20 pts) as (h & Eh & Hn & HL & HC & HD).
  assert (Lm : (m < 20)%nat) by apply Hm.
  assert (Emax : hist_max_i h = Ok m).
  { destruct (hist_max_i h) as [m'| | |] eqn:Em; try (exfalso; unfold hist_max_i in Em; destruct (h_cols h); [discriminate HL|discriminate Em]).
    f_equal. apply (largest_unique pts); [|exact Hm]. destruct (hist_max_i_spec h m' Em) as (v & Hv & M & F).
    assert (L' : (m' < 20)%nat) by (rewrite <- HL; apply nth_error_Some; congruence). rewrite (HC m' L') in Hv. injection Hv as <-.
    split; [exact L'|]. split.
    - intros i Li. specialize (M i _ (HC i Li)). lia.
    - intros i Li. specialize (F i _ Li (HC i ltac:(lia))). lia. }
  unfold dd_process in answer. cbn [bind] in answer. fold base in answer. 
  assert (E1 : answer = if R_lt (IZR (Z.of_nat (column_size pts m))) (4 / 10 * IZR (Z.of_nat (length pts))) then Ok (p0, d0, out) else
    bind (dd_kept PI h pts (Z.of_nat (column_size pts m)) 1 (tl pts)) (fun filtered => bind (assert_ (polar_cfg_ok (dd_cfg PI m))) (fun _ =>
      bind (pe_loop (polar_enum (dd_cfg PI m) cos sin) (score filtered) [] fuel (polar_new (dd_cfg PI m)) base (score filtered base) [base] [])
      (fun x => let '(_, b, _, _, _) := x in Ok (score pts b, pose_sub b init, out))))).
  { unfold answer. rewrite Ef. cbn [bind]. rewrite Eh. cbn [bind]. rewrite Emax. cbn [bind]. rewrite (HC m Lm). cbn [bind]. reflexivity. }
  clearbody answer. subst answer. rewrite <- !INR_IZR_INZ.
  assert (I : forall a : nat, INR (5 * a) = 5 * INR a /\ INR (2 * a) = 2 * INR a) by (intros a; rewrite !mult_INR; cbn [INR]; split; lra).
  split.
  - intros H. apply lt_INR in H. rewrite (proj1 (I _)), (proj2 (I _)) in H. assert (R_lt (INR (column_size pts m)) (4 / 10 * INR (length pts)) = true) as -> by (apply R_lt_true; lra). reflexivity.
  - intros H. apply le_INR in H. rewrite (proj1 (I _)), (proj2 (I _)) in H. assert (R_lt (INR (column_size pts m)) (4 / 10 * INR (length pts)) = false) as -> by (apply R_lt_false; lra).
    destruct (dd_kept_spec pts h (column_size pts m) Eh (walls pts) 0 ltac:(intros j; reflexivity)) as (kept & Ek & Ok').
    rewrite walls_snd in Ek. rewrite Ek. cbn [bind].
    assert (PP := PI_RGT_0).
    assert (St : angle_step PI 20 = PI / 20) by (unfold angle_step, deg2rad; cbn; field).
    assert (Dir : from_dir (dd_cfg PI m) = direction).
    { unfold dd_cfg. cbn [from_dir]. rewrite St. cbn [dadd dmul ddiv dofZ ROps]. rewrite <- INR_IZR_INZ. unfold direction. field. }
    assert (Cok : polar_cfg_ok (dd_cfg PI m) = true).
    { unfold polar_cfg_ok, dd_cfg. cbn [from_dir to_dir step_dir from_dst to_dst step_dst]. rewrite St. unfold dlit. cbn [dle dlt dofZ ddiv dopp ROps].
      rewrite !andb_true_iff, !R_le_true, !R_lt_true. lra. }
    rewrite Cok. cbn [assert_ bind].
    assert (Sw : steps_while (step_dst (dd_cfg PI m)) (to_dst (dd_cfg PI m)) (from_dst (dd_cfg PI m)) [- (1 / 4); - (3 / 20); - (1 / 20); 1 / 20; 3 / 20; 1 / 4]).
    { unfold dd_cfg. cbn [step_dst to_dst from_dst]. unfold dlit. cbn [dopp ddiv dofZ ROps].
      assert (T : forall v l, v <= 1 / 4 -> steps_while (D := R) (1 / 10) (1 / 4) (v + 1 / 10) l -> steps_while (D := R) (1 / 10) (1 / 4) v (v :: l)).
      { intros v l Hv Hl. apply sw_more; [apply R_le_true; lra|exact Hl]. }
      apply T; [lra|]. replace (- (1 / 4) + 1 / 10) with (- (3 / 20)) by field. apply T; [lra|]. replace (- (3 / 20) + 1 / 10) with (- (1 / 20)) by field. apply T; [lra|].
      replace (- (1 / 20) + 1 / 10) with (1 / 20) by field. apply T; [lra|]. replace (1 / 20 + 1 / 10) with (3 / 20) by field. apply T; [lra|].
      replace (3 / 20 + 1 / 10) with (1 / 4) by field. apply T; [lra|]. apply sw_end. cbn. apply not_true_is_false. rewrite R_le_true. lra. }
    destruct (polar_search cos sin (dd_cfg PI m) (score kept) _ fuel base eq_refl Sw Hfuel) as (e & best & E & before & after & El & Hb & Ha).
    rewrite E. cbn [bind]. exists kept, best, before, after. split; [exact Ok'|]. split.
    { rewrite <- El. f_equal. apply map_ext. intros d. unfold polar_pose, moved, pose_add. rewrite Dir. cbn [dadd dmul dofZ ROps px py pth]. f_equal. ring. }
    split; [intros q Hq; specialize (Hb q Hq); cbn in Hb; apply Rnot_le_lt; intros Hle; apply R_le_true in Hle; congruence|].
    split; [intros q Hq; apply R_lt_false; apply Ha; rewrite El; apply in_or_app; right; right; exact Hq|].
    split; [reflexivity|]. unfold pose_add, pose_sub. destruct best, init. cbn. f_equal; ring.
Qed.
Print Assumptions C63_correction_along_the_dominating_direction.

(** C63 over binary64, with any libm and any estimator (NaN included), for scans of less than 2^32 points whose histogram can be
    built *)
Definition M_PI64 : F64 := dlit 884279719003555 281474976710656.
Fixpoint distances (n : nat) (d : F64) : list F64 := match n with O => [] | S n => d :: distances n (dadd d (dlit 1 10)) end.
Theorem C63_binary64 :
  forall (fcos fsin facos : F64 -> F64) (filter_pts : list (scan_point F64) -> outcome (list (scan_point F64))) (score : list (scan_point F64) -> pose F64 -> F64)
         (fuel : nat) (p0 : F64) (d0 init : pose F64) (out : list (Z * event F64)) (raw pts : list (scan_point F64)) (h : hist F64),
  filter_pts raw = Ok pts -> (6 <= fuel)%nat -> (Z.of_nat (length pts) < 2 ^ 32)%Z -> hist_reset fcos fsin facos M_PI64 20 pts = Ok h ->
  exists m size, nth_error (h_cols h) m = Some size /\ (forall k x, nth_error (h_cols h) k = Some x -> (x <= size)%Z) /\
  let answer := dd_process fcos fsin facos M_PI64 filter_pts score fuel (Ok (p0, d0, out)) init raw in
  let base := pose_add init d0 in
  let a := dadd (dmul (dofZ (Z.of_nat m)) (angle_step M_PI64 20)) (ddiv (angle_step M_PI64 20) (dofZ 2)) in
  ((5 * size < 2 * Z.of_nat (length pts))%Z -> answer = Ok (p0, d0, out)) /\
  ((2 * Z.of_nat (length pts) <= 5 * size)%Z ->
   exists kept best before after,
     base :: map (fun d => pose_add base (mkPose (dmul (fcos a) d) (dmul (fsin a) d) (dofZ 0))) (distances 6 (dopp (dlit 1 4))) = before ++ best :: after /\
     (forall q, In q before -> dle (score kept best) (score kept q) = false) /\ (forall q, In q (before ++ after) -> dlt (score kept best) (score kept q) = false) /\
     answer = Ok (score pts best, pose_sub best init, out)).
Proof.
  intros fcos fsin facos filter_pts score fuel p0 d0 init out raw pts h Ef Hfuel Hlen Eh.
  destruct (hist_any fcos fsin facos M_PI64 20 pts h Eh) as (Hn & HL & HD & HB & HI).
  destruct (hist_max_i h) as [m| | |] eqn:Em; try (exfalso; unfold hist_max_i in Em; destruct (h_cols h); [discriminate HL|discriminate Em]).
  destruct (hist_max_i_spec h m Em) as (size & Hs & Hmax & _). exists m, size. split; [exact Hs|]. split; [exact Hmax|]. intros answer base a.
  assert (Bs := HB _ (nth_error_In _ _ Hs)). assert (Lm : (m < 20)%nat) by (rewrite <- HL; apply nth_error_Some; congruence).
  subst answer. unfold dd_process. cbn [bind]. rewrite Ef. cbn [bind]. rewrite Eh. cbn [bind]. rewrite Em. cbn [bind]. rewrite Hs. cbn [bind].
  rewrite (two_fifths size (Z.of_nat (length pts)) ltac:(lia) ltac:(lia)). fold base. split.
  - intros H. apply Z.ltb_lt in H. rewrite H. reflexivity.
  - intros H. apply Z.ltb_ge in H. rewrite H.
    assert (K : exists kept, dd_kept M_PI64 h pts size 1 (tl pts) = Ok kept).
    { destruct pts as [|p pts]; [eexists; reflexivity|]. apply (dd_kept_any fcos fsin facos M_PI64 20 (p :: pts) h size Eh). cbn [tl length]. lia. }
    destruct K as (kept & Ek). rewrite Ek. cbn [bind].
    assert (Cok : polar_cfg_ok (dd_cfg M_PI64 m) = true).
    { do 20 (destruct m as [|m]; [vm_compute; reflexivity|]). lia. }
    rewrite Cok. cbn [assert_ bind].
    assert (Sw : steps_while (step_dst (dd_cfg M_PI64 m)) (to_dst (dd_cfg M_PI64 m)) (from_dst (dd_cfg M_PI64 m)) (distances 6 (dopp (dlit 1 4)))).
    { unfold dd_cfg. cbn [step_dst to_dst from_dst distances].
      do 6 (apply sw_more; [vm_compute; reflexivity|]). apply sw_end. vm_compute. reflexivity. }
    destruct (polar_search fcos fsin (dd_cfg M_PI64 m) (score kept) _ fuel base eq_refl Sw Hfuel) as (e & best & E & before & after & El & Hb & Ha).
    rewrite E. cbn [bind]. exists kept, best, before, after. split; [exact El|]. split; [exact Hb|]. split; [|reflexivity].
    intros q Hq. apply Ha. rewrite El. apply in_app_or in Hq. apply in_or_app. destruct Hq; [now left|right; now right].
Qed.
Print Assumptions C63_binary64.

(** a corridor wall of three pieces and one wall across it *)
Definition ex_pts : list (scan_point R) := map (fun p => sp_make_cartesian p true) [(0, 0); (1, 0); (2, 0); (3, 0); (3, 5)].
Lemma ex_flat (x x' y : R) : edge_angle (sp_make_cartesian (x, y) true, sp_make_cartesian (x', y) true) = 0.
Proof.
  unfold edge_angle, ox_angle. unfold sp_x, sp_y, sp_make_cartesian. cbn [fst snd sp_polar sp_u sp_v dsub deq dofZ ROps ptx pty].
  assert (R_eq (y - y) 0 = true) as -> by (apply R_eq_true; ring). reflexivity.
Qed.
Lemma ex_across (x : R) : edge_angle (sp_make_cartesian (x, 0) true, sp_make_cartesian (x, 5) true) = PI / 2.
Proof.
  unfold edge_angle, ox_angle. unfold sp_x, sp_y, sp_make_cartesian. cbn [fst snd sp_polar sp_u sp_v dsub deq dofZ ROps ptx pty dlt dadd dmul ddiv dsqrt].
  assert (R_eq (5 - 0) 0 = false) as -> by (apply not_true_is_false; rewrite R_eq_true; lra). assert (R_lt (5 - 0) 0 = false) as -> by (apply R_lt_false; lra). cbn [andb].
  replace ((x - x) / sqrt ((x - x) * (x - x) + (5 - 0) * (5 - 0))) with 0 by (replace (x - x) with 0 by ring; unfold Rdiv; ring). apply acos_0.
Qed.
Lemma ex_col i e k : edge_angle e = INR k * (PI / 20) -> in_column i e = Nat.eqb i k.
Proof.
  intros E. assert (P := PI_RGT_0). assert (C : in_column k e = true) by (apply in_column_true; rewrite E; lra).
  destruct (Nat.eqb_spec i k) as [->|N]; [exact C|]. apply not_true_is_false. intros C'. apply N. eapply in_column_unique; eauto.
Qed.
Lemma ex_sizes i : column_size ex_pts i = if Nat.eqb i 0 then 3%nat else if Nat.eqb i 10 then 1%nat else 0%nat.
Proof.
  unfold column_size, ex_pts. cbn [map walls edges].
  assert (F : forall x x', in_column i (sp_make_cartesian (x, 0) true, sp_make_cartesian (x', 0) true) = Nat.eqb i 0) by (intros x x'; apply ex_col; rewrite ex_flat; cbn [INR]; lra).
  assert (A : in_column i (sp_make_cartesian (3, 0) true, sp_make_cartesian (3, 5) true) = Nat.eqb i 10) by (apply ex_col; rewrite ex_across; cbn [INR]; lra).
  cbn [filter]. rewrite !F, A. clear F A. destruct i as [|i]; [reflexivity|]. change (Nat.eqb (S i) 0) with false. destruct (Nat.eqb (S i) 10); reflexivity.
Qed.
Example C63_case : largest_column ex_pts 0 /\ (2 * length ex_pts <= 5 * column_size ex_pts 0)%nat.
Proof.
  split; [|rewrite ex_sizes; cbn; lia]. split; [lia|]. split; [|intros i Hi; lia]. intros i _. rewrite !ex_sizes. destruct (Nat.eqb i 0); [cbn; lia|]. destruct (Nat.eqb i 10); cbn; lia.
Qed.
Lemma ex_kept kept : ends_outside (column_size ex_pts) 3 (walls ex_pts) kept -> kept = [sp_make_cartesian (3, 5) true].
Proof.
  unfold ex_pts at 2. cbn [map walls edges ends_outside]. 
  intros (i1 & r1 & _ & C1 & (i2 & r2 & _ & C2 & (i3 & r3 & _ & C3 & (i4 & r4 & _ & C4 & -> & ->) & ->) & ->) & ->). cbn [snd].
  rewrite (ex_col _ _ 0) in C1 by (rewrite ex_flat; cbn [INR]; lra). rewrite (ex_col _ _ 0) in C2 by (rewrite ex_flat; cbn [INR]; lra). rewrite (ex_col _ _ 0) in C3 by (rewrite ex_flat; cbn [INR]; lra).
  rewrite (ex_col _ _ 10) in C4 by (rewrite ex_across; cbn [INR]; lra). apply Nat.eqb_eq in C1, C2, C3, C4. subst. rewrite !ex_sizes. reflexivity.
Qed.

(** C64: the property is false.  A map whose occupied area is y <= 0 below y = 2 and x > 3 above (a corridor wall seen exactly,
    a wall across seen slightly off), the scan above, the probability of a scan being the mean of the occupancies of its points:
    the wrapped matcher keeps the pose with probability 4/5, the detector moves it 5 cm and reports 1/5. *)
Definition ex_occupancy (x y : R) : R := if Rle_dec y 2 then (if Rle_dec y 0 then 1 else 0) else (if Rle_dec x 3 then 0 else 1).
Definition ex_score (pts : list (scan_point R)) (p : pose R) : R :=
  fold_right Rplus 0 (map (fun s => ex_occupancy (px p + sp_u s) (py p + sp_v s)) pts) / INR (length pts).
Theorem C64_reported_probability_refuted :
  exists (score : list (scan_point R) -> pose R -> R) (pts : list (scan_point R)) (init delta : pose R) (prob : R) out,
    dd_process cos sin acos PI (fun l => Ok l) score 6 (Ok (score pts init, mkPose 0 0 0, [])) init pts = Ok (prob, delta, out) /\ prob < score pts init.
Proof.
  destruct (C63_correction_along_the_dominating_direction (fun l => Ok l) ex_score 6 (ex_score ex_pts (mkPose 0 0 0)) (mkPose 0 0 0) (mkPose 0 0 0) [] ex_pts ex_pts 0
    eq_refl ltac:(lia) (proj1 C63_case)) as [_ H].
  specialize (H (proj2 C63_case)). rewrite ex_sizes in H. cbn [Nat.eqb] in H. destruct H as (kept & best & before & after & Hk & El & Hb & Ha & Ea & _).
  apply ex_kept in Hk. subst kept.
  exists ex_score, ex_pts, (mkPose 0 0 0), (pose_sub best (mkPose 0 0 0)), (ex_score ex_pts best), []. split; [exact Ea|]. clear Ea.
  set (a := (INR 0 + / 2) * (PI / 20)) in *. assert (P := PI_RGT_0). assert (P4 := PI_4).
  assert (A : a = PI / 40) by (unfold a; cbn [INR]; field). assert (Ca : 0 < cos a) by (apply cos_gt_0; lra). assert (Sa : 0 < sin a) by (apply sin_gt_0; lra).
  assert (S1 := SIN_bound a). assert (C1 := COS_bound a).
  (* the first three and the wrapped pose score 0 for the wall across, the others 1 *)
  assert (Sc : forall x y t, ex_score [sp_make_cartesian (3, 5) true] (mkPose x y t) = ex_occupancy (x + 3) (y + 5)).
  { intros x y t. unfold ex_score. cbn [map fold_right length INR px py sp_make_cartesian sp_u sp_v ptx pty fst snd]. lra. }
  assert (Oc : forall x y, -1 <= y -> ex_occupancy (x + 3) (y + 5) = if Rle_dec x 0 then 0 else 1).
  { intros x y Hy. unfold ex_occupancy. destruct (Rle_dec (y + 5) 2); [lra|]. destruct (Rle_dec (x + 3) 3), (Rle_dec x 0); lra. }
  assert (B : pose_add (mkPose 0 0 0) (mkPose 0 0 0) = mkPose 0 0 0) by (unfold pose_add; cbn; f_equal; ring). rewrite B in El.
  assert (Mv : forall d, -1 <= d <= 1 -> ex_score [sp_make_cartesian (3, 5) true] (moved (mkPose 0 0 0) a d) = if Rle_dec d 0 then 0 else 1).
  { intros d Hd. unfold moved. cbn [px py pth]. rewrite Sc, Oc by nra. destruct (Rle_dec (0 + cos a * d) 0), (Rle_dec d 0); try reflexivity; nra. }
  assert (Best : exists d, 0 < d <= 1 /\ best = moved (mkPose 0 0 0) a d).
  { assert (In1 : forall q, In q (before ++ best :: after) -> ex_score [sp_make_cartesian (3, 5) true] q <= ex_score [sp_make_cartesian (3, 5) true] best).
    { intros q Hq. apply in_app_or in Hq. destruct Hq as [Hq|[<-|Hq]]; [left; auto|lra|auto]. }
    rewrite <- El in In1. assert (Hm := In1 (moved (mkPose 0 0 0) a (1 / 20)) ltac:(cbn [map In]; tauto)). rewrite Mv in Hm by lra. destruct (Rle_dec (1 / 20) 0); [lra|].
    assert (Hin : In best (before ++ best :: after)) by (apply in_or_app; right; left; reflexivity). rewrite <- El in Hin. cbn [map In] in Hin.
    assert (N : forall d, -1 <= d <= 0 -> moved (mkPose 0 0 0) a d = best -> False) by (intros d Hd <-; rewrite Mv in Hm by lra; destruct (Rle_dec d 0); lra).
    destruct Hin as [H|[H|[H|[H|[H|[H|[H|[]]]]]]]].
    - exfalso. rewrite <- H, Sc, Oc in Hm by lra. destruct (Rle_dec 0 0); lra.
    - exfalso. apply (N (- (1 / 4))); [lra|exact H].
    - exfalso. apply (N (- (3 / 20))); [lra|exact H].
    - exfalso. apply (N (- (1 / 20))); [lra|exact H].
    - exists (1 / 20). split; [lra|auto].
    - exists (3 / 20). split; [lra|auto].
    - exists (1 / 4). split; [lra|auto]. }
  destruct Best as (d & Hd & ->).
  unfold ex_score, moved. cbn [px py pth]. unfold ex_pts. cbn [map length fold_right sp_make_cartesian sp_u sp_v ptx pty fst snd INR].
  assert (Y : 0 < sin a * d <= 1) by (split; [apply Rmult_lt_0_compat; lra|nra]).
  unfold ex_occupancy. repeat (destruct (Rle_dec _ _); try lra).
Qed.
Print Assumptions C64_reported_probability_refuted.
(** what does hold: the probability reported is that of the usable scan at the pose returned (C63), and for the walls outside the
    dominating direction the pose returned is at least as good as the wrapped matcher's *)
Theorem C64_other_walls_fit_no_worse_partial :
  forall (filter_pts : list (scan_point R) -> outcome (list (scan_point R))) (score : list (scan_point R) -> pose R -> R) (fuel : nat)
         (p0 : R) (d0 init : pose R) (out out' : list (Z * event R)) (raw pts : list (scan_point R)) prob delta,
  filter_pts raw = Ok pts -> (6 <= fuel)%nat ->
  dd_process cos sin acos PI filter_pts score fuel (Ok (p0, d0, out)) init raw = Ok (prob, delta, out') ->
  (prob, delta) = (p0, d0) \/
  (prob = score pts (pose_add init delta) /\ exists m kept, largest_column pts m /\ ends_outside (column_size pts) (column_size pts m) (walls pts) kept /\
     score kept (pose_add init d0) <= score kept (pose_add init delta)).
Proof.
  intros filter_pts score fuel p0 d0 init out out' raw pts prob delta Ef Hf E. destruct (largest_exists pts) as (m & Hm).
  destruct (C63_correction_along_the_dominating_direction filter_pts score fuel p0 d0 init out raw pts m Ef Hf Hm) as [A B]. 
  destruct (Nat.lt_ge_cases (5 * column_size pts m) (2 * length pts)) as [H|H].
  - left. rewrite (A H) in E. injection E as -> -> _. reflexivity.
  - right. destruct (B H) as (kept & best & before & after & Hk & El & Hb & Ha & Ea & Eb). rewrite Ea in E. injection E as <- <- _. rewrite Eb.
    split; [reflexivity|]. exists m, kept. split; [exact Hm|]. split; [exact Hk|].
    destruct before as [|b before]; [injection El as <- _; lra|]. injection El as <- _. left. apply Hb. left. reflexivity.
Qed.
Print Assumptions C64_other_walls_fit_no_worse_partial.

(** C65: the property is false.  An observer that was subscribed to the matcher the factory returned (and is alive) hears
    nothing, in any run, if the drift detector is switched on. *)
Lemma received_only_notified {D : Type} {ops : DOps D} {E : Type} (en : enumerator D E) (score : pose D -> D) (obs : observers) fuel e init r o :
  process_scan en score obs fuel e init = Ok r -> ~ In (o, true) obs -> received o (mr_out r) = [].
Proof.
  intros H N. unfold process_scan in H. apply bind_Ok_inv in H as ([[[[e' best] prob] tested] out] & L & H). injection H as <-. cbn [mr_out].
  assert (G : forall fuel e best bp tested out e' best' prob' tested' out', pe_loop en score obs fuel e best bp tested out = Ok (e', best', prob', tested', out') -> received o out = [] -> received o out' = []).
  { induction fuel0 as [|f IH]; intros e0 b0 bp0 t0 o0 e1 b1 p1 t1 o1 HL HR; cbn [pe_loop] in HL; destruct (e_has_next en e0); try discriminate HL; try (injection HL as <- <- <- <- <-; exact HR).
    destruct (e_next en e0 b0) as [p e2]. destruct (dlt bp0 (score p)); eapply IH in HL; [exact HL| |exact HL|]; rewrite !received_app, !received_notify_absent by exact N; rewrite HR; reflexivity. }
  rewrite received_app, received_notify_absent by exact N. rewrite app_nil_r. eapply G; [exact L|]. rewrite received_app, !received_notify_absent by exact N. reflexivity.
Qed.
Theorem C65_detector_observers_refuted :
  forall (D : Type) (ops : DOps D) (dcos dsin dacos : D -> D) (mpi : D) filter_pts (score : list (scan_point D) -> pose D -> D) (E : Type) (en : enumerator D E)
         (fuel : nat) (e : E) (init delta : pose D) (raw : list (scan_point D)) (prob : D) (calls : list (Z * event D)) (o : Z),
  let own := subscribe [] o in
  dd_over_pe dcos dsin dacos mpi filter_pts score own [] en fuel e init raw = Ok (prob, delta, calls) -> In (o, true) own /\ received o calls = [].
Proof.
  intros D ops dcos dsin dacos mpi filter_pts score E en fuel e init delta raw prob calls o own H. split; [left; reflexivity|].
  unfold dd_over_pe, dd_process in H. apply bind_Ok_inv in H as ([[p0 d0] out] & H0 & H). apply bind_Ok_inv in H0 as (r & Hr & H0). apply bind_Ok_inv in Hr as (pts & _ & Hr). injection H0 as _ _ <-.
  assert (R0 : received o (mr_out r) = []) by (eapply received_only_notified; [exact Hr|intros []]).
  repeat (let x := fresh in apply bind_Ok_inv in H as (x & _ & H)). destruct (dlt _ _); [injection H as _ _ <-; exact R0|].
  repeat (let x := fresh in apply bind_Ok_inv in H as (x & _ & H)). repeat match goal with x : (_ * _)%type |- _ => destruct x end. injection H as _ _ <-. exact R0.
Qed.
Print Assumptions C65_detector_observers_refuted.
(** the same runs of the matcher itself are reported in full (C23): a subscriber gets at least the start, the first test and the
    end *)
Theorem C65_plain_matcher_observers_partial :
  forall (D : Type) (ops : DOps D) (laws : OrdLaws ops) (E : Type) (en : enumerator D E) (score : pose D -> D) fuel e init r (o : Z),
  process_scan en score (subscribe [] o) fuel e init = Ok r ->
  exists evs, received o (mr_out r) = EvStart init :: EvTest init (score init) :: evs ++ [EvEnd (mr_delta r) (mr_prob r)].
Proof.
  intros D ops laws E en score fuel e init r o H. 
  assert (ND : NoDup (map fst (subscribe (@nil (Z * bool)) o))) by (cbn; constructor; [intros []|constructor]).
  destruct (Verif.Props.MatcherProps.C23_observer_protocol D ops laws E en score _ fuel e init r o H ND (or_introl eq_refl)) as (evs & -> & _).
  exists (EvUpdate init (score init) :: evs). reflexivity.
Qed.
Print Assumptions C65_plain_matcher_observers_partial.
