(** C93: scan points keep their place when their representation changes. *)
From Coq Require Import Reals ZArith List Bool Lia Lra.
From Flocq Require Import Core IEEE754.BinarySingleNaN IEEE754.Binary IEEE754.Bits.
From Verif.Base Require Import Outcome Num F64Facts.
From Verif.Model Require Import MathUtils Geometry Grid Sensor M3Engine M3Score.
From Verif.Spec Require Import ScanPointSpec.
Import ListNotations.
Local Open Scope R_scope.

Lemma atan2_polar y x : sqrt (x * x + y * y) * cos (real_atan2 y x) = x /\ sqrt (x * x + y * y) * sin (real_atan2 y x) = y.
Proof.
  assert (G : forall s, s * s = 1 -> x <> 0 -> 0 < s * x ->
    sqrt (x * x + y * y) * (s * cos (atan (y / x))) = x /\ sqrt (x * x + y * y) * (s * sin (atan (y / x))) = y).
  { intros s Hs Hx Hp. rewrite cos_atan, sin_atan. unfold Rsqr.
    assert (E : sqrt (x * x + y * y) = s * x * sqrt (1 + y / x * (y / x))).
    { rewrite <- (sqrt_Rsqr (s * x)) at 1 by lra. rewrite <- sqrt_mult.
      - f_equal. unfold Rsqr. replace (s * x * (s * x)) with (s * s * (x * x)) by ring. rewrite Hs. field. exact Hx.
      - apply Rle_0_sqr.
      - assert (0 <= y / x * (y / x)) by apply Rle_0_sqr. lra. }
    assert (P : 0 < sqrt (1 + y / x * (y / x))).
    { apply sqrt_lt_R0. assert (0 <= y / x * (y / x)) by apply Rle_0_sqr. lra. }
    rewrite E. split.
    - replace (s * x * sqrt (1 + y / x * (y / x)) * (s * (1 / sqrt (1 + y / x * (y / x))))) with (s * s * x) by (field; lra). rewrite Hs. ring.
    - replace (s * x * sqrt (1 + y / x * (y / x)) * (s * (y / x / sqrt (1 + y / x * (y / x))))) with (s * s * y) by (field; lra). rewrite Hs. ring. }
  unfold real_atan2. destruct (Rlt_dec 0 x) as [Hp|Hp].
  - destruct (G 1 ltac:(ring) ltac:(lra) ltac:(lra)) as [A B]. rewrite !Rmult_1_l in A, B. split; assumption.
  - destruct (Rlt_dec x 0) as [Hn|Hn].
    + destruct (G (-1) ltac:(ring) ltac:(lra) ltac:(lra)) as [A B].
      replace (-1 * cos (atan (y / x))) with (- cos (atan (y / x))) in A by ring. replace (-1 * sin (atan (y / x))) with (- sin (atan (y / x))) in B by ring.
      assert (C : forall t, cos (t - PI) = - cos t /\ sin (t - PI) = - sin t).
      { intros t. assert (H1 := neg_cos (t - PI)). assert (H2 := neg_sin (t - PI)). replace (t - PI + PI) with t in * by ring. lra. }
      destruct (Rle_dec 0 y).
      * rewrite neg_cos, neg_sin. split; assumption.
      * destruct (C (atan (y / x))) as [-> ->]. split; assumption.
    + assert (x = 0) by lra. subst x. replace (0 * 0 + y * y) with (Rsqr y) by (unfold Rsqr; ring).
      rewrite sqrt_Rsqr_abs. destruct (Rlt_dec 0 y) as [Hy|Hy].
      * rewrite cos_PI2, sin_PI2, Rabs_pos_eq by lra. lra.
      * destruct (Rlt_dec y 0) as [Hy'|Hy'].
        -- rewrite cos_neg, sin_neg, cos_PI2, sin_PI2, Rabs_left by exact Hy'. lra.
        -- assert (y = 0) by lra. subst y. rewrite Rabs_R0. lra.
Qed.

Notation angleR := (sp_angle real_atan2).
Notation xR := (sp_x cos). Notation yR := (sp_y sin).

(** Coordinates, distance and direction describe the same place, whichever way the point is stored. *)
Theorem C93_accessors_agree : forall s : scan_point R,
  (xR s, yR s) = place s /\ (sp_range s * cos (angleR s), sp_range s * sin (angleR s)) = place s.
Proof.
  intros [pol u v f o]. unfold place, sp_x, sp_y, sp_range, sp_angle. cbn [sp_polar sp_u sp_v]. destruct pol; [split; reflexivity|].
  split; [reflexivity|]. cbn [dsqrt dadd dmul ROps]. destruct (atan2_polar v u) as [A B]. now rewrite A, B.
Qed.
Print Assumptions C93_accessors_agree.

Lemma place_rng s : place s = (sp_range s * cos (angleR s), sp_range s * sin (angleR s)).
Proof. symmetry. apply C93_accessors_agree. Qed.
Lemma place_xy s : place s = (xR s, yR s).
Proof. symmetry. apply C93_accessors_agree. Qed.

(** Converting keeps the place (shifted or turned as asked for) and the flag; the factor starts again at 1. *)
Theorem C93_conversions : forall s : scan_point R,
  (forall dx dy, let t := sp_to_polar cos sin real_atan2 dx dy s in
     sp_polar t = true /\ place t = shift (dx, dy) (place s) /\ sp_occ t = sp_occ s /\ sp_factor t = 1) /\
  (forall da dr, let t := sp_to_cartesian cos sin real_atan2 da dr s in
     sp_polar t = false /\ place t = ((sp_range s + dr) * cos (angleR s + da), (sp_range s + dr) * sin (angleR s + da)) /\
     sp_occ t = sp_occ s /\ sp_factor t = 1) /\
  place (sp_to_polar cos sin real_atan2 0 0 s) = place s /\
  place (sp_to_cartesian cos sin real_atan2 0 0 s) = place s /\
  (forall a, exists t, sp_to_cartesian_tp real_atan2 (raw_trig cos sin a) s = Ok t /\
     sp_polar t = false /\ place t = turn a (place s) /\ sp_occ t = sp_occ s /\ sp_factor t = 1).
Proof.
  intros s.
  assert (P : forall dx dy, place (sp_to_polar cos sin real_atan2 dx dy s) = shift (dx, dy) (place s)).
  { intros dx dy. unfold sp_to_polar. rewrite place_rng. cbn [sp_range sp_angle sp_make_polar sp_polar sp_u sp_v].
    fold (angleR (sp_make_cartesian (dadd (xR s) dx, dadd (yR s) dy) (sp_occ s))).
    match goal with |- (?r * cos ?a, ?r * sin ?a) = _ => change ((r * cos a, r * sin a) = shift (dx, dy) (place s)) end.
    set (t := sp_make_cartesian (dadd (xR s) dx, dadd (yR s) dy) (sp_occ s)).
    transitivity (place t); [symmetry; apply (place_rng t)|]. rewrite (place_xy s). unfold t, place, shift. cbn. f_equal; ring. }
  assert (C : forall da dr, place (sp_to_cartesian cos sin real_atan2 da dr s) =
             ((sp_range s + dr) * cos (angleR s + da), (sp_range s + dr) * sin (angleR s + da))) by reflexivity.
  split; [|split; [|split; [|split]]].
  - intros dx dy t. split; [reflexivity|]. split; [apply P|]. split; reflexivity.
  - intros da dr t. split; [reflexivity|]. split; [apply C|]. split; reflexivity.
  - rewrite P. unfold shift. destruct (place s). cbn. f_equal; ring.
  - rewrite C, (place_rng s), !Rplus_0_r. reflexivity.
  - intros a. eexists. split; [reflexivity|]. split; [reflexivity|]. split; [|split; reflexivity].
    rewrite (place_rng s). unfold place, turn. cbn [sp_polar sp_make_cartesian sp_u sp_v ptx pty fst snd dadd dmul dofZ ROps].
    rewrite cos_plus, sin_plus. f_equal; ring.
Qed.
Print Assumptions C93_conversions.

(** All ways to move the origin put the point where it is seen from a robot at [p] turned by [a]. *)
Theorem C93_moving_the_origin : forall (s : scan_point R) (p : point R) (a : R),
  sp_move_origin cos sin p s = shift p (place s) /\
  sp_move_origin_angle cos sin real_atan2 p a s = shift p (turn a (place s)) /\
  sp_move_origin_tp real_atan2 p (raw_trig cos sin a) s = Ok (shift p (turn a (place s))).
Proof.
  intros s [p1 p2] a. split; [|split].
  - rewrite (place_xy s). unfold sp_move_origin, shift, ptx, pty. cbn. f_equal; ring.
  - rewrite (place_rng s). unfold sp_move_origin_angle, shift, turn, sp_x, sp_y. cbn. rewrite cos_plus, sin_plus. f_equal; ring.
  - rewrite (place_rng s). unfold sp_move_origin_tp, shift, turn. cbn. rewrite cos_plus, sin_plus. apply f_equal. apply f_equal2; ring.
Qed.
Print Assumptions C93_moving_the_origin.

(** *** binary64 *)
Lemma same_refl a : same a a.
Proof.
  destruct (F_fin a) eqn:F; [left; auto|]. right. left. auto.
Qed.
Lemma same_nan a b : disnan a = true -> disnan b = true -> same a b.
Proof. intros. right. right. auto. Qed.

Lemma add_comm_same (a b : F64) : same (dadd a b) (dadd b a).
Proof.
  destruct (F_fin a) eqn:Fa, (F_fin b) eqn:Fb.
  - assert (C1 := Bplus_correct 53 1024 eq_refl eq_refl binop_nan_pl64 mode_NE a b Fa Fb).
    assert (C2 := Bplus_correct 53 1024 eq_refl eq_refl binop_nan_pl64 mode_NE b a Fb Fa).
    rewrite (Rplus_comm (B2R 53 1024 b)) in C2.
    destruct (Rlt_bool _ _).
    + destruct C1 as (V1 & F1 & _), C2 as (V2 & F2 & _). left. split; [exact F1|]. split; [exact F2|].
      unfold F2R64. cbn [dadd FOps]. unfold b64_plus. now rewrite V1, V2.
    + destruct C1 as (V1 & S1), C2 as (V2 & _). rewrite S1 in V1. rewrite <- V2 in V1. apply B2FF_inj in V1.
      right. left. cbn [dadd FOps]. unfold b64_plus. split; [|exact V1]. rewrite V1.
      clear -V2. revert V2. generalize (Bplus 53 1024 eq_refl eq_refl binop_nan_pl64 mode_NE b a).
      intros c V2. destruct c; try reflexivity; destruct (Bsign 53 1024 b); discriminate V2.
  - destruct a as [s|s|s pl P|s m e P]; try discriminate Fa; destruct b as [s'|s'|s' pl' P'|s' m' e' P']; try discriminate Fb;
      (right; left; split; reflexivity) || (apply same_nan; reflexivity).
  - destruct a as [s|s|s pl P|s m e P]; try discriminate Fa; destruct b as [s'|s'|s' pl' P'|s' m' e' P']; try discriminate Fb;
      (right; left; split; reflexivity) || (apply same_nan; reflexivity).
  - destruct a as [s|s|s pl P|s m e P]; try discriminate Fa; destruct b as [s'|s'|s' pl' P'|s' m' e' P']; try discriminate Fb;
      try (apply same_nan; reflexivity). destruct s, s'; (right; left; split; reflexivity) || (apply same_nan; reflexivity).
Qed.

Lemma zero_add (v p : F64) : same (dadd (dadd (dofZ 0) v) p) (dadd p v).
Proof.
  destruct v as [s|s|s pl P|s m e P].
  - (* a zero *)
    assert (Z : exists s0, b64_plus mode_NE (dofZ 0 : F64) (B754_zero 53 1024 s) = B754_zero 53 1024 s0) by (destruct s; eexists; reflexivity).
    destruct Z as [s0 Z]. cbn [dadd FOps]. rewrite Z.
    destruct p as [sp|sp|sp pl P|sp m e P]; try (apply same_nan; reflexivity); try (right; left; split; reflexivity).
    + left. destruct s0, sp, s; repeat split; reflexivity.
    + left. repeat split; reflexivity.
  - change (dadd (dofZ 0) (B754_infinity 53 1024 s)) with (B754_infinity 53 1024 s : F64). apply add_comm_same.
  - apply same_nan; [|destruct p; reflexivity]. destruct p; reflexivity.
  - change (dadd (dofZ 0) (B754_finite 53 1024 s m e P)) with (B754_finite 53 1024 s m e P : F64). apply add_comm_same.
Qed.

Lemma same_cell (scale x x' y y' : F64) : same x x' -> same y y' -> world_to_cell scale (x, y) = world_to_cell scale (x', y').
Proof.
  assert (G : forall a b : F64, same a b -> dispinf a = dispinf b /\ floor_int (ddiv a scale) = floor_int (ddiv b scale)).
  { intros a b [(Fa & Fb & E)|[(_ & ->)|[Na Nb]]]; [|split; reflexivity|].
    - destruct (Req_dec (F2R64 a) 0) as [Z|NZ].
      + assert (ZZ : forall c : F64, F_fin c = true -> F2R64 c = 0 -> exists s, c = B754_zero 53 1024 s).
        { clear. intros [s|s|s pl P|s m e P] F V; try discriminate F; [eauto|]. exfalso. unfold F2R64 in V. cbn [B2R] in V.
          apply eq_0_F2R in V. destruct s; discriminate V. }
        destruct (ZZ a Fa Z) as [s ->]. destruct (ZZ b Fb ltac:(congruence)) as [s' ->]. split; [reflexivity|].
        destruct scale; reflexivity.
      + assert (X : a = b); [|subst; split; reflexivity].
        apply (B2R_inj 53 1024); [| |exact E].
        * destruct a; try discriminate Fa; [|reflexivity]. exfalso. apply NZ. reflexivity.
        * destruct b; try discriminate Fb; [|reflexivity]. exfalso. apply NZ. rewrite E. reflexivity.
    - destruct a; try discriminate Na. destruct b; try discriminate Nb. split; [reflexivity|]. destruct scale; reflexivity. }
  intros Hx Hy. destruct (G _ _ Hx) as [X1 X2]. destruct (G _ _ Hy) as [Y1 Y2].
  unfold world_to_cell, ptx, pty. cbn [fst snd]. now rewrite X1, X2, Y1, Y2.
Qed.

(** Machine numbers, any libm, any provider (the caching one included): a scan that is rotated once and then only shifted
    puts each point at the same coordinates, and so on the same cell of any grid, as the original scan moved with the
    provider. *)
Theorem C93_prerotated_scan_binary64 : forall (dcos dsin : F64 -> F64) (datan2 : F64 -> F64 -> F64) (tp : trig F64)
    (raw scan : list (scan_point F64)),
  scan_to_cartesian datan2 tp raw = Ok scan ->
  length scan = length raw /\
  forall (i : nat) (r s : scan_point F64) (p : point F64) (scale : F64), nth_error raw i = Some r -> nth_error scan i = Some s ->
    sp_occ s = sp_occ r /\
    exists q, sp_move_origin_tp datan2 p tp r = Ok q /\
      same (fst (sp_move_origin dcos dsin p s)) (fst q) /\ same (snd (sp_move_origin dcos dsin p s)) (snd q) /\
      world_to_cell scale (sp_move_origin dcos dsin p s) = world_to_cell scale q.
Proof.
  intros dcos dsin datan2 tp raw. unfold scan_to_cartesian. induction raw as [|r raw IH]; intros scan E.
  - cbn [mapM] in E. assert (X : scan = []) by congruence. subst scan. split; [reflexivity|]. intros [|i]; discriminate.
  - cbn [mapM] in E. destruct (sp_to_cartesian_tp datan2 tp r) as [s| | |] eqn:Es; cbn [bind] in E; try discriminate.
    destruct (mapM (sp_to_cartesian_tp datan2 tp) raw) as [l| | |] eqn:El; cbn [bind] in E; try discriminate.
    assert (X : scan = s :: l) by congruence. subst scan. destruct (IH l eq_refl) as [L H]. split; [cbn; now rewrite L|].
    intros [|i] r0 s0 p scale Hr Hs; [|apply (H i); assumption].
    cbn [nth_error] in Hr, Hs. assert (r0 = r) by congruence. assert (s0 = s) by congruence. subst r0 s0.
    unfold sp_to_cartesian_tp, sp_move_origin_tp in Es |- *.
    destruct (tp_cos tp (sp_angle datan2 r)) as [c| | |]; cbn [bind] in Es |- *; try discriminate.
    destruct (tp_sin tp (sp_angle datan2 r)) as [n| | |]; cbn [bind] in Es |- *; try discriminate.
    match type of Es with Ok ?x = Ok _ => assert (Y : s = x) by congruence end. subst s. split; [reflexivity|].
    eexists. split; [reflexivity|]. destruct p as [p1 p2].
    assert (A : same (fst (sp_move_origin dcos dsin (p1, p2) (sp_make_cartesian (dadd (ptx (dofZ 0, dofZ 0)) (dmul (sp_range r) c),
                       dadd (pty (dofZ 0, dofZ 0)) (dmul (sp_range r) n)) (sp_occ r)))) (dadd p1 (dmul (sp_range r) c))) by apply zero_add.
    assert (B : same (snd (sp_move_origin dcos dsin (p1, p2) (sp_make_cartesian (dadd (ptx (dofZ 0, dofZ 0)) (dmul (sp_range r) c),
                       dadd (pty (dofZ 0, dofZ 0)) (dmul (sp_range r) n)) (sp_occ r)))) (dadd p2 (dmul (sp_range r) n))) by apply zero_add.
    split; [exact A|]. split; [exact B|]. exact (same_cell scale _ _ _ _ A B).
Qed.
Print Assumptions C93_prerotated_scan_binary64.

(** A case: two points, one of them Cartesian, in binary64. *)
Example C93_case : exists scan, scan_to_cartesian (fun y _ => y) (raw_trig (fun x => x) (fun x => x) (dofZ 1 : F64))
    [sp_make_polar (dofZ 2) (dlit 1 2) true; sp_make_cartesian (dofZ 3, dofZ 4) false] = Ok scan /\ length scan = 2%nat.
Proof. eexists. split; reflexivity. Qed.
