(** Model of the pose enumeration scan matchers: src/core/scan_matchers/{pose_enumeration_scan_matcher,
    pose_enumerators,grid_scan_matcher,brute_force_scan_matcher,hill_climbing_scan_matcher,
    monte_carlo_scan_matcher,hcsm_fixed,no_action_scan_matcher}.h. *)
From Coq Require Import ZArith List Bool.
From Verif.Base Require Import Outcome Num.
From Verif.Model Require Import MathUtils Geometry PlainMap Sensor.
Import ListNotations.
Local Open Scope Z_scope.
Local Open Scope outcome_scope.

(** ** observers: grid_scan_matcher.h:16-32 (events), 160-174 (subscribe/unsubscribe), 211-217 (notification).
    A registered weak_ptr is an observer id with its liveness. *)
Section Observers.
  Context {D : Type}.
  Inductive event :=
  | EvStart (init : pose D)                  (* on_matching_start *)
  | EvTest (p : pose D) (prob : D)           (* on_scan_test *)
  | EvUpdate (p : pose D) (prob : D)         (* on_pose_update *)
  | EvEnd (delta : pose D) (prob : D).       (* on_matching_end *)
  Definition observers := list (Z * bool)%type.
  (** grid_scan_matcher.h:160-162 *)
  Definition subscribe (obs : observers) (o : Z) : observers := obs ++ [(o, true)].
  (** grid_scan_matcher.h:164-174 *)
  Definition unsubscribe (obs : observers) (o : Z) : observers :=
    filter (fun r : Z * bool => snd r && negb (fst r =? o)) obs.
  (** grid_scan_matcher.h:211-217: the calls made by one [do_for_each_observer] whose functor emits [evs] *)
  Definition notify (obs : observers) (evs : list event) : list (Z * event) :=
    flat_map (fun r : Z * bool => if snd r then map (pair (fst r)) evs else []) obs.
End Observers.
Arguments event D : clear implicits.

(** ** pose enumerators: pose_enumerators.h:7-14; [next] mutates, the random engine is part of the state *)
Record enumerator (D E : Type) := mkEnum {
  e_has_next : E -> bool;
  e_next : E -> pose D -> pose D * E;
  e_reset : E -> E;
  e_feedback : E -> bool -> E
}.
Arguments mkEnum {D E}. Arguments e_has_next {D E}. Arguments e_next {D E}.
Arguments e_reset {D E}. Arguments e_feedback {D E}.

Section PoseEnumerationSM.
  Context {D : Type} {ops : DOps D} {E : Type}.
  Variable en : enumerator D E.
  Variable score : pose D -> D.      (* scan_probability(scan, pose, map): scan and map are fixed during the call *)
  Variable obs : observers.

  (** pose_enumeration_scan_matcher.h:48-70.  [tested] is a ghost log of the calls of scan_probability *)
  Fixpoint pe_loop (fuel : nat) (e : E) (best : pose D) (best_prob : D) (tested : list (pose D)) (out : list (Z * event D))
      : outcome (E * pose D * D * list (pose D) * list (Z * event D)) :=
    if e_has_next en e then
      match fuel with
      | O => OutOfFuel
      | S fuel =>
          let '(p, e) := e_next en e best in
          let s := score p in
          let out := out ++ notify obs [EvTest p s] in
          let acceptable := dlt best_prob s in
          let e := e_feedback en e acceptable in
          if acceptable then pe_loop fuel e p s (tested ++ [p]) (out ++ notify obs [EvUpdate p s])
          else pe_loop fuel e best best_prob (tested ++ [p]) out
      end
    else Ok (e, best, best_prob, tested, out).

  Record match_result := mkMatch {
    mr_delta : pose D; mr_prob : D; mr_enum : E;
    mr_tested : list (pose D); mr_best : pose D; mr_out : list (Z * event D) }.

  (** pose_enumeration_scan_matcher.h:31-77 *)
  Definition process_scan (fuel : nat) (e : E) (init : pose D) : outcome match_result :=
    let out := notify obs [EvStart init] in
    let s0 := score init in
    let out := out ++ notify obs [EvTest init s0; EvUpdate init s0] in
    '(e, best, prob, tested, out) <- pe_loop fuel (e_reset en e) init s0 [init] out ;;
    let delta := pose_sub best init in
    Ok (mkMatch delta prob e tested best (out ++ notify obs [EvEnd delta prob])).
End PoseEnumerationSM.
Arguments match_result D E : clear implicits.

Section Enumerators.
  Context {D : Type} {ops : DOps D}.

  (** *** brute_force_scan_matcher.h:10-64 *)
  Record bf_cfg := mkBfCfg { from_x : D; to_x : D; step_x : D; from_y : D; to_y : D; step_y : D; from_t : D; to_t : D; step_t : D }.
  Record bf_state := mkBf { bf_base : option (pose D); bf_x : D; bf_y : D; bf_t : D }.
  Variable cfg : bf_cfg.
  (** brute_force_scan_matcher.h:36-40 (the base pose is not touched) *)
  Definition bf_reset (s : bf_state) : bf_state := mkBf (bf_base s) (from_x cfg) (from_y cfg) (from_t cfg).
  (** brute_force_scan_matcher.h:12-21 (the assertion is [bf_cfg_ok]) *)
  Definition bf_new : bf_state := bf_reset (mkBf None (dofZ 0) (dofZ 0) (dofZ 0)).
  Definition bf_cfg_ok : bool := dle (from_x cfg) (to_x cfg) && dle (from_y cfg) (to_y cfg) && dle (from_t cfg) (to_t cfg).
  (** brute_force_scan_matcher.h:27-34 *)
  Definition bf_next (s : bf_state) (prev : pose D) : pose D * bf_state :=
    let b := match bf_base s with Some b => b | None => prev end in
    (mkPose (dadd (px b) (bf_x s)) (dadd (py b) (bf_y s)) (dadd (pth b) (bf_t s)), mkBf (Some b) (bf_x s) (bf_y s) (bf_t s)).
  (** brute_force_scan_matcher.h:42-54 *)
  Definition bf_feedback (s : bf_state) (_ : bool) : bf_state :=
    if dlt (bf_x s) (to_x cfg) then mkBf (bf_base s) (dadd (bf_x s) (step_x cfg)) (bf_y s) (bf_t s)
    else if dlt (bf_y s) (to_y cfg) then mkBf (bf_base s) (from_x cfg) (dadd (bf_y s) (step_y cfg)) (bf_t s)
    else mkBf (bf_base s) (from_x cfg) (from_y cfg) (dadd (bf_t s) (step_t cfg)).
  (** brute_force_scan_matcher.h:23-25 *)
  Definition bf_has_next (s : bf_state) : bool := dle (bf_t s) (to_t cfg).
  Definition bf_enum : enumerator D bf_state := mkEnum bf_has_next bf_next bf_reset bf_feedback.

  (** *** pose_enumerators.h:16-67 PolarCoordBruteForcePoseEnumerator *)
  Record polar_cfg := mkPolarCfg { from_dir : D; to_dir : D; step_dir : D; from_dst : D; to_dst : D; step_dst : D }.
  Record polar_state := mkPolar { pl_base : option (pose D); pl_dir : D; pl_dst : D }.
  Variable pcfg : polar_cfg.
  Variables (dcos dsin : D -> D).
  (** pose_enumerators.h:24-25 *)
  Definition polar_cfg_ok : bool :=
    dle (from_dir pcfg) (to_dir pcfg) && dle (from_dst pcfg) (to_dst pcfg) &&
    dlt (dofZ 0) (step_dir pcfg) && dlt (dofZ 0) (step_dst pcfg).
  (** pose_enumerators.h:44-47 *)
  Definition polar_reset (s : polar_state) : polar_state := mkPolar (pl_base s) (from_dir pcfg) (from_dst pcfg).
  Definition polar_new : polar_state := polar_reset (mkPolar None (dofZ 0) (dofZ 0)).
  (** pose_enumerators.h:33-42; [pose + delta] adds zero to theta *)
  Definition polar_next (s : polar_state) (prev : pose D) : pose D * polar_state :=
    let b := match pl_base s with Some b => b | None => prev end in
    (pose_add b (mkPose (dmul (dcos (pl_dir s)) (pl_dst s)) (dmul (dsin (pl_dir s)) (pl_dst s)) (dofZ 0)),
     mkPolar (Some b) (pl_dir s) (pl_dst s)).
  (** pose_enumerators.h:49-58 *)
  Definition polar_feedback (s : polar_state) (_ : bool) : polar_state :=
    if dlt (pl_dir s) (to_dir pcfg) then mkPolar (pl_base s) (dadd (pl_dir s) (step_dir pcfg)) (pl_dst s)
    else mkPolar (pl_base s) (from_dir pcfg) (dadd (pl_dst s) (step_dst pcfg)).
  (** pose_enumerators.h:29-31 *)
  Definition polar_has_next (s : polar_state) : bool := dle (pl_dst s) (to_dst pcfg).
  Definition polar_enum : enumerator D polar_state := mkEnum polar_has_next polar_next polar_reset polar_feedback.
End Enumerators.
Arguments bf_cfg D : clear implicits.
Arguments bf_state D : clear implicits.
Arguments polar_cfg D : clear implicits.
Arguments polar_state D : clear implicits.

Section HillClimbing.
  Context {D : Type} {ops : DOps D}.
  (** *** hill_climbing_scan_matcher.h:10-68 Distorsion1DPoseEnumerator *)
  Record dist1d := mkD1 { d1_action : Z; d1_tr : D; d1_rot : D; d1_sin : D; d1_cos : D; d1_base : option (pose D) }.
  (** hill_climbing_scan_matcher.h:24 *)
  Definition d1_has_next (s : dist1d) : bool := d1_action s <? 6.
  (** hill_climbing_scan_matcher.h:26-52; unary minus on [_frame_rot_sin], products associate to the left *)
  Definition d1_next (s : dist1d) (prev : pose D) : pose D * dist1d :=
    let b := match d1_base s with Some b => b | None => prev end in
    let dir : D := if d1_action s mod 2 =? 0 then dofZ 1 else dofZ (-1) in
    let dim := d1_action s mod 3 in
    let p :=
      if dim =? 0 then
        mkPose (dadd (px b) (dmul (dmul (d1_cos s) dir) (d1_tr s))) (dadd (py b) (dmul (dmul (d1_sin s) dir) (d1_tr s))) (pth b)
      else if dim =? 1 then
        mkPose (dadd (px b) (dmul (dmul (dopp (d1_sin s)) dir) (d1_tr s))) (dadd (py b) (dmul (dmul (d1_cos s) dir) (d1_tr s))) (pth b)
      else mkPose (px b) (py b) (dadd (pth b) (dmul dir (d1_rot s))) in
    (p, mkD1 (d1_action s + 1) (d1_tr s) (d1_rot s) (d1_sin s) (d1_cos s) (Some b)).

  (** *** hill_climbing_scan_matcher.h:70-126 FailedRoundsLimitedPoseEnumerator<Distorsion1DPoseEnumerator>;
      [fr_max] is fixed by the constructor, which ignores its [frame_rotation]: the round enumerators get the default 0
      (line 14), so their sine/cosine are std::sin(0) = 0, std::cos(0) = 1 *)
  Record frl := mkFrl {
    fr_max : Z; fr_base_tr : D; fr_base_rot : D;
    fr_failed : Z; fr_tr : D; fr_rot : D; fr_round : dist1d; fr_round_failed : bool }.
  (** hill_climbing_scan_matcher.h:113-116 *)
  Definition new_round (tr rot : D) : dist1d := mkD1 0 tr rot (dofZ 0) (dofZ 1) None.
  (** hill_climbing_scan_matcher.h:99-105 *)
  Definition frl_reset (s : frl) : frl :=
    mkFrl (fr_max s) (fr_base_tr s) (fr_base_rot s) 0 (fr_base_tr s) (fr_base_rot s)
          (new_round (fr_base_tr s) (fr_base_rot s)) true.
  (** hill_climbing_scan_matcher.h:73-81 *)
  Definition frl_new (max_failed : Z) (tr rot : D) : frl :=
    frl_reset (mkFrl max_failed tr rot 0 tr rot (new_round tr rot) true).
  (** hill_climbing_scan_matcher.h:83-85 *)
  Definition frl_has_next (s : frl) : bool := fr_failed s <? fr_max s.
  (** hill_climbing_scan_matcher.h:87-97 *)
  Definition frl_next (s : frl) (prev : pose D) : pose D * frl :=
    let s :=
      if d1_has_next (fr_round s) then s
      else
        let tr := if fr_round_failed s then dmul (fr_tr s) (dlit 1 2) else fr_tr s in
        let rot := if fr_round_failed s then dmul (fr_rot s) (dlit 1 2) else fr_rot s in
        let failed := if fr_round_failed s then u32 (fr_failed s + 1) else fr_failed s in
        mkFrl (fr_max s) (fr_base_tr s) (fr_base_rot s) failed tr rot (new_round tr rot) true in
    let '(p, r) := d1_next (fr_round s) prev in
    (p, mkFrl (fr_max s) (fr_base_tr s) (fr_base_rot s) (fr_failed s) (fr_tr s) (fr_rot s) r (fr_round_failed s)).
  (** hill_climbing_scan_matcher.h:107-110 (and 55: the round enumerator ignores feedback) *)
  Definition frl_feedback (s : frl) (ok : bool) : frl :=
    mkFrl (fr_max s) (fr_base_tr s) (fr_base_rot s) (fr_failed s) (fr_tr s) (fr_rot s) (fr_round s)
          (fr_round_failed s && negb ok).
  Definition frl_enum : enumerator D frl := mkEnum frl_has_next frl_next frl_reset frl_feedback.
End HillClimbing.
Arguments dist1d D : clear implicits.
Arguments frl D : clear implicits.

Section MonteCarlo.
  Context {D : Type} {ops : DOps D} {G : Type}.
  (** *** monte_carlo_scan_matcher.h:10-82 GaussianPoseEnumerator; [sample tr rot g] draws a pose delta with the
      given dispersions from the engine state [g] *)
  Variable sample : D -> D -> G -> pose D * G.
  Record gauss := mkGauss {
    gs_max_failed : Z; gs_max_poses : Z; gs_base_tr : D; gs_base_rot : D;
    gs_failed : Z; gs_poses : Z; gs_tr : D; gs_rot : D; gs_gen : G }.
  (** monte_carlo_scan_matcher.h:39-42, 58-66 *)
  Definition gauss_reset (s : gauss) : gauss :=
    mkGauss (gs_max_failed s) (gs_max_poses s) (gs_base_tr s) (gs_base_rot s) 0 0 (gs_base_tr s) (gs_base_rot s) (gs_gen s).
  (** monte_carlo_scan_matcher.h:14-28 *)
  Definition gauss_new (seed : G) (tr rot : D) (max_failed max_poses : Z) : gauss :=
    gauss_reset (mkGauss max_failed max_poses tr rot 0 0 tr rot seed).
  (** monte_carlo_scan_matcher.h:30-33 *)
  Definition gauss_has_next (s : gauss) : bool := (gs_failed s <? gs_max_failed s) && (gs_poses s <? gs_max_poses s).
  (** monte_carlo_scan_matcher.h:35-37 *)
  Definition gauss_next (s : gauss) (prev : pose D) : pose D * gauss :=
    let '(d, g) := sample (gs_tr s) (gs_rot s) (gs_gen s) in
    (pose_add prev d, mkGauss (gs_max_failed s) (gs_max_poses s) (gs_base_tr s) (gs_base_rot s) (gs_failed s) (gs_poses s) (gs_tr s) (gs_rot s) g).
  (** monte_carlo_scan_matcher.h:44-55, 68-70 *)
  Definition gauss_feedback (s : gauss) (ok : bool) : gauss :=
    let poses := u32 (gs_poses s + 1) in
    if negb ok then
      mkGauss (gs_max_failed s) (gs_max_poses s) (gs_base_tr s) (gs_base_rot s) (u32 (gs_failed s + 1)) poses (gs_tr s) (gs_rot s) (gs_gen s)
    else if gs_failed s <=? gs_max_failed s / 3 then
      mkGauss (gs_max_failed s) (gs_max_poses s) (gs_base_tr s) (gs_base_rot s) (gs_failed s) poses (gs_tr s) (gs_rot s) (gs_gen s)
    else
      mkGauss (gs_max_failed s) (gs_max_poses s) (gs_base_tr s) (gs_base_rot s) 0 poses
              (dmul (gs_tr s) (dlit 1 2)) (dmul (gs_rot s) (dlit 1 2)) (gs_gen s).
  Definition gauss_enum : enumerator D gauss := mkEnum gauss_has_next gauss_next gauss_reset gauss_feedback.
End MonteCarlo.
Arguments gauss D G : clear implicits.

Section Fixed.
  Context {D : Type} {ops : DOps D}.
  Variable score : pose D -> D.
  Variable deg_half : D.                  (* deg2rad(0.5) *)

  (** *** hcsm_fixed.h:80-93 *)
  Definition hf_shift (p : pose D) (a_step l_step : D) (action : Z) : pose D :=
    let v : D := if action mod 2 =? 0 then dofZ 1 else dofZ (-1) in
    let dim := action mod 3 in
    if dim =? 0 then mkPose (dadd (px p) (dmul v l_step)) (py p) (pth p)
    else if dim =? 1 then mkPose (px p) (dadd (py p) (dmul v l_step)) (pth p)
    else mkPose (px p) (py p) (dadd (pth p) (dmul v a_step)).
  Definition hf_dt : D := dlit 1 100.
  (** hcsm_fixed.h:36-49: (next_action, d_d, best_diff) after trying the six actions *)
  Definition hf_direction (cur : pose D) (best_prob : D) : Z * D * D :=
    fold_left (fun st action =>
      let '(na, dd, bd) := st in
      let diff := dsub best_prob (score (hf_shift cur deg_half hf_dt action)) in
      if dlt diff bd then (action, (if action mod 3 =? 2 then deg_half else hf_dt), diff) else st)
      [0; 1; 2; 3; 4; 5] (0, dofZ 0, dofZ 1).
  (** hcsm_fixed.h:53-62; at most the given number of halvings *)
  Fixpoint hf_line (fuel : nat) (cur : pose D) (action : Z) (dd r : D) (best : pose D) (best_prob : D)
      : outcome (D * pose D * D) :=
    if dlt dd r then
      match fuel with
      | O => OutOfFuel
      | S fuel =>
          let rp := hf_shift cur r r action in
          let rs := score rp in
          if dlt best_prob rs then Ok (r, rp, rs)
          else hf_line fuel cur action dd (ddiv r (dofZ 2)) best best_prob
      end
    else Ok (r, best, best_prob).
  (** hcsm_fixed.h:31-69: the loop; [shrinks] is [_max_step_shrinks], an unsigned member that is incremented instead of
      the counter (which stays 0) *)
  Fixpoint hf_loop (fuel : nat) (shrinks : Z) (best : pose D) (best_prob : D) : outcome (Z * pose D * D) :=
    if 0 <? shrinks then
      match fuel with
      | O => OutOfFuel
      | S fuel =>
          let '(action, dd, diff) := hf_direction best best_prob in
          '(r, best', prob') <- hf_line 5 best action dd (dmul (dofZ 16) dd) best best_prob ;;
          if deq r dd then
            if dle (dofZ 0) diff then Ok (shrinks, best', prob')
            else hf_loop fuel (u32 (shrinks + 1)) (hf_shift best r r action) (dsub prob' diff)
          else hf_loop fuel (u32 (shrinks + 1)) best' prob'
      end
    else Ok (shrinks, best, best_prob).
  (** hcsm_fixed.h:19-72: (pose_delta, probability, best pose, new value of the member) *)
  Definition hf_process (fuel : nat) (shrinks : Z) (init : pose D) : outcome (pose D * D * pose D * Z) :=
    '(sh, best, prob) <- hf_loop fuel shrinks init (score init) ;;
    Ok (pose_sub best init, prob, best, sh).
End Fixed.
