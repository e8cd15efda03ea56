(** Model of src/slams/gmapping/{gmapping_world,gmapping_particle_filter}.h. *)
From Coq Require Import ZArith List Bool.
From Verif.Base Require Import Outcome Num.
From Verif.Model Require Import MathUtils Geometry Sensor Histogram World ParticleFilter.
Import ListNotations.
Local Open Scope Z_scope.
Local Open Scope outcome_scope.

Section Gmapping.
  Context {D S M SM G RV : Type} {ops : DOps D}.
  Variables (dcos dsin : D -> D).
  (** random engines [G] and pose-delta random variables [RV] (robot_pose.h:63-94, random_utils.h) are arbitrary:
      [rv_sample] gives a value and the new states, [rv_copy] is the copy (clone of the three distributions) *)
  Variables (rv_sample : RV -> G -> pose D * RV * G) (rv_copy : RV -> RV) (rv_zero : RV).
  (** the scan matcher and the scan adder, as in World.v; both shared by all the particles *)
  Variables (sm_process : SM -> S -> pose D -> M -> outcome (D * pose D * SM)).
  Variable adder : M -> pose D -> S -> D -> D -> outcome M.

  (** gmapping_world.h:121-127, Particle::_weight, World::_pose and the map pointer
      (single_state_hypothesis_laser_scan_grid_world.h:69) as an index of the heap of maps *)
  Record gparticle := mkGP {
    gp_weight : D; gp_pose : pose D; gp_raw : pose D; gp_master : bool; gp_first : bool; gp_engine : G;
    gp_guess : RV; gp_lim : RV; gp_since : pose D; gp_next : pose D; gp_map : nat }.

  (** gmapping_world.h:116-119 *)
  Definition gp_reset_sm_delta (p : gparticle) : gparticle :=
    let '(next, lim, g) := rv_sample (gp_lim p) (gp_engine p) in
    mkGP (gp_weight p) (gp_pose p) (gp_raw p) (gp_master p) (gp_first p) g (gp_guess p) lim delta_zero next (gp_map p).
  (** gmapping_world.h:45-55; gmapping_particle_filter.h:20-22: every particle gets the same properties, hence [map_ptr] *)
  Definition gp_create (guess lim : RV) (map_ptr : nat) (seed : G) : gparticle :=
    gp_reset_sm_delta (mkGP (dofZ 1) delta_zero delta_zero false true seed (rv_copy guess) (rv_copy lim) delta_zero delta_zero map_ptr).

  (** world.h:75-77 *)
  Definition gp_move (p : gparticle) (d : pose D) : gparticle :=
    mkGP (gp_weight p) (pose_add (gp_pose p) d) (gp_raw p) (gp_master p) (gp_first p) (gp_engine p) (gp_guess p) (gp_lim p)
      (gp_since p) (gp_next p) (gp_map p).
  (** gmapping_world.h:57-71 *)
  Definition gp_update_robot_pose (delta : pose D) (p : gparticle) : gparticle :=
    let d_th := pth (pose_sub (gp_pose p) (gp_raw p)) in
    let s := dsin d_th in let c := dcos d_th in
    let corrected := mkPose (dsub (dmul c (px delta)) (dmul s (py delta))) (dadd (dmul s (px delta)) (dmul c (py delta))) (pth delta) in
    gp_move (mkGP (gp_weight p) (gp_pose p) (pose_add (gp_raw p) delta) (gp_master p) (gp_first p) (gp_engine p) (gp_guess p)
               (gp_lim p) (pose_add (gp_since p) (delta_abs corrected)) (gp_next p) (gp_map p)) corrected.
  Definition gp_set_weight (w : D) (p : gparticle) : gparticle :=
    mkGP w (gp_pose p) (gp_raw p) (gp_master p) (gp_first p) (gp_engine p) (gp_guess p) (gp_lim p) (gp_since p) (gp_next p) (gp_map p).
  (** gmapping_world.h:112 *)
  Definition gp_sample (p : gparticle) : gparticle :=
    mkGP (gp_weight p) (gp_pose p) (gp_raw p) false (gp_first p) (gp_engine p) (gp_guess p) (gp_lim p) (gp_since p) (gp_next p) (gp_map p).
  (** what [*new_particle = *sampled; new_particle->sample()] leaves (particle_filter.h:95-96; random variables are copied by
      cloning, robot_pose.h:75-81) *)
  Definition gp_duplicate (p : gparticle) : gparticle :=
    gp_sample (mkGP (gp_weight p) (gp_pose p) (gp_raw p) (gp_master p) (gp_first p) (gp_engine p) (rv_copy (gp_guess p))
                 (rv_copy (gp_lim p)) (gp_since p) (gp_next p) (gp_map p)).
  (** gmapping_world.h:103-110 *)
  Definition gp_mark_master (p : gparticle) : gparticle :=
    mkGP (gp_weight p) (gp_pose p) (gp_raw p) true (gp_first p) (gp_engine p) rv_zero rv_zero (gp_since p) (gp_next p) (gp_map p).

  (** gmapping_world.h:73-101; the maps heap and the scan matcher are shared *)
  Definition gp_skips (p : gparticle) : bool :=
    dlt (delta_sq_dist (gp_since p)) (delta_sq_dist (gp_next p)) && dlt (dabs (pth (gp_since p))) (pth (gp_next p)).
  Definition gp_observe (maps : list M) (sm : SM) (p : gparticle) (s : tr_scan D S) : outcome (list M * SM * gparticle) :=
    if gp_skips p then Ok (maps, sm, p)
    else
      let p :=
        if gp_first p then p
        else
          let '(noise, guess, g) := rv_sample (gp_guess p) (gp_engine p) in
          gp_move (mkGP (gp_weight p) (gp_pose p) (gp_raw p) (gp_master p) (gp_first p) g guess (gp_lim p) (gp_since p) (gp_next p) (gp_map p)) noise in
      match nth_error maps (gp_map p) with
      | None => UB
      | Some m =>
          '(prob, delta, sm) <- sm_process sm (ts_scan s) (gp_pose p) m ;;
          let p := gp_move p delta in
          '(maps, p) <-
            (if dlt (dofZ 0) prob || gp_first p then
               m <- adder m (gp_pose p) (ts_scan s) (ts_quality s) (dofZ 0) ;;
               Ok (upd maps (gp_map p) (fun _ => m),
                   mkGP (gp_weight p) (gp_pose p) (gp_raw p) (gp_master p) false (gp_engine p) (gp_guess p) (gp_lim p) (gp_since p) (gp_next p) (gp_map p))
             else Ok (maps, p)) ;;
          Ok (maps, sm, gp_reset_sm_delta (gp_set_weight (dmul prob (gp_weight p)) p))
      end.

  (** gmapping_particle_filter.h:29-118 *)
  Record gfilter := mkGF { gf_pf : pf gparticle; gf_trav : pose D; gf_maps : list M; gf_sm : SM }.

  Fixpoint gf_each (h : list gparticle) (ptrs : list nat) (f : gparticle -> gparticle) : outcome (list gparticle) :=
    match ptrs with
    | [] => Ok h
    | p :: ptrs => _ <- deref h p ;; gf_each (upd h p f) ptrs f
    end.
  (** gmapping_particle_filter.h:35-43; all the maps are the one of the properties *)
  Definition gf_new (guess lim : RV) (seeds : nat -> G) (m : M) (sm : SM) (n : nat) : outcome gfilter :=
    let f := pf_new gp_set_weight (fun i => gp_create guess lim 0 (seeds i)) n in
    h <- gf_each (pf_heap f) (pf_ptrs f) gp_sample ;;
    p <- heaviest_ptr gp_weight (mkPF h (pf_ptrs f)) ;;
    Ok (mkGF (mkPF (upd h p gp_mark_master) (pf_ptrs f)) delta_zero [m] sm).

  (** gmapping_particle_filter.h:52-57 *)
  Definition gf_update (f : gfilter) (delta : pose D) : outcome gfilter :=
    h <- gf_each (pf_heap (gf_pf f)) (pf_ptrs (gf_pf f)) (gp_update_robot_pose delta) ;;
    Ok (mkGF (mkPF h (pf_ptrs (gf_pf f))) (pose_add (gf_trav f) (delta_abs delta)) (gf_maps f) (gf_sm f)).

  (** gmapping_particle_filter.h:71-73 *)
  Fixpoint gf_observe_each (maps : list M) (sm : SM) (h : list gparticle) (ptrs : list nat) (s : tr_scan D S)
      : outcome (list M * SM * list gparticle) :=
    match ptrs with
    | [] => Ok (maps, sm, h)
    | p :: ptrs =>
        x <- deref h p ;;
        '(maps, sm, x) <- gp_observe maps sm x s ;;
        gf_observe_each maps sm (upd h p (fun _ => x)) ptrs s
    end.
  (** gmapping_particle_filter.h:102-113 *)
  Definition gf_ensure_master (f : pf gparticle) : outcome (pf gparticle) :=
    xs <- objects (pf_heap f) (pf_ptrs f) ;;
    if existsb gp_master xs then Ok f
    else p <- heaviest_ptr gp_weight f ;; Ok (mkPF (upd (pf_heap f) p gp_mark_master) (pf_ptrs f)).
  (** gmapping_particle_filter.h:88-99 ([fabs] of a bool, line 90, is the bool) *)
  Definition gf_try_resample (f : gfilter) (samples : nat -> D) : outcome gfilter :=
    if dle (delta_sq_dist (gf_trav f)) (dlit 1 2) && dle (pth (gf_trav f)) (dlit 1 5) then Ok f
    else
      '(p, resampled) <- pf_try_resample gp_weight gp_set_weight gp_duplicate (gf_pf f) samples ;;
      if negb resampled then Ok (mkGF p (gf_trav f) (gf_maps f) (gf_sm f))
      else p <- gf_ensure_master p ;; Ok (mkGF p delta_zero (gf_maps f) (gf_sm f)).
  (** gmapping_particle_filter.h:70-85; [samples]: the uniform draws of this step *)
  Definition gf_observe (f : gfilter) (s : tr_scan D S) (samples : nat -> D) : outcome gfilter :=
    '(maps, sm, h) <- gf_observe_each (gf_maps f) (gf_sm f) (pf_heap (gf_pf f)) (pf_ptrs (gf_pf f)) s ;;
    p <- normalize_weights gp_weight gp_set_weight (mkPF h (pf_ptrs (gf_pf f))) ;;
    gf_try_resample (mkGF p (gf_trav f) maps sm) samples.

  (** gmapping_particle_filter.h:59-66 *)
  Definition gf_pose (f : gfilter) : outcome (pose D) :=
    p <- heaviest_ptr gp_weight (gf_pf f) ;; x <- deref (pf_heap (gf_pf f)) p ;; Ok (gp_pose x).
  Definition gf_map (f : gfilter) : outcome M :=
    p <- heaviest_ptr gp_weight (gf_pf f) ;; x <- deref (pf_heap (gf_pf f)) p ;;
    match nth_error (gf_maps f) (gp_map x) with Some m => Ok m | None => UB end.

  (** histories of calls; each scan comes with the uniform draws made while handling it: gmapping_particle_filter.h:45-50 *)
  Definition gf_run : wobservers -> gfilter -> list (wevent D (S * (nat -> D))) -> outcome (wobservers * gfilter * list (wnote D M)) :=
    world_run gf_update
      (fun f s => gf_observe f (mkTS (ts_delta s) (fst (ts_scan s)) (ts_quality s)) (snd (ts_scan s))) gf_pose gf_map.
End Gmapping.
Arguments gparticle D G RV : clear implicits.
Arguments gfilter D M SM G RV : clear implicits.
