(** Model of src/utils/init_occupancy_mapping.h, src/utils/init_scan_matching.h and src/slams/gmapping/init_gmapping.h: what
    is read from the configuration, and of the command line of src/ros/lslam2D_bag_runner.cpp. *)
From Coq Require Import Ascii String ZArith List Bool.
From Verif.Base Require Import Outcome Num.
From Verif.Model Require Import Properties Cells.
Import ListNotations.
Local Open Scope Z_scope.
Local Open Scope outcome_scope.

Section Config.
  Context {D : Type} {ops : DOps D}.
  (** std::stod; not modelled further (an exception is Abort) *)
  Variable stod : str -> outcome D.
  (** properties_providers.h:54-56 *)
  Definition get_dbl (p : props) (id : str) (dflt : D) : outcome D := match p id with Some v => stod v | None => Ok dflt end.
  (** [static_cast<int>(std::ceil(x))]; ceil(x) is -floor(-x) *)
  Definition ceil_int (x : D) : outcome Z := to_int (match dfloor (dopp x) with Some z => Some (- z) | None => None end).

  (** init_occupancy_mapping.h:32-40: GridMapParams{width in cells, height in cells, meters per cell} *)
  Definition init_grid_map_params (p : props) : outcome (Z * Z * D) :=
    w <- get_dbl p (lit "slam/map/height_in_meters") (dofZ 10) ;;
    h <- get_dbl p (lit "slam/map/width_in_meters") (dofZ 10) ;;
    scale <- get_dbl p (lit "slam/map/meters_per_cell") (dlit 1 10) ;;
    wc <- ceil_int (ddiv w scale) ;;
    hc <- ceil_int (ddiv h scale) ;;
    Ok (wc, hc, scale).

  (** init_occupancy_mapping.h:22-30 *)
  Definition init_pose_quality_estimators (p : props) : outcome (D * D) :=
    c <- get_dbl p (lit "slam/mapping/corrected_pose_quality") (dofZ 1) ;;
    r <- get_dbl p (lit "slam/mapping/raw_pose_quality") (dlit 1 2) ;;
    Ok (c, r).

  (** init_occupancy_mapping.h:42-62; std::exit(-1) on an unknown type is Abort *)
  Inductive occ_estimator := ConstEst (occupied empty : occup D) | AreaEst (occupied empty : occup D).
  Definition init_occ_estimator (p : props) : outcome occ_estimator :=
    op <- get_dbl p (lit "slam/occupancy_estimator/base_occupied/prob") (dlit 95 100) ;;
    oq <- get_dbl p (lit "slam/occupancy_estimator/base_occupied/qual") (dofZ 1) ;;
    ep <- get_dbl p (lit "slam/occupancy_estimator/base_empty/prob") (dlit 1 100) ;;
    eq <- get_dbl p (lit "slam/occupancy_estimator/base_empty/qual") (dofZ 1) ;;
    let type := get_str p (lit "slam/occupancy_estimator/type") (lit "const") in
    if str_eqb type (lit "const") then Ok (ConstEst (mkOcc op oq) (mkOcc ep eq))
    else if str_eqb type (lit "area") then Ok (AreaEst (mkOcc op oq) (mkOcc ep eq))
    else Abort.

  (** init_occupancy_mapping.h:64-80: the name is OMQE_NS + "type" where OMQE_NS itself ends in "type" *)
  Inductive omqe := IdleOmqe | AhrOmqe.
  Definition init_omqe (p : props) : outcome omqe :=
    let type := get_str p (lit "slam/mapping/observation_quality_estimator/type" ++ lit "type") (lit "idle") in
    if str_eqb type (lit "idle") then Ok IdleOmqe else if str_eqb type (lit "ahr") then Ok AhrOmqe else Abort.

  (** init_occupancy_mapping.h:94-111 *)
  Inductive area_model := TbmConsistent | TbmUnknownEven | AffineQuality | MeanProbability.
  Definition init_occupied_area_model (p : props) : outcome area_model :=
    let t := get_str p (lit "slam/mapping/grid/area/type") (lit "<undefined>") in
    if str_eqb t (lit "tbm_consistent") then Ok TbmConsistent
    else if str_eqb t (lit "tbm_unknown_even_occ") then Ok TbmUnknownEven
    else if str_eqb t (lit "affine_quality_merge") then Ok AffineQuality
    else if str_eqb t (lit "mean_probability") then Ok MeanProbability
    else Abort.

  (** init_occupancy_mapping.h:126-146 *)
  Inductive map_kind := PlainKind | UnboundedPlainKind | LazyKind | UnboundedLazyKind.
  Definition init_map_kind (p : props) : outcome map_kind :=
    let t := get_str p (lit "slam/mapping/grid/type") (lit "<undefined>") in
    if str_eqb t (lit "plain") then Ok PlainKind
    else if str_eqb t (lit "unbounded_plain") then Ok UnboundedPlainKind
    else if str_eqb t (lit "lazy_tiled") then Ok LazyKind
    else if str_eqb t (lit "unbounded_lazy_tiled") then Ok UnboundedLazyKind
    else Abort.

  (** init_scan_matching.h:27-44 *)
  Inductive oie_kind := DiscrepancyOie | OccupancyOie.
  Definition init_oie (p : props) : outcome oie_kind :=
    let t := get_str p (lit "slam/scmtch/oie/type") (lit "discrepancy") in
    if str_eqb t (lit "discrepancy") then Ok DiscrepancyOie else if str_eqb t (lit "occupancy") then Ok OccupancyOie else Abort.
  (** init_scan_matching.h:49-69: the impact estimator is created first *)
  Inductive oope_kind := ObstacleOope | MaxOope | MeanOope | OverlapOope.
  Definition init_oope (p : props) : outcome (oope_kind * oie_kind) :=
    let t := get_str p (lit "slam/scmtch/oope/type") (lit "obstacle") in
    oie <- init_oie p ;;
    k <- (if str_eqb t (lit "obstacle") then Ok ObstacleOope
          else if str_eqb t (lit "max") then Ok MaxOope
          else if str_eqb t (lit "mean") then Ok MeanOope
          else if str_eqb t (lit "overlap") then Ok OverlapOope
          else Abort) ;;
    Ok (k, oie).
  (** init_scan_matching.h:74-92 *)
  Inductive swp_kind := EvenSwp | VinySwp | AhrSwp.
  Definition init_swp (p : props) : outcome swp_kind :=
    let t := get_str p (lit "slam/scmtch/spe/wmpp/weighting/type") (lit "<undefined>") in
    if str_eqb t (lit "even") then Ok EvenSwp else if str_eqb t (lit "viny") then Ok VinySwp
    else if str_eqb t (lit "ahr") then Ok AhrSwp else Abort.
  (** init_scan_matching.h:94-113: skip rate, maximal range, weighting *)
  Definition init_spe (p : props) : outcome (Z * D * swp_kind) :=
    if str_eqb (get_str p (lit "slam/scmtch/spe/type") (lit "<undefined>")) (lit "wmpp") then
      skip <- get_uint p (lit "slam/scmtch/spe/wmpp/sp_skip_rate") 0 ;;
      range <- get_dbl p (lit "slam/scmtch/spe/wmpp/sp_max_usable_range") (dofZ (-1)) ;;
      swp <- init_swp p ;;
      Ok (skip, range, swp)
    else Abort.

  (** init_scan_matching.h:118-211: the matcher and its parameters.  [rnd_seed] is std::random_device's value; deg2rad is a
      parameter (its argument is 1/10, 1 or 5 degrees). *)
  Variable rnd_seed : Z.
  Variable deg2rad : D -> D.
  Inductive sm_config :=
  | McConfig (seed : Z) (transl rot : D) (failed_limit attempts_limit : Z)
  | HcConfig (failed_limit : Z) (transl rot : D) (align : bool)
  | BfConfig (x y t : D * D * D)          (* from, to, step *)
  | M3Config (max_x max_y max_rot ang_acc trl_acc : D)
  | IdleConfig | HcFixedConfig.
  Definition init_mc (p : props) : outcome sm_config :=
    tr <- get_dbl p (lit "slam/scmtch/MC/dispersion/translation") (dlit 2 10) ;;
    rot <- get_dbl p (lit "slam/scmtch/MC/dispersion/rotation") (dlit 1 10) ;;
    fl <- get_uint p (lit "slam/scmtch/MC/dispersion/failed_attempts_limit") 20 ;;
    al <- get_uint p (lit "slam/scmtch/MC/attempts_limit") 100 ;;
    seed <- get_int p (lit "slam/scmtch/MC/seed") rnd_seed ;;
    Ok (McConfig seed tr rot fl al).
  Definition init_hc (p : props) : outcome sm_config :=
    tr <- get_dbl p (lit "slam/scmtch/HC/distortion/translation") (dlit 1 10) ;;
    rot <- get_dbl p (lit "slam/scmtch/HC/distortion/rotation") (dlit 1 10) ;;
    fl <- get_uint p (lit "slam/scmtch/HC/distortion/failed_attempts_limit") 6 ;;
    Ok (HcConfig fl tr rot (get_bool p (lit "slam/scmtch/HC/use_frame_alignement") false)).
  (** INIT_BFSM_RANGE(dim, limit, step) *)
  Definition bf_range (p : props) (dim : str) (limit step : D) : outcome (D * D * D) :=
    from <- get_dbl p (lit "slam/scmtch/BF/" ++ dim ++ lit "/from") (dopp limit) ;;
    to <- get_dbl p (lit "slam/scmtch/BF/" ++ dim ++ lit "/to") limit ;;
    st <- get_dbl p (lit "slam/scmtch/BF/" ++ dim ++ lit "/step") step ;;
    Ok (from, to, st).
  Definition init_bf (p : props) : outcome sm_config :=
    x <- bf_range p (lit "x") (dlit 1 2) (dlit 1 10) ;;
    y <- bf_range p (lit "y") (dlit 1 2) (dlit 1 10) ;;
    t <- bf_range p (lit "t") (deg2rad (dofZ 5)) (deg2rad (dofZ 1)) ;;
    Ok (BfConfig x y t).
  Definition init_bf_m3rsm (p : props) : outcome sm_config :=
    ang <- get_dbl p (lit "slam/scmtch/BF_M3RSM/accuracy/rotation") (deg2rad (dlit 1 10)) ;;
    trl <- get_dbl p (lit "slam/scmtch/BF_M3RSM/accuracy/translation") (dlit 5 100) ;;
    mx <- get_dbl p (lit "slam/scmtch/BF_M3RSM/limits/x_translation") (dofZ 1) ;;
    my <- get_dbl p (lit "slam/scmtch/BF_M3RSM/limits/y_translation") (dofZ 1) ;;
    mr <- get_dbl p (lit "slam/scmtch/BF_M3RSM/limits/rotation") (deg2rad (dofZ 5)) ;;
    Ok (M3Config mx my mr ang trl).
  (** init_scan_matching.h:185-218: the matcher, and whether it is wrapped in the drift detector *)
  Definition init_scan_matcher (p : props) : outcome ((Z * D * swp_kind) * (oope_kind * oie_kind) * sm_config * bool) :=
    oope <- init_oope p ;;
    spe <- init_spe p ;;
    let t := get_str p (lit "slam/scmtch/type") (lit "<undefined>") in
    sm <- (if str_eqb t (lit "MC") then init_mc p
           else if str_eqb t (lit "HC") then init_hc p
           else if str_eqb t (lit "BF") then init_bf p
           else if str_eqb t (lit "BF_M3RSM") then init_bf_m3rsm p
           else if str_eqb t (lit "idle") then Ok IdleConfig
           else if str_eqb t (lit "HC_FIXED") then Ok HcFixedConfig
           else Abort) ;;
    Ok (spe, oope, sm, get_bool p (lit "slam/scmtch/use_amb_drift_detector") false).

  (** init_gmapping.h:36-46: the estimator's threshold and window; a wrong type trips an assert.  The window is read from
      "cutrom/window_size". *)
  Definition init_gmapping_oope (p : props) : outcome (D * Z) :=
    _ <- assert_ (str_eqb (get_str p (lit "slam/scmtch/oope/type") (lit "custom")) (lit "custom")) ;;
    th <- get_dbl p (lit "slam/scmtch/oope/custom/fullness_threshold") (dlit 1 10) ;;
    win <- get_uint p (lit "slam/scmtch/oope/cutrom/window_size") 1 ;;
    Ok (th, win).
  (** src/ros/init_utils.h:49-52, 56-58 *)
  Definition get_skip_exceeding_lsr (p : props) : bool := get_bool p (lit "in/lscan2D/skip_exceeding_vals") false.
  Definition get_use_trig_cache (p : props) : bool := get_bool p (lit "slam/performance/use_trig_cache") false.
End Config.

(** *** src/ros/lslam2D_bag_runner.cpp:23-86: the command line.  The files of -p are only collected here (in order). *)
Record prog_args := mkArgs { pa_valid : bool; pa_type : str; pa_bag : str; pa_props : list str; pa_traj : option str; pa_map : str; pa_verbose : bool }.
Definition args0 : prog_args := mkArgs true [] [] [] None [] false.
Definition is_flag (a : str) : bool := match a with c :: _ => Ascii.eqb c "-" | [] => false end.
(** 46-54: a mandatory argument *)
Definition take_mandatory (r : prog_args) (id : nat) (a : str) : prog_args :=
  match id with
  | 0%nat => mkArgs (pa_valid r) a (pa_bag r) (pa_props r) (pa_traj r) (pa_map r) (pa_verbose r)
  | 1%nat => mkArgs (pa_valid r) (pa_type r) a (pa_props r) (pa_traj r) (pa_map r) (pa_verbose r)
  | _ => mkArgs false (pa_type r) (pa_bag r) (pa_props r) (pa_traj r) (pa_map r) (pa_verbose r)
  end.
(** 55-64: the value of a flag *)
Definition take_flag (r : prog_args) (flag a : str) : prog_args :=
  if str_eqb flag (lit "-p") then mkArgs (pa_valid r) (pa_type r) (pa_bag r) (pa_props r ++ [a]) (pa_traj r) (pa_map r) (pa_verbose r)
  else if str_eqb flag (lit "-t") then mkArgs (pa_valid r) (pa_type r) (pa_bag r) (pa_props r) (Some a) (pa_map r) (pa_verbose r)
  else if str_eqb flag (lit "-m") then mkArgs (pa_valid r) (pa_type r) (pa_bag r) (pa_props r) (pa_traj r) a (pa_verbose r)
  else r.
Definition set_verbose (r : prog_args) : prog_args := mkArgs (pa_valid r) (pa_type r) (pa_bag r) (pa_props r) (pa_traj r) (pa_map r) true.
(** 28-69 *)
Fixpoint args_loop (r : prog_args) (id : nat) (flag : str) (argv : list str) : prog_args * nat :=
  match argv with
  | [] => (r, id)
  | a :: argv =>
      if is_flag a then
        if str_eqb a (lit "-v") then args_loop (set_verbose r) id [] argv else args_loop r id a argv
      else match flag with
           | [] => args_loop (take_mandatory r id a) (S id) [] argv
           | _ => args_loop (take_flag r flag a) id [] argv
           end
  end.
Definition args_init (argv : list str) : prog_args :=
  let (r, id) := args_loop args0 0 [] argv in
  mkArgs (pa_valid r && Nat.eqb id 2) (pa_type r) (pa_bag r) (pa_props r) (pa_traj r) (pa_map r) (pa_verbose r).
