(** What scan matchers may say about poses. *)
From Coq Require Import Reals ZArith List Bool.
From Verif.Base Require Import Outcome Num.
From Verif.Model Require Import Geometry Grid Cells Sensor Histogram Spe Config WholeSlam.
From Verif.Spec Require Import WholeSpec.
Local Open Scope R_scope.

(** a score: a probability, or "not a number" *)
Definition probability_or_nan (v : F64) : Prop := disnan v = true \/ probability v.
(** a scan point as scanners produce it: it stands for itself only (M3RSM alone makes points that stand for several) *)
Definition single_point (s : scan_point F64) : Prop := F_fin (sp_factor s) = true /\ F2R64 (sp_factor s) = 1.
(** all a matcher relies on about std::exp: NaN for NaN, and at most one for arguments that are not positive *)
Definition exponential (dexp : F64 -> F64) : Prop :=
  forall x, (disnan x = true -> disnan (dexp x) = true) /\ (dle x (dofZ 0) = true -> probability (dexp x)).
(** a map as a matcher sees it: any size, origin, scale and answers of has_cell; its cells are those of [m] *)
Definition sees (m : amap F64) (view : omap F64 (acell F64)) : Prop := forall c, om_cell view c = amap_get m c.

(** the weights of scan points a configuration can name: even; by direction and range; by the reciprocal of an angle histogram
    of the scan *)
Inductive weighting : swp_kind -> (list (scan_point F64) -> Z -> outcome F64) -> Prop :=
| even_weighting : weighting EvenSwp even_weight
| viny_weighting dcos dsin datan2 : weighting VinySwp (viny_weight dcos dsin datan2)
| ahr_weighting dcos dsin dacos mpi :
    weighting AhrSwp (fun pts i => bind (hist_reset dcos dsin dacos mpi 20 pts) (fun h => ahr_weight mpi h pts (Z.to_nat i))).
