(** What a map under construction should report. *)
From Coq Require Import Reals ZArith List Bool.
From Verif.Base Require Import Outcome Num.
From Verif.Model Require Import Geometry Grid PlainMap LazyMap Cells Pyramid World Config WholeSlam.
From Verif.Base Require Import Outcome.
Local Open Scope R_scope.

Definition probability (x : F64) : Prop := F_fin x = true /\ 0 <= F2R64 x <= 1.

(** what a cell that was never observed reports: 1/2, or -1 in GMapping *)
Definition unknown_value (c : acell F64) : R := match c with CGmapping _ => -1 | _ => / 2 end.
Definition is_consistent (c : acell F64) : Prop := exists t, c = CConsistent t.
(** a cell reports the unknown value while it is unknown and a probability afterwards; cells of the class
    TbmOccConsistentCell may report NaN (C19) *)
Definition reports_well (c : acell F64) : Prop :=
  if c_unknown (acell_base c) then F_fin (acell_prob c) = true /\ F2R64 (acell_prob c) = unknown_value c
  else probability (acell_prob c) \/ (is_consistent c /\ disnan (acell_prob c) = true).

(** sensible settings of an occupancy estimator *)
Definition occ01 (o : occup F64) : Prop := probability (prob_occ o) /\ probability (est_quality o).
Definition est01 (e : occ_estimator (D := F64)) : Prop :=
  match e with ConstEst a b => occ01 a /\ occ01 b | AreaEst a b => occ01 a /\ occ01 b end.

(** the cell classes the programs use as prototypes *)
Inductive prototype : acell F64 -> Prop :=
| proto_configured m : prototype (new_cell m)
| proto_credibilist : prototype (CCredibilist cred_new)
| proto_gmapping : prototype (CGmapping gm_new).

(** cells of the same class *)
Definition same_class (a b : acell F64) : Prop :=
  match a, b with
  | CAffine _, CAffine _ | CMean _, CMean _ | CConsistent _, CConsistent _ | CEven _, CEven _
  | CCredibilist _, CCredibilist _ | CGmapping _, CGmapping _ => True
  | _, _ => False
  end.

(** a map just created by the program: of any class and size, with cells like [proto] *)
Definition fresh_map (proto : acell F64) (infinity : F64) (m : amap F64) : Prop :=
  (exists k w h, new_amap proto k w h = Ok m) \/ (exists w h s, new_rescalable proto infinity w h s = Ok m).
(** every cell that can be read has the class of [proto] and reports what it should *)
Definition map_reports_well (proto : acell F64) (m : amap F64) : Prop :=
  forall c v, amap_get m c = Ok v -> same_class proto v /\ reports_well v.

(** the entries of a nav_msgs/OccupancyGrid: -1 or a percentage *)
Definition grid_byte (e : Z) : Prop := e = (-1)%Z \/ (0 <= e <= 100)%Z.
