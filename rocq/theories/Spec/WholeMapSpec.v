(** The map a run should build: what the scans say, seen from the corrected poses. *)
From Coq Require Import Reals ZArith List Bool.
From Flocq Require Import Core.
From Verif.Base Require Import Outcome Num.
From Verif.Model Require Import MathUtils Geometry Grid PlainMap LazyMap Cells Sensor Histogram AreaEstimator World Config WholeSlam.
From Verif.Spec Require Import GeometrySpec MapSpec ScanSpec.
Import ListNotations.
Local Open Scope Z_scope.

(** a component answers, and its answer *)
Definition answers {A} (o : outcome A) : Prop := exists a, o = Ok a.
Definition answer {A} (d : A) (o : outcome A) : A := match o with Ok a => a | _ => d end.

(** ** the area of a map *)
Definition bounded_kind (k : map_kind) : bool := match k with PlainKind | LazyKind => true | _ => false end.
(** where a map of a kind and size can be written: a bounded map in its rectangle, an unbounded one up to the cell [B] *)
Definition area (k : map_kind) (w h B : Z) (c : coord) : Prop := if bounded_kind k then binside w h c else within B c.
(** where it can be read: an unbounded map everywhere *)
Definition readable (k : map_kind) (w h : Z) (c : coord) : Prop := bounded_kind k = true -> binside w h c.
(** sizes (and, for unbounded maps, distances [B]) for which the cell numbers fit in the integers of the code *)
Definition size_ok (k : map_kind) (w h B : Z) : Prop :=
  1 <= w /\ 1 <= h /\ 0 <= B /\
  match k with
  | PlainKind => w < 2 ^ 31 /\ h < 2 ^ 31
  | UnboundedPlainKind => 4 * B + 2 * Z.max w h < 2 ^ 31
  | LazyKind => 2 * Z.max w h < 2 ^ 22 - 256
  | UnboundedLazyKind => B + Z.max w h < 2 ^ 22 - 256
  end.

(** all scans of a history *)
Definition all_scans {D S} (h : list (wevent D S)) : list (tr_scan D S) := flat_map (fun e => match e with EScan s => [s] | _ => [] end) h.

Section WholeMap.
  Variables (shift nan : F64) (dcos dsin dacos : F64 -> F64) (mpi : F64) (datan2 : F64 -> F64 -> F64) (k : adder_config F64).
  (** the scan margin: a number of points *)
  Variable margin : nat.

  (** *** what the components answer *)
  Definition estimated (b : segment F64) (r : rect F64) (is_occ : bool) : occup F64 :=
    answer (mkOcc nan nan) (estimate_with shift nan (ac_est k) b r is_occ).
  Definition rated (pts : list (scan_point F64)) (i : Z) : outcome F64 :=
    (h <- omqe_reset dcos dsin dacos mpi (ac_omqe k) pts ;; omqe_quality mpi h pts i)%out.
  Definition cos_of (s : whole_scan F64) (base a : F64) : F64 := answer nan (tp_cos (snd s base) a).
  Definition sin_of (s : whole_scan F64) (base a : F64) : F64 := answer nan (tp_sin (snd s base) a).
  Definition beam_of (p : pose F64) (s : whole_scan F64) (pt : scan_point F64) : segment F64 := sp_beam datan2 (cos_of s) (sin_of s) p pt.

  (** *** a scan seen from a pose, with a quality *)
  Record entry := mkEntry { en_pose : pose F64; en_scan : whole_scan F64; en_quality : F64 }.
  (** what a cell gets from it (C20, C21) *)
  Definition entry_obs (e : entry) (c : coord) : list (aoo F64) :=
    scan_obs (ac_scale k) estimated (fun pts i => answer nan (rated pts i)) (ac_range k) (ac_blur k) datan2
      (cos_of (en_scan e)) (sin_of (en_scan e)) (en_pose e) (en_quality e) margin (fst (en_scan e)) c.
  (** a cell after some scans *)
  Definition cell_of (proto : acell F64) (es : list entry) (c : coord) : acell F64 :=
    fold_left acell_upd (flat_map (fun e => entry_obs e c) es) proto.

  (** *** when a scan can be inserted: the trigonometry and the estimators answer for all points that are not trimmed, and all
      beams that are not too long start and end in the area of the map *)
  Definition insertable (in_area : coord -> Prop) (p : pose F64) (s : whole_scan F64) : Prop :=
    fst s = [] \/
    (Z.of_nat (length (fst s)) < 2 ^ 52 /\ (margin < length (fst s))%nat /\ answers (omqe_reset dcos dsin dacos mpi (ac_omqe k) (fst s)) /\
     forall i pt, In (i, pt) (numbered margin (fst s)) ->
       answers (rated (fst s) (Z.of_nat i)) /\
       answers (tp_cos (snd s (pth p)) (sp_angle datan2 pt)) /\ answers (tp_sin (snd s (pth p)) (sp_angle datan2 pt)) /\
       let b := beam_of p s pt in
       too_long (ac_range k) b = false ->
       fin_point (sbeg b) /\ fin_point (send b) /\
       exists c0 c1, world_to_cell (ac_scale k) (sbeg b) = Ok c0 /\ in_area c0 /\ world_to_cell (ac_scale k) (send b) = Ok c1 /\ in_area c1 /\
         forall c, In c (ray_cells (ac_scale k) b) ->
           answers (estimate_with shift nan (ac_est k) b (cell_rect (ac_scale k) c) (if coord_eq_dec c c1 then sp_occ pt else false))).

  (** *** the scans of a run as they are mapped: odometry, then correction; a corrected pose gives the one quality, an
      uncorrected pose (all components below 1e-7) the other *)
  Variables (q_localized q_raw : F64).
  Fixpoint mapped (p : pose F64) (scans : list (tr_scan F64 (whole_scan F64))) (corrections : list (pose F64)) : list entry :=
    match scans, corrections with
    | s :: scans, d :: corrections =>
        let p' := pose_add (pose_add p (ts_delta s)) d in
        mkEntry p' (ts_scan s) (if delta_nonzero d then q_localized else q_raw) :: mapped p' scans corrections
    | _, _ => []
    end.
  (** where such a run ends *)
  Definition last_pose (p : pose F64) (es : list entry) : pose F64 := last (map en_pose es) p.
End WholeMap.

(** a world goes on with a scan: the scan matcher answers, and the scan can be inserted at the corrected pose *)
Definition goes_on {SM} (sm_reset : SM -> SM) (sm_process : SM -> whole_scan F64 -> pose F64 -> amap F64 -> outcome (F64 * pose F64 * SM))
    (insert : pose F64 -> whole_scan F64 -> Prop) (w : ss_world F64 (amap F64) SM) (s : tr_scan F64 (whole_scan F64)) : Prop :=
  let p := pose_add (ss_pose w) (ts_delta s) in
  exists score d sm, sm_process (sm_reset (ss_sm w)) (ts_scan s) p (ss_map w) = Ok (score, d, sm) /\ insert (pose_add p d) (ts_scan s).

(** ** two maps in the same run *)
(** a scan matcher that uses the map only to read its cells *)
Definition reading {SM} (look : SM -> whole_scan F64 -> pose F64 -> (coord -> outcome (acell F64)) -> outcome (F64 * pose F64 * SM))
    (sm : SM) (s : whole_scan F64) (p : pose F64) (m : amap F64) : outcome (F64 * pose F64 * SM) := look sm s p (amap_get m).
(** maps that read the same; what observers are told, with such maps *)
Definition same_cells (a b : amap F64) : Prop := forall c, amap_get a c = amap_get b c.
Inductive same_note : wnote F64 (amap F64) -> wnote F64 (amap F64) -> Prop :=
| same_pose id p : same_note (NPose id p) (NPose id p)
| same_map id a b : same_cells a b -> same_note (NMap id a) (NMap id b).
