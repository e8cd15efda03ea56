(** What adding a scan to a map should observe, cell by cell. *)
From Coq Require Import ZArith List Bool.
From Verif.Base Require Import Outcome Num.
From Verif.Model Require Import MathUtils Geometry Grid Cells Sensor.
From Verif.Spec Require Import GeometrySpec MapSpec.
Import ListNotations.
Local Open Scope Z_scope.

Section ScanSpec.
  Context {D : Type} {ops : DOps D}.
  Variable scale : D.
  Variable est : segment D -> rect D -> bool -> occup D.
  Variables (max_range blur : D).

  (** |v|^2 of a beam, squared distance of two cells (in cells) *)
  Definition beam_sq (b : segment D) : D :=
    dadd (dmul (dsub (fst (send b)) (fst (sbeg b))) (dsub (fst (send b)) (fst (sbeg b))))
         (dmul (dsub (snd (send b)) (snd (sbeg b))) (dsub (snd (send b)) (snd (sbeg b)))).
  Definition cells_sq (a b : Z * Z) : D :=
    dadd (dmul (dofZ (fst a - fst b)) (dofZ (fst a - fst b))) (dmul (dofZ (snd a - snd b)) (dofZ (snd a - snd b))).
  (** a beam longer than the maximal usable range is ignored *)
  Definition too_long (b : segment D) : bool := dlt (dmul max_range max_range) (beam_sq b).
  (** blurring radius of a wall, in cells; a negative setting scales with the squared beam length *)
  Definition blur_radius (b : segment D) (is_occ : bool) : D :=
    if is_occ then
      if dlt (ddiv blur scale) (dofZ 0) then dmul (ddiv blur scale) (dopp (beam_sq b)) else ddiv blur scale
    else dofZ 0.
  (** the square of a cell *)
  Definition cell_rect (c : Z * Z) : rect D :=
    mkRect (dmul scale (dofZ (snd c))) (dmul scale (dofZ (snd c + 1)))
           (dmul scale (dofZ (fst c))) (dmul scale (dofZ (fst c + 1))).

  (** observation of the cell the beam ends in *)
  Definition hit_obs (b : segment D) (is_occ : bool) (q : D) (e : Z * Z) : aoo D :=
    mkAoo is_occ (est b (cell_rect e) is_occ) (send b) q.
  (** observation of another cell of the ray: free, or (inside of the blurring radius, if that is smaller than the
      ray) the wall's probability decreased with the distance to the wall *)
  Definition pass_obs (b : segment D) (is_occ : bool) (q : D) (s e c : Z * Z) : aoo D :=
    let free := est b (cell_rect c) false in
    let r2 := dmul (blur_radius b is_occ) (blur_radius b is_occ) in
    if dlt (cells_sq c e) r2 && dlt r2 (cells_sq s e) then
      mkAoo true (mkOcc (dmul (prob_occ (est b (cell_rect e) is_occ)) (dsub (dofZ 1) (ddiv (cells_sq c e) r2)))
                        (est_quality free)) (send b) q
    else mkAoo false free (send b) q.

  (** the observations the cell [c] gets from one beam that starts in cell [s], ends in [e] and crosses [ray] *)
  Definition seen_by (b : segment D) (is_occ : bool) (q : D) (s e : Z * Z) (ray : list (Z * Z)) (c : Z * Z) : list (aoo D) :=
    if too_long b then []
    else if coord_eq_dec c e then [hit_obs b is_occ q e]
    else if in_dec coord_eq_dec c ray then [pass_obs b is_occ q s e c]
    else [].
End ScanSpec.

(** ** a whole scan *)
Section WholeScan.
  Context {D : Type} {ops : DOps D}.
  (** occupancy estimators, quality estimators and trigonometry that never fail *)
  Definition est_o (est : segment D -> rect D -> bool -> occup D) b r o : outcome (occup D) := Ok (est b r o).
  Definition qual_o (qual : list (scan_point D) -> Z -> D) p i : outcome D := Ok (qual p i).
  Definition trig_o (tcos tsin : D -> D -> D) (base : D) : trig D := mkTrig (fun a => Ok (tcos base a)) (fun a => Ok (tsin base a)).
  (** the cells a beam crosses (C03), the cell a point lies in (C02) *)
  Definition ray_cells (scale : D) (b : segment D) : list coord := match world_to_cells scale b with Ok l => l | _ => [] end.
  Definition end_cell (scale : D) (p : point D) : coord := match world_to_cell scale p with Ok c => c | _ => (0, 0) end.
  (** the beam of a scan point seen from the pose [p] *)
  Definition sp_beam (datan2 tcos tsin : D -> D -> D) (p : pose D) (s : scan_point D) : segment D :=
    mkSegment (px p, py p)
      (dadd (px p) (dmul (sp_range s) (tcos (pth p) (sp_angle datan2 s))),
       dadd (py p) (dmul (sp_range s) (tsin (pth p) (sp_angle datan2 s)))).
  (** the points of a scan without [k] at both ends, with their numbers *)
  Definition numbered (k : nat) (pts : list (scan_point D)) : list (nat * scan_point D) :=
    combine (seq k (length pts - 2 * k)) (firstn (length pts - 2 * k) (skipn k pts)).
  (** the observations a cell gets from a scan *)
  Definition scan_obs (scale : D) (est : segment D -> rect D -> bool -> occup D) (qual : list (scan_point D) -> Z -> D)
      (max_range blur : D) (datan2 tcos tsin : D -> D -> D) (p : pose D) (sq : D) (k : nat) (pts : list (scan_point D)) (c : coord)
      : list (aoo D) :=
    flat_map (fun ip => let b := sp_beam datan2 tcos tsin p (snd ip) in
                seen_by scale est max_range blur b (sp_occ (snd ip)) (dmul sq (qual pts (Z.of_nat (fst ip))))
                  (end_cell scale (sbeg b)) (end_cell scale (send b)) (ray_cells scale b) c) (numbered k pts).
End WholeScan.

(** an in-range beam starts and ends in cells of the map's range *)
Definition beam_in (scale max_range : F64) (B : Z) (b : segment F64) : Prop :=
  too_long max_range b = false ->
  fin_point (sbeg b) /\ fin_point (send b) /\
  exists s e, world_to_cell scale (sbeg b) = Ok s /\ within B s /\ world_to_cell scale (send b) = Ok e /\ within B e.
