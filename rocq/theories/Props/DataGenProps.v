(** C77-C80: text rasters, map primitives and generated laser scans (the tools the library's own evaluations are built on). *)
From Coq Require Import Ascii String ZArith List Bool Lia Reals Lra.
From Verif.Base Require Import Outcome Num.
From Verif.Model Require Import MathUtils Geometry Sensor Grid PlainMap Cells Spe AreaEstimator Properties DataGen.
From Verif.Spec Require Import GeometrySpec MapSpec DataGenSpec LaserScanGenSpec.
From Verif.Proofs Require Import GridNumProofs PlainMapProofs DataGenProofs CecumProofs LaserScanGenProofs.
From Verif.Props Require Import SpeProps.
Import ListNotations.
Local Open Scope Z_scope.

(** C77.  The text's top left character is drawn at the offset; without an offset the drawing is centred.  Each drawn cell has
    received exactly one observation (occupied iff its character is not a blank), all others none.  Cells and their update are
    arbitrary, so is the arithmetic. *)
Theorem C77_text_raster_is_drawn_as_it_looks :
  forall (D : Type) (ops : DOps D) (C : Type) (cell_upd : C -> aoo D -> C) (proto : C) (w h M : Z) (text : str)
    (dst : option coord) (wz hz : Z) (off : coord),
  1 <= w -> 1 <= h -> 0 <= M -> 4 * M + 2 * Z.max w h < 2 ^ 31 -> 0 < wz -> 0 < hz ->
  let lines := raster_lines text in
  off = match dst with Some o => o | None => (- (wz * raster_w lines / 2), hz * raster_h lines / 2) end ->
  Z.abs (fst off) + wz * raster_w lines <= M -> Z.abs (snd off) + hz * raster_h lines <= M ->
  exists m, apply_text_raster (fun m c o => unb_update (ops := FOps) cell_upd m c o) (pmap_new proto w h) text dst wz hz = Ok m /\
    forall c, unb_get m c = Ok (match pixel lines wz hz (fst c - fst off, snd c - snd off) with
      | Some ch => cell_upd proto (mkAoo true (mkOcc (dofZ (if Ascii.eqb ch " " then 0 else 1)) (dofZ 1)) (dofZ 0, dofZ 0) (dofZ 1))
      | None => proto end).
Proof. intros D ops C. exact text_raster_drawn. Qed.
Print Assumptions C77_text_raster_is_drawn_as_it_looks.

Theorem C77_zoom_must_be_positive :
  forall (D : Type) (ops : DOps D) (M : Type) (update : M -> coord -> aoo D -> outcome M) (m : M) (text : str) (dst : option coord) (wz hz : Z),
  wz <= 0 \/ hz <= 0 -> apply_text_raster update m text dst wz hz = Abort.
Proof.
  intros D ops M update m text dst wz hz H. unfold apply_text_raster.
  replace ((0 <? wz) && (0 <? hz)) with false; [reflexivity|]. symmetry. apply andb_false_iff. rewrite !Z.ltb_ge. lia.
Qed.
Print Assumptions C77_zoom_must_be_positive.

(** a ragged raster, doubled horizontally, tripled vertically; the text after the empty line is not drawn *)
Definition C77_text : str := lit "+ +" ++ [nl] ++ lit "x" ++ [nl; nl] ++ lit "zzz".
Example C77_case_hyps : raster_lines C77_text = [lit "+ +"; lit "x"] /\ raster_w (raster_lines C77_text) = 3 /\ raster_h (raster_lines C77_text) = 2.
Proof. repeat split. Qed.
Example C77_case :
  let lines := raster_lines C77_text in
  pixel lines 2 3 (0, 0) = Some "+"%char /\ pixel lines 2 3 (3, -2) = Some " "%char /\ pixel lines 2 3 (5, 0) = Some "+"%char /\
  pixel lines 2 3 (1, -3) = Some "x"%char /\ pixel lines 2 3 (2, -3) = None /\ pixel lines 2 3 (0, -6) = None /\
  pixel lines 2 3 (-1, 0) = None /\ pixel lines 2 3 (0, 1) = None.
Proof. repeat split. Qed.
Example C77_run :
  match apply_text_raster (D := F64) (fun m c o => unb_update (ops := FOps) (fun n (a : aoo F64) => n + 1) m c o) (pmap_new 0 1 1) C77_text None 2 3 with
  | Ok m => map (unb_get m) [(-3, 3); (2, 1); (-2, -2); (-1, -2); (3, 3); (-3, 4)] = [Ok 1; Ok 1; Ok 1; Ok 0; Ok 0; Ok 0]
  | _ => False
  end.
Proof. vm_compute. reflexivity. Qed.

(** C78.  The text of a cecum has h lines of w characters: walls occupied, the rest blank. *)
Theorem C78_cecum_text_shows_its_walls :
  forall (w h : Z) (closed : side), 1 <= w -> 1 <= h ->
  exists text, cecum_raster w h (side_bound closed) = Ok text /\
    raster_h (raster_lines text) = h /\ (forall line, In line (raster_lines text) -> Z.of_nat (length line) = w) /\
    forall col row, pixel (raster_lines text) 1 1 (col, - row) =
      if (0 <=? col) && (col <? w) && (0 <=? row) && (row <? h)
      then Some (if wall w h closed col row then "+"%char else " "%char) else None.
Proof.
  intros w h s Hw Hh. destruct (cecum_raster_spec w h s Hw Hh) as (text & E & L). exists text. split; [exact E|]. rewrite L.
  split; [unfold raster_h; rewrite map_length, seq_length; lia|].
  split. { intros line HI. apply in_map_iff in HI. destruct HI as (i & <- & _). unfold wall_row. rewrite map_length, seq_length. lia. }
  intros col row. unfold pixel. cbn [fst snd].
  destruct (Z.leb_spec 0 col); [|reflexivity]. cbn [andb].
  destruct (Z.leb_spec (- row) 0), (Z.leb_spec 0 row); try lia; [|rewrite andb_false_r; reflexivity]. rewrite Z.opp_involutive, !Z.div_1_r.
  assert (EN : forall f n i, nth_error (map f (seq 0 n)) i = if (i <? n)%nat then Some (f i : str) else None).
  { intros f n i. destruct (Nat.ltb_spec i n).
    - rewrite (map_nth_error f i (seq 0 n) (d := i)); [reflexivity|]. rewrite nth_error_nth' with (d := 0%nat) by (rewrite seq_length; lia). rewrite seq_nth by lia. reflexivity.
    - apply nth_error_None. rewrite map_length, seq_length. lia. }
  assert (EN' : forall f n i, nth_error (map f (seq 0 n)) i = if (i <? n)%nat then Some (f i : ascii) else None).
  { intros f n i. destruct (Nat.ltb_spec i n).
    - rewrite (map_nth_error f i (seq 0 n) (d := i)); [reflexivity|]. rewrite nth_error_nth' with (d := 0%nat) by (rewrite seq_length; lia). rewrite seq_nth by lia. reflexivity.
    - apply nth_error_None. rewrite map_length, seq_length. lia. }
  rewrite EN. destruct (Nat.ltb_spec (Z.to_nat row) (Z.to_nat h)), (Z.ltb_spec row h); try lia; [|rewrite !andb_false_r; reflexivity].
  unfold wall_row. rewrite EN'. rewrite !andb_true_r. destruct (Nat.ltb_spec (Z.to_nat col) (Z.to_nat w)), (Z.ltb_spec col w); try lia; [|reflexivity].
  rewrite !Z2Nat.id by lia. reflexivity.
Qed.
Print Assumptions C78_cecum_text_shows_its_walls.

(** The reported free rectangle (cell (col, row) of the text is the unit square with lower left corner (col, -row)) consists of
    exactly the blank cells; of a cecum with a side of at most 2 it is empty. *)
Theorem C78_free_space_is_exactly_the_blank_cells :
  forall (w h : Z) (closed : side), 1 <= w -> 1 <= h ->
  exists r : rect R, cecum_free_space w h (side_bound closed) = Ok [r] /\
    (2 < w -> 2 < h -> forall col row,
      (left r <= IZR col /\ IZR (col + 1) <= right r /\ bot r <= IZR (- row) /\ IZR (- row + 1) <= top r)%R <->
      0 <= col < w /\ 0 <= row < h /\ wall w h closed col row = false) /\
    (w <= 2 \/ h <= 2 -> bot r = top r /\ left r = right r).
Proof. exact cecum_free_space_spec. Qed.
Print Assumptions C78_free_space_is_exactly_the_blank_cells.
Theorem C78_sides_must_be_positive :
  forall (w h : Z) (b : bound_position), w <= 0 \/ h <= 0 -> cecum_raster w h b = Abort.
Proof.
  intros w h b H. unfold cecum_raster. replace ((0 <? w) && (0 <? h)) with false; [reflexivity|]. symmetry. apply andb_false_iff. rewrite !Z.ltb_ge. lia.
Qed.
Print Assumptions C78_sides_must_be_positive.
Example C78_case :
  cecum_raster 4 3 BRight = Ok (lit "++++" ++ [nl] ++ lit "   +" ++ [nl] ++ lit "++++" ++ [nl]) /\
  cecum_raster 3 3 BBot = Ok (lit "+ +" ++ [nl] ++ lit "+ +" ++ [nl] ++ lit "+++" ++ [nl]).
Proof. split; reflexivity. Qed.

(** C79.  A generated scan has one beam for each angle of the sector, in order.  A beam walks the cells between the robot and the
    end of the beam and gives a point for the first cell that is occupied (not below the threshold) and pierced by the beam's
    line; the point has the beam's angle and, seen from the robot's pose, lies in that cell.  A beam with no such cell gives no
    point.  Any arithmetic, any trigonometry, any map. *)
Theorem C79_generated_points_are_the_first_obstacles :
  forall (D : Type) (ops : DOps D) (dcos dsin : D -> D) (datan2 : D -> D -> D) (mpi scale : D) (occ : coord -> outcome D)
    (lsp : ls_params D) (pose : pose D) (thr : D) (fuel : nat) (pts : list (scan_point D)),
  laser_scan_2D dcos dsin datan2 mpi scale occ lsp pose thr fuel = Ok pts ->
  exists outs : list (option (scan_point D)), pts = somes outs /\
    in_sector mpi (ls_hsector lsp) (step_from (dopp (ls_hsector lsp)) (ls_inc lsp) (length outs)) = false /\
    forall k out, nth_error outs k = Some out ->
      let a := step_from (dopp (ls_hsector lsp)) (ls_inc lsp) k in
      let dir := (dmul (ls_max_dist lsp) (dcos (dadd a (pth pose))), dmul (ls_max_dist lsp) (dsin (dadd a (pth pose)))) in
      in_sector mpi (ls_hsector lsp) a = true /\
      exists walk, world_to_cells scale (mkSegment (pose_point pose) (dadd (px pose) (fst dir), dadd (py pose) (snd dir))) = Ok walk /\
      match out with
      | None => forall c, In c walk -> passed_over scale occ pose thr dir c
      | Some p => exists range before id after o b i j,
          p = mkSP true range a (dofZ 1) true /\
          walk = before ++ id :: after /\ (forall c, In c before -> passed_over scale occ pose thr dir c) /\
          occ id = Ok o /\ dlt o thr = false /\
          world_cell_bounds scale id = Ok b /\ ray_intersections b (mkRay (pose_point pose) dir) = Ok [i; j] /\
          world_to_cell scale (sp_move_origin_angle dcos dsin datan2 (pose_point pose) (pth pose) p) = Ok id
      end.
Proof.
  intros D ops dcos dsin datan2 mpi scale occ lsp pose thr fuel pts E. unfold laser_scan_2D in E.
  apply bind_Ok in E as (c & _ & E). apply bind_Ok in E as (u & _ & E). apply beams_spec in E as (outs & HO & HL & EP).
  exists outs. split; [exact EP|]. split; [exact HL|]. intros k out Hk. cbv zeta. destruct (HO k out Hk) as [HB HS]. split; [exact HS|].
  unfold beam in HB. apply bind_Ok in HB as (walk & EW & HB). exists walk. split; [exact EW|]. apply beam_point_spec in HB. exact HB.
Qed.
Print Assumptions C79_generated_points_are_the_first_obstacles.

(** exact arithmetic: the beams are at -h, -h + inc, ..., as far as h and less than a turn *)
Theorem C79_the_beams_cover_the_sector :
  forall (dcos dsin : R -> R) (datan2 : R -> R -> R) (scale : R) (occ : coord -> outcome R) (lsp : ls_params R) (pose : pose R) (thr : R),
  let h := ls_hsector lsp in let inc := ls_inc lsp in
  let at_angle a := beam dcos dsin datan2 scale occ lsp pose thr a in
  (0 < inc)%R -> (0 <= h)%R ->
  (exists c, world_to_cell scale (pose_point pose) = Ok c /\
     are_equal (px pose) (IZR (cx c) * scale)%R = false /\ are_equal (py pose) (IZR (cy c) * scale)%R = false) ->
  (forall k, (- h + INR k * inc <= h)%R -> (INR k * inc < 2 * PI)%R -> exists r, at_angle (- h + INR k * inc)%R = Ok r) ->
  exists n fuel0 outs, length outs = n /\
    (forall k, (k < n)%nat <-> (- h + INR k * inc <= h /\ INR k * inc < 2 * PI)%R) /\
    (forall k r, nth_error outs k = Some r -> at_angle (- h + INR k * inc)%R = Ok r) /\
    forall fuel, (fuel0 <= fuel)%nat -> laser_scan_2D dcos dsin datan2 PI scale occ lsp pose thr fuel = Ok (somes outs).
Proof.
  intros dcos dsin datan2 scale occ lsp pose thr h inc at_angle Hi Hh (c & Ec & Ex & Ey) HB.
  set (ok k := (- h + INR k * inc <= h /\ INR k * inc < 2 * PI)%R).
  assert (DEC : forall k, ok k \/ ~ ok k) by (intros k; unfold ok; destruct (Rle_dec (- h + INR k * inc) h), (Rlt_dec (INR k * inc) (2 * PI)); tauto).
  assert (DOWN : forall k j, (j <= k)%nat -> ok k -> ok j).
  { intros k j Hj [A B]. apply le_INR in Hj. unfold ok. nra. }
  assert (FIN : exists m, ~ ok m).
  { assert (UN : exists m, (2 * h / inc < INR m)%R).
    { exists (Z.to_nat (up (2 * h / inc))). assert (0 <= 2 * h / inc)%R by (apply Rmult_le_pos; [lra|]; left; apply Rinv_0_lt_compat; lra).
      destruct (archimed (2 * h / inc)) as [A _]. rewrite INR_IZR_INZ, Z2Nat.id; [lra|]. apply le_IZR. lra. }
    destruct UN as [m Hm]. exists m. unfold ok. intros [A _].
    assert (2 * h < INR m * inc)%R; [|lra]. replace (2 * h)%R with (2 * h / inc * inc)%R by (field; lra). apply Rmult_lt_compat_r; assumption. }
  destruct FIN as [m Hm].
  assert (EXN : exists n, forall k, (k < n)%nat <-> ok k).
  { clear - DEC DOWN Hm. induction m as [|m IH].
    - exists 0%nat. intros k. split; [lia|]. intros H. exfalso. apply Hm. apply (DOWN k); [lia|exact H].
    - destruct (DEC m) as [H|H]; [|apply IH; exact H]. exists (S m). intros k. split.
      + intros Hk. apply (DOWN m); [lia|exact H].
      + intros Hk. destruct (Nat.lt_ge_cases k (S m)); [assumption|]. exfalso. apply Hm. apply (DOWN k); assumption. }
  destruct EXN as [n Hn].
  assert (EXO : exists outs, length outs = n /\ forall k r, nth_error outs k = Some r -> at_angle (- h + INR k * inc)%R = Ok r).
  { assert (G : forall j, (j <= n)%nat -> exists outs, length outs = j /\ forall k r, nth_error outs k = Some r -> at_angle (- h + INR k * inc)%R = Ok r).
    { induction j as [|j IH]; intros Hj; [exists []; split; [reflexivity|]; intros [|k] r H; discriminate|].
      destruct IH as (outs & HL & HO); [lia|]. destruct (proj1 (Hn j) ltac:(lia)) as [A B]. destruct (HB j A B) as [r Hr].
      exists (outs ++ [r]). split; [rewrite app_length; cbn; lia|]. intros k r' Hk. destruct (Nat.lt_ge_cases k j).
      - rewrite nth_error_app1 in Hk by lia. apply HO. exact Hk.
      - rewrite nth_error_app2 in Hk by lia. destruct (k - length outs)%nat as [|d] eqn:Ed; [|destruct d; discriminate]. cbn in Hk. injection Hk as <-.
        replace k with j by lia. exact Hr. }
    apply G. lia. }
  destruct EXO as (outs & HL & HO). exists n, n, outs. split; [exact HL|]. split; [exact Hn|]. split; [exact HO|]. intros fuel Hf.
  unfold laser_scan_2D. rewrite Ec. cbn [bind].
  assert (Ex' : are_equal (px pose) (dmul (dofZ (cx c)) scale) = false) by exact Ex. assert (Ey' : are_equal (py pose) (dmul (dofZ (cy c)) scale) = false) by exact Ey.
  rewrite Ex', Ey'. cbn [negb andb assert_ bind].
  apply beams_complete; [lia| |].
  - intros k r Hk. rewrite step_from_R. change (dopp (ls_hsector lsp)) with (- h)%R. fold inc. split; [apply HO; exact Hk|].
    assert (Hk' : (k < n)%nat) by (rewrite <- HL; apply nth_error_Some; congruence). apply Hn in Hk' as [A B]. apply in_sector_R. fold h. lra.
  - rewrite step_from_R, HL. change (dopp (ls_hsector lsp)) with (- h)%R. fold inc h. destruct (in_sector PI h (- h + INR n * inc)%R) eqn:Es; [|reflexivity].
    apply in_sector_R in Es. exfalso. assert (ok n) by (unfold ok; lra). apply Hn in H. lia.
Qed.
Print Assumptions C79_the_beams_cover_the_sector.

(** with an increment that is not positive the generator never returns *)
Theorem C79_no_scan_without_a_positive_increment :
  forall (dcos dsin : R -> R) (datan2 : R -> R -> R) (scale : R) (occ : coord -> outcome R) (lsp : ls_params R) (pose : pose R) (thr : R),
  (ls_inc lsp <= 0)%R -> (0 <= ls_hsector lsp)%R ->
  forall fuel pts, laser_scan_2D dcos dsin datan2 PI scale occ lsp pose thr fuel <> Ok pts.
Proof.
  intros dcos dsin datan2 scale occ lsp pose thr Hi Hh fuel pts E.
  destruct (C79_generated_points_are_the_first_obstacles _ _ _ _ _ _ _ _ _ _ _ _ _ E) as (outs & _ & HF & _).
  assert (HT : in_sector PI (ls_hsector lsp) (step_from (dopp (ls_hsector lsp)) (ls_inc lsp) (length outs)) = true); [|congruence].
  apply in_sector_R. rewrite step_from_R. cbn [dopp ROps]. assert (0 <= INR (length outs))%R by apply pos_INR. assert (0 < PI)%R by apply PI_RGT_0. nra.
Qed.
Print Assumptions C79_no_scan_without_a_positive_increment.

(** scored by the obstacle estimator at the pose it was generated from, a generated scan (or any selection of its points) is as
    good as the impacts of occupied cells: with a threshold of 1 and the discrepancy-free impact of such a cell being 1 it is 1 *)
Theorem C79_generated_scan_fits_its_own_pose :
  forall (dcos dsin : R -> R) (datan2 : R -> R -> R) (C : Type) (m : omap R C) (impact : C -> outcome R) (occupancy : C -> R)
    (lsp : ls_params R) (pose : pose R) (thr lo hi : R) (fuel : nat) (pts sel : list (scan_point R)) (weight : Z -> outcome R) (area : rect R) (v : R),
  laser_scan_2D dcos dsin datan2 PI (om_scale m) (fun c => bind (om_cell m c) (fun cell => Ok (occupancy cell))) lsp pose thr fuel = Ok pts ->
  (forall cell x, (thr <= occupancy cell)%R -> impact cell = Ok x -> (lo <= x <= hi)%R) ->
  incl sel pts -> (forall k w, weight k = Ok w -> (0 <= w)%R) ->
  estimate_scan dcos dsin datan2 (fun obstacle _ => obstacle_pe impact m obstacle) weight (pose_point pose) (raw_trig dcos dsin (pth pose)) false area sel = Ok (Some v) ->
  (lo <= v <= hi)%R.
Proof.
  intros dcos dsin datan2 C m impact occupancy lsp pose thr lo hi fuel pts sel weight area v E HI HS HW ES.
  destruct (C79_generated_points_are_the_first_obstacles _ _ _ _ _ _ _ _ _ _ _ _ _ E) as (outs & -> & _ & HO). clear E.
  assert (PT : forall s, In s sel -> exists range a id o, s = mkSP true range a 1%R true /\ bind (om_cell m id) (fun cell => Ok (occupancy cell)) = Ok o /\ (thr <= o)%R /\
    world_to_cell (om_scale m) (sp_move_origin_angle dcos dsin datan2 (pose_point pose) (pth pose) s) = Ok id).
  { intros s Hs. apply HS in Hs. apply somes_In in Hs as [k Hk]. destruct (HO k _ Hk) as (_ & walk & _ & range & before & id & after & o & b & i & j & E1 & _ & _ & E2 & E3 & _ & _ & E4).
    eexists range, _, id, o. split; [exact E1|]. split; [exact E2|]. split; [apply R_lt_false in E3; exact E3|exact E4]. }
  refine (C29_mean_is_between_the_bounds_of_its_points dcos dsin datan2 _ weight _ _ _ _ _ v lo hi _ _ HW ES).
  - intros s Hs. destruct (PT s Hs) as (range & a & id & o & -> & _). reflexivity.
  - intros s p Hs Ep. destruct (PT s Hs) as (range & a & id & o & -> & E2 & E3 & E4). unfold point_prob in Ep.
    apply bind_Ok in Ep as (ob & Eo & Ep). apply bind_Ok in Ep as (ar & _ & Ep).
    unfold sp_move_origin_tp, raw_trig, sp_angle, sp_range in Eo. cbn [tp_cos tp_sin sp_polar sp_u sp_v bind] in Eo. injection Eo as <-.
    unfold sp_move_origin_angle, sp_make_polar, sp_x, sp_y, sp_angle, sp_range in E4. cbn [sp_polar sp_u sp_v sp_occ] in E4.
    unfold obstacle_pe in Ep. apply bind_Ok in Ep as (id' & Ei & Ep).
    assert (id' = id).
    { match type of Ei with _ ?q = _ => match type of E4 with _ ?q' = _ => assert (EQ : q = q') end end.
      { cbn [dadd dmul ROps]. rewrite (Rplus_comm (pth pose) a). f_equal; apply Rplus_comm. }
      rewrite EQ, E4 in Ei. injection Ei as <-. reflexivity. }
    subst id'. unfold cell_impact in Ep. apply bind_Ok in Ep as (cell & Ecl & Ep). apply bind_Ok in Ep as (x & Ex & Ep). apply bind_Ok in Ep as (u & _ & Ep). injection Ep as <-.
    rewrite Ecl in E2. cbn [bind] in E2. injection E2 as <-. apply (HI cell x E3 Ex).
Qed.
Print Assumptions C79_generated_scan_fits_its_own_pose.

(** a robot in the middle of cell (0, 0) looking along x; cell (2, 0) is occupied *)
Section Example79.
  Let one : F64 := dofZ 1.
  Let half : F64 := dlit 1 2.
  Definition C79_scan : outcome (list (scan_point F64)) :=
    laser_scan_2D (ops := FOps) (fun _ => one) (fun _ => dofZ 0) (fun _ _ => dofZ 0) (dlit 22 7) one
      (fun c => Ok (if coord_eqb c (2, 0) then one else dofZ 0))
      (mkLSP (dlit 16 10) one (dofZ 0)) (mkPose half half (dofZ 0)) one 5.
  Example C79_case : match C79_scan with
    | Ok [p] => deq (sp_u p) (dofZ 2) && deq (sp_v p) (dofZ 0) && sp_occ p
    | _ => false end = true.
  Proof. vm_compute. reflexivity. Qed.
End Example79.

(** C80: the scanner's maximum distance.  It limits the beam, not the range: the cell in which the beam ends is measured along
    the prolonged line. *)
Theorem C80_generated_ranges_respect_the_maximum_refuted :
  exists (dcos dsin : F64 -> F64) (occ : coord -> outcome F64) (lsp : ls_params F64) (pose : pose F64) (pts : list (scan_point F64)),
    dcos (dofZ 0) = dofZ 1 /\ dsin (dofZ 0) = dofZ 0 /\ ls_hsector lsp = dofZ 0 /\ pth pose = dofZ 0 /\
    laser_scan_2D dcos dsin (fun _ _ => dofZ 0) (dlit 22 7) (dofZ 1) occ lsp pose (dofZ 1) 5 = Ok pts /\
    exists p, In p pts /\ dlt (ls_max_dist lsp) (sp_u p) = true.
Proof.
  exists (fun _ => dofZ 1), (fun _ => dofZ 0), (fun c => Ok (if coord_eqb c (2, 0) then dofZ 1 else dofZ 0)), (mkLSP (dlit 16 10) (dofZ 1) (dofZ 0)), (mkPose (dlit 1 2) (dlit 1 2) (dofZ 0)).
  assert (E := eq_refl C79_scan). unfold C79_scan at 2 in E.
  assert (B : match C79_scan with Ok [p] => dlt (dlit 16 10) (sp_u p) | _ => false end = true) by (vm_compute; reflexivity).
  destruct C79_scan as [pts| | |]; try discriminate B. exists pts. cbn [ls_hsector pth ls_max_dist]. split; [reflexivity|]. split; [reflexivity|]. split; [reflexivity|]. split; [reflexivity|].
  split; [symmetry; exact E|]. destruct pts as [|p [|q l]]; try discriminate B. exists p. split; [left; reflexivity|exact B].
Qed.
Print Assumptions C80_generated_ranges_respect_the_maximum_refuted.

Lemma cell_reach (s x d p : R) (b e i : Z) : (0 < s)%R ->
  (s * IZR b <= x < s * (IZR b + 1))%R -> (s * IZR e <= x + d < s * (IZR e + 1))%R -> (s * IZR i <= p < s * (IZR i + 1))%R ->
  Z.min b e <= i <= Z.max b e -> (Rabs (p - x) <= Rabs d + s)%R.
Proof.
  intros Hs Hb He Hi HI.
  assert (HB : (Rmin (IZR b) (IZR e) <= IZR i <= Rmax (IZR b) (IZR e))%R).
  { split; [unfold Rmin; destruct (Rle_dec (IZR b) (IZR e)) as [L|L] | unfold Rmax; destruct (Rle_dec (IZR b) (IZR e)) as [L|L]]; apply IZR_le; [apply le_IZR in L| |apply le_IZR in L|]; try lia.
    all: apply Rnot_le_lt, lt_IZR in L; lia. }
  unfold Rmin, Rmax in HB. destruct (Rle_dec (IZR b) (IZR e)); unfold Rabs; destruct (Rcase_abs (p - x)), (Rcase_abs d); nra.
Qed.

(** what does hold: a range is at most the maximum plus a cell's diagonal *)
Theorem C80_ranges_exceed_the_maximum_by_at_most_a_cell_partial :
  forall (datan2 : R -> R -> R) (scale : R) (occ : coord -> outcome R) (lsp : ls_params R) (pose : pose R) (thr : R) (fuel : nat) (pts : list (scan_point R)),
  (0 < scale)%R ->
  laser_scan_2D cos sin datan2 PI scale occ lsp pose thr fuel = Ok pts ->
  forall p, In p pts -> (sp_u p <= Rabs (ls_max_dist lsp) + scale * sqrt 2)%R.
Proof.
  intros datan2 s occ lsp pose thr fuel pts Hs E p Hp.
  destruct (C79_generated_points_are_the_first_obstacles _ _ _ _ _ _ _ _ _ _ _ _ _ E) as (outs & -> & _ & HO). clear E.
  apply somes_In in Hp as [k Hk]. destruct (HO k _ Hk) as (_ & walk & EW & range & before & id & after & o & b & i & j & -> & E1 & _ & _ & _ & _ & _ & E4). clear HO Hk.
  set (a := step_from (dopp (ls_hsector lsp)) (ls_inc lsp) k) in *. cbn [sp_u].
  cbn [dadd dmul ROps fst snd] in EW. set (t := (a + pth pose)%R) in *. set (M := ls_max_dist lsp) in *.
  assert (WW := EW). unfold world_to_cells in WW. cbn [sbeg send] in WW. apply bind_Ok in WW as (cb & Eb & WW). apply bind_Ok in WW as (ce & Ee & _).
  destruct (world_to_cells_path_R s (mkSegment (pose_point pose) (px pose + M * cos t, py pose + M * sin t)%R) cb ce Hs Eb Ee) as (l & EL & _ & _ & _ & HBOX & _). rewrite EW in EL. injection EL as <-.
  assert (HI : In id walk) by (rewrite E1; apply in_or_app; right; left; reflexivity). specialize (HBOX id HI). unfold in_box in HBOX.
  apply world_to_cell_R_iff in Eb, Ee, E4; try assumption. cbn [fst snd sbeg send] in Eb, Ee.
  unfold sp_move_origin_angle, sp_make_polar, sp_x, sp_y, sp_angle, sp_range in E4. cbn [sp_polar sp_u sp_v sp_occ fst snd dadd dmul ROps] in E4. fold t in E4.
  unfold pose_point, ptx, pty in *. cbn [fst snd] in *.
  destruct Eb as (_ & _ & Bx & By). destruct Ee as (_ & _ & Ex & Ey). destruct E4 as (_ & _ & Px & Py).
  assert (QX := cell_reach s _ _ _ _ _ _ Hs Bx Ex Px ltac:(lia)). assert (QY := cell_reach s _ _ _ _ _ _ Hs By Ey Py ltac:(lia)).
  replace (range * cos t + px pose - px pose)%R with (range * cos t)%R in QX by ring. replace (range * sin t + py pose - py pose)%R with (range * sin t)%R in QY by ring.
  assert (CS := sin2_cos2 t). unfold Rsqr in CS. rewrite !Rabs_mult in QX, QY.
  assert (C2 : (Rabs (cos t) * Rabs (cos t) = cos t * cos t)%R) by (rewrite <- Rabs_mult; apply Rabs_pos_eq; nra).
  assert (S2 : (Rabs (sin t) * Rabs (sin t) = sin t * sin t)%R) by (rewrite <- Rabs_mult; apply Rabs_pos_eq; nra).
  assert (N1 := Rabs_pos (cos t)). assert (N2 := Rabs_pos (sin t)). assert (N3 := Rabs_pos M). assert (N4 := Rabs_pos range).
  assert (R2 : (sqrt 2 * sqrt 2 = 2)%R) by (apply sqrt_sqrt; lra). assert (P2 : (0 < sqrt 2)%R) by (apply sqrt_lt_R0; lra).
  set (c := Rabs (cos t)) in *. set (n := Rabs (sin t)) in *. set (m := Rabs M) in *. set (r := Rabs range) in *. set (q := sqrt 2) in *.
  assert (U : (c * c + n * n = 1)%R) by lra.
  assert (SUM : (c + n <= q)%R) by (apply Rsqr_incr_0; [unfold Rsqr; rewrite R2; assert (0 <= (c - n) * (c - n))%R by apply Rle_0_sqr; lra|lra|lra]).
  apply Rle_trans with r; [apply Rle_abs|].
  assert (K1 : ((r * c) * (r * c) <= (m * c + s) * (m * c + s))%R) by (apply Rmult_le_compat; nra).
  assert (K2 : ((r * n) * (r * n) <= (m * n + s) * (m * n + s))%R) by (apply Rmult_le_compat; nra).
  assert (K3 : (r * r <= m * m + 2 * (m * s) * (c + n) + 2 * s * s)%R).
  { replace (r * r)%R with ((r * c) * (r * c) + (r * n) * (r * n))%R by (replace ((r * c) * (r * c) + (r * n) * (r * n))%R with (r * r * (c * c + n * n))%R by ring; rewrite U; ring).
    replace (m * m)%R with (m * m * (c * c + n * n))%R by (rewrite U; ring). lra. }
  assert (K4 : (2 * (m * s) * (c + n) <= 2 * (m * s) * q)%R) by (apply Rmult_le_compat_l; [nra|exact SUM]).
  assert (K5 : (r * r <= (m + s * q) * (m + s * q))%R) by (replace ((m + s * q) * (m + s * q))%R with (m * m + 2 * (m * s) * q + s * s * (q * q))%R by ring; rewrite R2; lra).
  apply Rsqr_incr_0; [exact K5|exact N4|nra].
Qed.
Print Assumptions C80_ranges_exceed_the_maximum_by_at_most_a_cell_partial.
