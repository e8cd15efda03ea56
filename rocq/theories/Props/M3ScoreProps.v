(** C83: the multi-resolution matcher on the multi-resolution map. *)
From Coq Require Import Reals ZArith List Permutation Lia Lra Bool.
From Flocq Require Import Core.
From Verif.Base Require Import Outcome Num OrdLaws EReal.
From Verif.Model Require Import MathUtils Geometry Grid PlainMap Cells Histogram Sensor Spe Pyramid M3Engine M3Score.
From Verif.Spec Require Import PyramidSpec M3Spec M3ScoreSpec.
From Verif.Proofs Require Import CompareProofs PyramidProofs PyramidShape PyramidRun PyramidBound M3Proofs M3ScoreProofs.
From Verif.Props Require Import PyramidProps.
Import ListNotations.
Local Open Scope R_scope.

(** the score does not depend on which level happens to be active *)
Theorem C83_score_is_a_function_of_the_levels :
  forall (D C : Type) (ops : DOps D) dcos dsin datan2 (proto : C) impact weight fuel (p q : pyramid D C) robot pts r, py_levels p = py_levels q ->
  match_prob dcos dsin datan2 proto impact weight fuel p robot pts r = match_prob dcos dsin datan2 proto impact weight fuel q robot pts r.
Proof. intros D C ops dcos dsin datan2 proto impact weight fuel [ls a] [ls' b] robot pts r E. cbn in E. subst ls'. reflexivity. Qed.
Print Assumptions C83_score_is_a_function_of_the_levels.

(** Exact arithmetic; a map of fixed size built by any history of writes that leave the written cell known, any impact in [0, 1],
    unknown cells whose impact does not exceed the coarser cells' one; a window of positive width and height; a scan (one set of
    cartesian points per rotation) that stays within 2^30 cells of the map's centre, with nonnegative weights not all 0.  Then
    the score of every range the search asks for exists and is in [0, 1], and the search with these scores, for any queue, ends
    without a failed assertion: it returns an exact candidate with its own score, and no candidate of any requested rotation
    scores more than the queue's inaccuracy plus 1e-7 per level better. *)
Theorem C83_search_finds_the_best_partial :
  forall (C : Type) (proto : C) (grow : Z -> Z -> coord -> coord -> Z * Z * coord) (impact : C -> ER) (is_unknown : C -> bool) (s : R),
  1 / 1000000000 < s -> (forall x, exists r, impact x = EFin r /\ 0 <= r <= 1) -> is_unknown proto = true ->
  (forall w h o c, grow w h o c = (w, h, o)) ->
  forall w h p0 (hist : list (coord * (C -> C))) mfuel p, (1 <= w)%Z -> (1 <= h)%Z -> pyramid_new proto (EInf false) w h (EFin s) = Ok p0 ->
  (forall c f, In (c, f) hist -> forall x, is_unknown (f x) = false) ->
  m3_run proto grow impact is_unknown mfuel p0 hist = Ok p -> unknown_bounded impact is_unknown p ->
  forall dcos dsin datan2 (weight : list (scan_point ER) -> Z -> outcome ER) cfuel rx ry rth (scan : R -> list (scan_point ER)) max_x max_y max_th ang_step step,
  0 < max_x -> 0 < max_y -> 0 <= max_th -> 0 < ang_step -> 1 / IZR (2 ^ 52) < step -> (4 <= cfuel)%nat ->
  (forall rot q, In q (scan rot) -> exists x y o, q = sp_make_cartesian (EFin x, EFin y) o /\
    Rabs (x + rx) + max_x <= s * IZR (2 ^ 30) /\ Rabs (y + ry) + max_y <= s * IZR (2 ^ 30)) ->
  (forall rot k, (k < length (scan rot))%nat -> exists w, weight (scan rot) (Z.of_nat k) = Ok (EFin w) /\ 0 <= w) ->
  (forall rot, exists k w, (k < length (scan rot))%nat /\ weight (scan rot) (Z.of_nat k) = Ok (EFin w) /\ 0 < w) ->
  let W := mkRect (- max_y) max_y (- max_x) max_x in
  exists score : R -> rect R -> R,
    (forall rot r, scored_range step W r ->
      match_prob dcos dsin datan2 proto impact weight cfuel p (mkPose (EFin rx) (EFin ry) rth) (scan rot) (er r) = Ok (Some (EFin (score rot r))) /\ 0 <= score rot r <= 1) /\
    forall pop delta, queue_ok (scored step W score) delta pop ->
    exists n, forall fuel, (n <= fuel)%nat -> exists m, m3rsm_search score pop fuel max_x max_y max_th ang_step step = Ok m /\
      (exists x y, m_drift m = point_range x y /\ candidate step W x y /\ m_prob m = score (m_rot m) (point_range x y)) /\
      rotation_near max_th ang_step (m_rot m) /\
      forall rot x y, rotation_tried max_th ang_step rot -> candidate step W x y ->
        score rot (point_range x y) <= m_prob m + Rmax 0 delta + INR (length (py_levels p) - 1) * (1 / 10000000).
Proof.
  intros C proto grow impact is_unknown s Hs U PU Fx w h p0 hist mfuel p Hw Hh E0 Kh E UB dcos dsin datan2 weight cfuel rx ry rth scan max_x max_y max_th ang_step step Hx Hy Ht Ha Hst Hf Hp Hw1 Hw2 W.
  assert (U1 : forall x, exists r, impact x = EFin r /\ Rabs r <= 1) by (intros x; destruct (U x) as (r & Er & B); exists r; split; [exact Er|rewrite Rabs_pos_eq; lra]).
  destruct (new_py_ok proto impact is_unknown s PU w h p0 Hw Hh E0) as (K & HK & G0).
  assert (G := m3_run_ok proto grow impact is_unknown s Hs U1 Fx mfuel K hist HK Kh p0 p G0 E). destruct G as (Sh & Co & _).
  assert (KL : (K <= 100)%nat).
  { unfold pyramid_new in E0. apply bind_Ok_inv in E0 as (ls & E1 & E0). injection E0 as <-. apply ensure_len in E1. cbn [length] in E1. destruct G0 as ((Len & _) & _). cbn [py_levels] in Len. lia. }
  assert (KE : (length (py_levels p) - 1)%nat = K) by (destruct Sh as [Len _]; lia). rewrite KE.
  assert (Cov : forall i j li lj f c, (i < j)%nat -> nth_error (py_levels p) i = Some li -> nth_error (py_levels p) j = Some lj ->
    covers (lv_scale li) (lv_scale lj) f c -> impact_le (j - i) (impact (lv_cells li f)) (impact (lv_cells lj c))).
  { intros i j li lj f c Hij Ni Nj Cv. destruct (is_unknown (lv_cells li f)) eqn:Kn.
    - assert (X := UB i j li lj f c Hij Ni Nj Cv Kn). destruct (U (lv_cells li f)) as (a & Ea & _). destruct (U (lv_cells lj c)) as (b & Eb & _). exists a, b. split; [exact Ea|]. split; [exact Eb|].
      rewrite Ea, Eb in X. apply E_le_fin in X. assert (Y := pos_INR (j - i)). nra.
    - exact (proj2 (fixed_bound proto grow impact is_unknown s Hs U1 PU Fx w h p0 hist mfuel p i j li lj f c Hw Hh E0 Kh E Hij Ni Nj Cv Kn)). }
  assert (SP : 0 < s) by lra.
  exists (score_of dcos dsin datan2 proto impact p weight cfuel rx ry rth scan).
  assert (Def := score_defined dcos dsin datan2 proto impact s K p SP HK Sh Co U Cov weight cfuel rx ry rth scan max_x max_y step Hf (conj Hx Hy) Hp Hw1 Hw2).
  assert (Adm := score_admissible dcos dsin datan2 proto impact s K p SP HK KL Sh Co U Cov weight cfuel rx ry rth scan max_x max_y step Hf (conj Hx Hy) Hp Hw1 Hw2).
  split; [exact Def|]. intros pop delta Q. assert (Sg : 0 <= INR K * (1 / 10000000)) by (assert (Y := pos_INR K); lra).
  destruct (m3_total _ pop delta (INR K * (1 / 10000000)) max_x max_y max_th ang_step step ltac:(lra) ltac:(lra) Ht Ha Hst Q Sg Adm) as (n & H).
  { apply Def. right. exists 0, 0. split; [left; auto|reflexivity]. }
  exists n. intros fuel Hn. destruct (H fuel Hn) as (m & Em). exists m. split; [exact Em|].
  destruct (m3_best _ pop delta (INR K * (1 / 10000000)) fuel max_x max_y max_th ang_step step m ltac:(lra) ltac:(lra) Ht Ha ltac:(lra) Q Sg Adm Em) as (A & _ & B & Bd). auto.
Qed.
Print Assumptions C83_search_finds_the_best_partial.

(** Unknown cells do no harm if their impact is the least one. *)
Theorem C83_least_unknown_impact_suffices :
  forall (C : Type) (impact : C -> ER) (is_unknown : C -> bool), (forall x y, is_unknown x = true -> dle (impact x) (impact y) = true) ->
  forall p, unknown_bounded impact is_unknown p.
Proof. intros C impact is_unknown H p i j fine coarse f c _ _ _ _ K. now apply H. Qed.
Print Assumptions C83_least_unknown_impact_suffices.

(** ** from a laser scan *)
Lemma to_cartesian_E datan2 th l : exists pts, scan_to_cartesian datan2 (raw_trig (efun cos) (efun sin) (EFin th)) (polar_scan l) = Ok pts /\ length pts = length l /\
  forall q, In q pts -> exists range angle o, In (range, angle, o) l /\ q = sp_make_cartesian (EFin (range * cos (th + angle)), EFin (range * sin (th + angle))) o.
Proof.
  induction l as [|((range, angle), o) l (pts & E & Len & H)]; [exists []; split; [reflexivity|]; split; [reflexivity|]; intros q []|].
  exists (sp_make_cartesian (EFin (range * cos (th + angle)), EFin (range * sin (th + angle))) o :: pts). split; [|split; [cbn; now rewrite Len|]].
  - unfold scan_to_cartesian, polar_scan in *. cbn [map mapM]. rewrite E. unfold sp_to_cartesian_tp, sp_move_origin_tp, sp_range, sp_angle, sp_make_polar, raw_trig.
    cbn [sp_polar sp_u sp_v sp_occ tp_cos tp_sin bind ptx pty fst snd dadd dmul dofZ EOps E_add E_mul efun]. now rewrite !Rplus_0_l.
  - intros q [<-|I]; [exists range, angle, o; split; [now left|reflexivity]|]. destruct (H q I) as (a & b & d & I' & E'). exists a, b, d. split; [now right|exact E'].
Qed.

(** The same for a nonempty laser scan of the robot, turned by the robot's heading and the tried rotation, with even weights:
    all that is asked of the scan is that it stays within 2^30 cells. *)
Theorem C83_laser_scan_is_matched_best_partial :
  forall (C : Type) (proto : C) (grow : Z -> Z -> coord -> coord -> Z * Z * coord) (impact : C -> ER) (is_unknown : C -> bool) (s : R),
  1 / 1000000000 < s -> (forall x, exists r, impact x = EFin r /\ 0 <= r <= 1) -> is_unknown proto = true ->
  (forall x y, is_unknown x = true -> dle (impact x) (impact y) = true) ->
  (forall w h o c, grow w h o c = (w, h, o)) ->
  forall w h p0 (hist : list (coord * (C -> C))) mfuel p, (1 <= w)%Z -> (1 <= h)%Z -> pyramid_new proto (EInf false) w h (EFin s) = Ok p0 ->
  (forall c f, In (c, f) hist -> forall x, is_unknown (f x) = false) ->
  m3_run proto grow impact is_unknown mfuel p0 hist = Ok p ->
  forall datan2 cfuel rx ry rth (laser : list (R * R * bool)) max_x max_y max_th ang_step step,
  0 < max_x -> 0 < max_y -> 0 <= max_th -> 0 < ang_step -> 1 / IZR (2 ^ 52) < step -> (4 <= cfuel)%nat -> laser <> [] ->
  (forall range angle o, In (range, angle, o) laser -> Rabs range + Rabs rx + max_x <= s * IZR (2 ^ 30) /\ Rabs range + Rabs ry + max_y <= s * IZR (2 ^ 30)) ->
  let W := mkRect (- max_y) max_y (- max_x) max_x in
  exists (scan : R -> list (scan_point ER)) (score : R -> rect R -> R),
    (forall rot, scan_to_cartesian datan2 (raw_trig (efun cos) (efun sin) (EFin (rot + rth))) (polar_scan laser) = Ok (scan rot)) /\
    (forall rot r, scored_range step W r ->
      match_prob (efun cos) (efun sin) datan2 proto impact even_weight cfuel p (mkPose (EFin rx) (EFin ry) (EFin rth)) (scan rot) (er r) = Ok (Some (EFin (score rot r))) /\ 0 <= score rot r <= 1) /\
    forall pop delta, queue_ok (scored step W score) delta pop ->
    exists n, forall fuel, (n <= fuel)%nat -> exists m, m3rsm_search score pop fuel max_x max_y max_th ang_step step = Ok m /\
      (exists x y, m_drift m = point_range x y /\ candidate step W x y /\ m_prob m = score (m_rot m) (point_range x y)) /\
      rotation_near max_th ang_step (m_rot m) /\
      forall rot x y, rotation_tried max_th ang_step rot -> candidate step W x y ->
        score rot (point_range x y) <= m_prob m + Rmax 0 delta + INR (length (py_levels p) - 1) * (1 / 10000000).
Proof.
  intros C proto grow impact is_unknown s Hs U PU Least Fx w h p0 hist mfuel p Hw Hh E0 Kh E datan2 cfuel rx ry rth laser max_x max_y max_th ang_step step Hx Hy Ht Ha Hst Hf Ne Far W.
  set (scan := fun rot => match scan_to_cartesian datan2 (raw_trig (efun cos) (efun sin) (EFin (rot + rth))) (polar_scan laser) with Ok l => l | _ => [] end).
  assert (Sc : forall rot, scan_to_cartesian datan2 (raw_trig (efun cos) (efun sin) (EFin (rot + rth))) (polar_scan laser) = Ok (scan rot) /\ length (scan rot) = length laser /\
    forall q, In q (scan rot) -> exists range angle o, In (range, angle, o) laser /\ q = sp_make_cartesian (EFin (range * cos (rot + rth + angle)), EFin (range * sin (rot + rth + angle))) o).
  { intros rot. unfold scan. destruct (to_cartesian_E datan2 (rot + rth) laser) as (pts & Ep & L & H). rewrite Ep. auto. }
  exists scan.
  assert (LP : 0 < INR (length laser)) by (apply lt_0_INR; destruct laser; [congruence|cbn; lia]).
  assert (Wt : forall rot k, even_weight (scan rot) k = Ok (EFin (1 / INR (length laser)))).
  { intros rot k. unfold even_weight. rewrite (proj1 (proj2 (Sc rot))). cbn [dofZ EOps]. rewrite <- INR_IZR_INZ. now rewrite E_div_fin by lra. }
  assert (WP : 0 < 1 / INR (length laser)) by (apply Rdiv_lt_0_compat; lra).
  assert (Far2 : forall range t o rad, Rabs range + Rabs o <= rad -> -1 <= t <= 1 -> Rabs (range * t + o) <= rad).
  { intros range t o rad H B. assert (T := Rabs_triang (range * t) o). rewrite Rabs_mult in T. assert (Rabs t <= 1) by (apply Rabs_le; lra). assert (P := Rabs_pos range). nra. }
  destruct (C83_search_finds_the_best_partial C proto grow impact is_unknown s Hs U PU Fx w h p0 hist mfuel p Hw Hh E0 Kh E (C83_least_unknown_impact_suffices C impact is_unknown Least p)
    (efun cos) (efun sin) datan2 even_weight cfuel rx ry (EFin rth) scan max_x max_y max_th ang_step step Hx Hy Ht Ha Hst Hf) as (score & D & B).
  - intros rot q I. destruct (proj2 (proj2 (Sc rot)) q I) as (range & angle & o & Il & ->). eexists _, _, o. split; [reflexivity|]. destruct (Far range angle o Il) as [F1 F2].
    assert (X := Far2 range (cos (rot + rth + angle)) rx (s * IZR (2 ^ 30) - max_x) ltac:(lra) (COS_bound _)).
    assert (Y := Far2 range (sin (rot + rth + angle)) ry (s * IZR (2 ^ 30) - max_y) ltac:(lra) (SIN_bound _)). lra.
  - intros rot k _. exists (1 / INR (length laser)). rewrite Wt. split; [reflexivity|lra].
  - intros rot. exists 0%nat, (1 / INR (length laser)). rewrite Wt, (proj1 (proj2 (Sc rot))). split; [destruct laser; [congruence|cbn; lia]|]. split; [reflexivity|exact WP].
  - exists score. split; [intros rot; apply Sc|]. split; [exact D|exact B].
Qed.
Print Assumptions C83_laser_scan_is_matched_best_partial.

(** a case: three-valued cells whose unknown value has the impact 0, an 8x8 map of 5 cm cells with three writes, a scan of two
    points, the configured window (1 m, 5 degrees) *)
Example C83_a_case :
  let impact (x : option bool) : ER := match x with Some true => EFin 1 | _ => EFin 0 end in
  let unknown (x : option bool) := match x with None => true | _ => false end in
  let hist : list (coord * (option bool -> option bool)) := [((3, -2)%Z, fun _ => Some true); ((2, -1)%Z, fun _ => Some false); ((-4, 3)%Z, fun _ => Some true)] in
  let W := mkRect (- (1)) 1 (- (1)) 1 in
  exists p0 p scan score, pyramid_new None (EInf false) 8 8 (EFin (1 / 20)) = Ok p0 /\ m3_run None (fun w h o _ => (w, h, o)) impact unknown 64 p0 hist = Ok p /\
    (forall rot, scan_to_cartesian (fun _ _ => ENan) (raw_trig (efun cos) (efun sin) (EFin (rot + 1 / 2))) (polar_scan [(3 / 10, 0, true); (7 / 10, 1, true)]) = Ok (scan rot)) /\
    (forall rot r, scored_range (1 / 20) W r ->
      match_prob (efun cos) (efun sin) (fun _ _ => ENan) None impact even_weight 4 p (mkPose (EFin 1) (EFin (-2)) (EFin (1 / 2))) (scan rot) (er r) = Ok (Some (EFin (score rot r)))) /\
    forall pop delta, queue_ok (scored (1 / 20) W score) delta pop -> exists n, forall fuel, (n <= fuel)%nat -> exists m, m3rsm_search score pop fuel 1 1 (PI / 36) (PI / 360) (1 / 20) = Ok m /\
      forall x y, candidate (1 / 20) W x y -> score 0 (point_range x y) <= m_prob m + Rmax 0 delta + INR (length (py_levels p) - 1) * (1 / 10000000).
Proof.
  intros impact unknown hist W. assert (PP := PI_RGT_0). assert (E52 := eps52).
  destruct (C31_writes_inside_the_map_succeed (option bool) None (fun w h o _ => (w, h, o)) impact unknown (1 / 20)) with (w := 8%Z) (h := 8%Z) as (p0 & E0 & H); [lra|reflexivity|lia|lia|].
  assert (N0 : exists l, nth_error (py_levels p0) 0 = Some l /\ lv_w l = 8%Z /\ lv_h l = 8%Z /\ lv_origin l = (4, 4)%Z) by (vm_compute in E0; injection E0 as <-; eexists; repeat split; reflexivity).
  destruct N0 as (finest & N0 & Wd & Hh & O). destruct (H finest hist N0) as (p & E & _).
  { intros c f I. unfold level_has. rewrite Wd, Hh, O. destruct I as [I|[I|[I|[]]]]; injection I as <- _; cbn; lia. }
  assert (P30 : IZR (2 ^ 30) = 1073741824) by reflexivity.
  destruct (C83_laser_scan_is_matched_best_partial (option bool) None (fun w h o _ => (w, h, o)) impact unknown (1 / 20)) with (w := 8%Z) (h := 8%Z) (p0 := p0) (hist := hist) (mfuel := 64%nat) (p := p) (datan2 := fun _ _ : ER => ENan)
    (cfuel := 4%nat) (rx := 1) (ry := -2) (rth := 1 / 2) (laser := [(3 / 10, 0, true); (7 / 10, 1, true)]) (max_x := 1) (max_y := 1) (max_th := PI / 36) (ang_step := PI / 360) (step := 1 / 20)
    as (scan & score & A & B & F); try lra; try lia; auto.
  - intros [[]|]; eexists; (split; [reflexivity|lra]).
  - intros [[]|] [[]|] K; try discriminate; apply E_le_fin; lra.
  - intros c' f I x. destruct I as [I|[I|[I|[]]]]; injection I as _ <-; reflexivity.
  - discriminate.
  - intros range angle o [I|[I|[]]]; injection I as <- <- <-; rewrite P30; rewrite (Rabs_pos_eq 1), (Rabs_left (-2)) by lra; rewrite Rabs_pos_eq by lra; lra.
  - exists p0, p, scan, score. split; [exact E0|]. split; [exact E|]. split; [exact A|]. split; [intros; now apply B|]. intros pop delta Q. destruct (F pop delta Q) as (n & X). exists n. intros fuel Hn. destruct (X fuel Hn) as (m & Em & _ & _ & Bd).
    exists m. split; [exact Em|]. intros x y Cd. apply Bd; [|exact Cd]. exists 0%nat. cbn [INR]. split; [lra|left; ring].
Qed.

(** *** binary64, default cells (affine; an unknown cell's impact is 1/2) and occupancy impact; 4x4 cells of 1 m, the robot at
    (0, 0), one scan point at (0.5, 0.5) *)
(** a priority queue as a list: its top is found by scanning *)
Fixpoint top_pop (q : list (mtch F64)) : option (mtch F64 * list (mtch F64)) :=
  match q with
  | [] => None
  | a :: q' => match top_pop q' with None => Some (a, q') | Some (m, r) => if match_less a m then Some (m, a :: r) else Some (a, q') end
  end.
Definition f64_prob (p : pyramid F64 (gcell F64)) (r : rect F64) : outcome (option F64) :=
  match_prob (fun x => x) (fun x => x) (fun x _ => x) affine_new c_prob even_weight 64 p (mkPose (dofZ 0) (dofZ 0) (dofZ 0)) [sp_make_cartesian (dlit 1 2, dlit 1 2) true] r.
Definition f64_score (p : pyramid F64 (gcell F64)) (rot : F64) (r : rect F64) : F64 := match f64_prob p r with Ok (Some v) => v | _ => f_nan end.
Definition f64_search (p : pyramid F64 (gcell F64)) (max_x max_y : F64) : outcome (mtch F64) :=
  m3rsm_search (f64_score p) top_pop 1000 max_x max_y (dofZ 0) (dlit 1 10) (dlit 1 2).
Definition f64_rect (b t l r : Z) : rect F64 := mkRect (dofZ b) (dofZ t) (dofZ l) (dofZ r).
Definition scores (p : pyramid F64 (gcell F64)) (r : rect F64) (lo hi : Z) : bool :=
  match f64_prob p r with Ok (Some v) => dlt (dlit lo 100) v && dlt v (dlit hi 100) | _ => false end.

Definition found {A} (o : outcome A) (t : A -> bool) : bool := match o with Ok x => t x | _ => false end.
Definition aborted {A} (o : outcome A) (t : bool) : bool := match o with Abort => t | _ => false end.
Lemma found_Ok {A} (o : outcome A) t : found o t = true -> exists x, o = Ok x /\ t x = true.
Proof. destruct o as [x| | |]; try discriminate. eauto. Qed.
Lemma aborted_Abort {A} (o : outcome A) t : aborted o t = true -> o = Abort /\ t = true.
Proof. destruct o as [x| | |]; try discriminate. auto. Qed.
Lemma check_Ok o t : check o t = true -> exists p, o = Ok p /\ t p = true.
Proof. exact (found_Ok o t). Qed.

(** The robot's cell and the four corners of the map were seen free (0.1): every coarse cell is known and low, but the unknown
    cells between them have the impact 1/2.  The window's score is 0.1, so the search returns the identity (0.1), although the
    window's corner (-1, -1), a candidate, scores 0.5. *)
Theorem C83_unknown_cells_hide_the_best_refuted :
  exists p m, map_after no_growth 4 4 [((0, 0)%Z, seen (dlit 1 10)); ((1, 1)%Z, seen (dlit 1 10)); ((-2, -2)%Z, seen (dlit 1 10)); ((1, -2)%Z, seen (dlit 1 10)); ((-2, 1)%Z, seen (dlit 1 10))] = Ok p /\
    f64_search p (dofZ 1) (dofZ 1) = Ok m /\ dlt (m_prob m) (dlit 11 100) = true /\ scores p (f64_rect (-1) 1 (-1) 1) 9 11 = true /\ scores p (f64_rect (-1) (-1) (-1) (-1)) 49 51 = true.
Proof.
  set (hist := [((0, 0)%Z, seen (dlit 1 10)); ((1, 1)%Z, seen (dlit 1 10)); ((-2, -2)%Z, seen (dlit 1 10)); ((1, -2)%Z, seen (dlit 1 10)); ((-2, 1)%Z, seen (dlit 1 10))]).
  assert (H : check (map_after no_growth 4 4 hist) (fun p => found (f64_search p (dofZ 1) (dofZ 1))
    (fun m => dlt (m_prob m) (dlit 11 100) && (scores p (f64_rect (-1) 1 (-1) 1) 9 11 && scores p (f64_rect (-1) (-1) (-1) (-1)) 49 51))) = true) by (vm_compute; reflexivity).
  apply check_Ok in H as (p & Ep & H). apply found_Ok in H as (m & Em & H). apply andb_true_iff in H as [H1 H]. apply andb_true_iff in H as [H2 H3]. exists p, m.
  split; [exact Ep|]. split; [exact Em|]. split; [exact H1|]. split; [exact H2|exact H3].
Qed.
Print Assumptions C83_unknown_cells_hide_the_best_refuted.

(** The same with one corner seen at 0.2: the window (0.2) beats the identity and is split; its quarter scores 0.5, and the
    engine's assertion "Bounding assumption is violated" ends the program. *)
Theorem C83_unknown_cells_abort_the_search_refuted :
  exists p, map_after no_growth 4 4 [((0, 0)%Z, seen (dlit 1 10)); ((1, 1)%Z, seen (dlit 2 10)); ((-2, -2)%Z, seen (dlit 1 10)); ((1, -2)%Z, seen (dlit 1 10)); ((-2, 1)%Z, seen (dlit 1 10))] = Ok p /\
    f64_search p (dofZ 1) (dofZ 1) = Abort /\ scores p (f64_rect 0 0 0 0) 9 11 = true /\ scores p (f64_rect (-1) 1 (-1) 1) 19 21 = true /\ scores p (f64_rect (-1) 0 (-1) 0) 49 51 = true.
Proof.
  set (hist := [((0, 0)%Z, seen (dlit 1 10)); ((1, 1)%Z, seen (dlit 2 10)); ((-2, -2)%Z, seen (dlit 1 10)); ((1, -2)%Z, seen (dlit 1 10)); ((-2, 1)%Z, seen (dlit 1 10))]).
  assert (H : check (map_after no_growth 4 4 hist) (fun p => aborted (f64_search p (dofZ 1) (dofZ 1))
    (scores p (f64_rect 0 0 0 0) 9 11 && (scores p (f64_rect (-1) 1 (-1) 1) 19 21 && scores p (f64_rect (-1) 0 (-1) 0) 49 51))) = true) by (vm_compute; reflexivity).
  apply check_Ok in H as (p & Ep & H). apply aborted_Abort in H as (Em & H). apply andb_true_iff in H as [H1 H]. apply andb_true_iff in H as [H2 H3]. exists p.
  split; [exact Ep|]. split; [exact Em|]. split; [exact H1|]. split; [exact H2|exact H3].
Qed.
Print Assumptions C83_unknown_cells_abort_the_search_refuted.

(** A window of no width is rasterised as its lower left corner: with every cell known, (0, 1) at 0.9, (0, -1) at 0.2 and the
    others at 0.1, the search returns 0.2 although the window's end (0, 1) scores 0.9. *)
Theorem C83_narrow_window_loses_the_best_refuted :
  exists p m, map_after no_growth 4 4 (map (fun c => (c, seen (if coord_eqb c (0, 1)%Z then dlit 9 10 else if coord_eqb c (0, -1)%Z then dlit 2 10 else dlit 1 10)))
      (flat_map (fun x => map (fun y => (x, y)) [-2; -1; 0; 1]%Z) [-2; -1; 0; 1]%Z)) = Ok p /\
    f64_search p (dofZ 0) (dofZ 1) = Ok m /\ dlt (m_prob m) (dlit 21 100) = true /\ scores p (f64_rect (-1) 1 0 0) 19 21 = true /\ scores p (f64_rect 1 1 0 0) 89 91 = true.
Proof.
  set (hist := map _ _).
  assert (H : check (map_after no_growth 4 4 hist) (fun p => found (f64_search p (dofZ 0) (dofZ 1))
    (fun m => dlt (m_prob m) (dlit 21 100) && (scores p (f64_rect (-1) 1 0 0) 19 21 && scores p (f64_rect 1 1 0 0) 89 91))) = true) by (vm_compute; reflexivity).
  apply check_Ok in H as (p & Ep & H). apply found_Ok in H as (m & Em & H). apply andb_true_iff in H as [H1 H]. apply andb_true_iff in H as [H2 H3]. exists p, m.
  split; [exact Ep|]. split; [exact Em|]. split; [exact H1|]. split; [exact H2|exact H3].
Qed.
Print Assumptions C83_narrow_window_loses_the_best_refuted.
