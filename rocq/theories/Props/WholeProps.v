(** C94: everything the map under construction reports is a probability, whatever the laser and the odometry send. *)
From Coq Require Import Reals ZArith List Bool Lia Lra.
From Flocq Require Import Core IEEE754.BinarySingleNaN IEEE754.Binary IEEE754.Bits.
From Verif.Base Require Import Outcome Num F64Facts.
From Verif.Model Require Import MathUtils Geometry Grid PlainMap LazyMap Cells Sensor ScanAdder Pyramid World ParticleFilter Gmapping Render Config WholeSlam.
From Verif.Spec Require Import WholeSpec.
From Verif.Proofs Require Import CellProofs TbmFloatProofs AreaRange WholeProofs WholeObs WholeMaps WholeRun.
Import ListNotations.

(** The single hypothesis worlds (tinySLAM, vinySLAM, credibilist SLAM): whatever scan matcher, odometry, scans (any doubles,
    NaN and infinities included), margin, range limit, blurring distance and scale (of the scan adder), whichever map class,
    cell class, occupancy estimator and observation quality estimator: if the run ends, all cells of the map and of all maps
    handed to observers are of the configured class and report the unknown value or a probability. *)
Theorem C94_single_hypothesis_maps_report_probabilities :
  forall (SM : Type) (sm_reset : SM -> SM) (sm_process : SM -> whole_scan F64 -> pose F64 -> amap F64 -> outcome (F64 * pose F64 * SM))
    (proto : acell F64) (infinity : F64) (grow : Z -> Z -> coord -> coord -> Z * Z * coord) (impact : acell F64 -> F64) (bound : nat)
    (shift nan : F64) (dcos dsin dacos : F64 -> F64) (mpi : F64) (datan2 : F64 -> F64 -> F64) (k : adder_config F64)
    (ql qr margin : F64) (o : wobservers) (w : ss_world F64 (amap F64) SM) (h : list (wevent F64 (whole_scan F64))) o' w' notes,
  prototype proto -> est01 (ac_est k) -> disnan nan = true -> probability ql -> probability qr ->
  fresh_map proto infinity (ss_map w) ->
  ss_run sm_reset sm_process (whole_append proto grow impact bound shift nan dcos dsin dacos mpi datan2 k) ql qr margin o w h = Ok (o', w', notes) ->
  map_reports_well proto (ss_map w') /\ forall id m, In (NMap id m) notes -> map_reports_well proto m.
Proof.
  intros * Hp He Hn QL QR Hf E. assert (I := fresh_inv proto infinity Hp _ Hf).
  destruct (ss_run_inv proto grow impact bound shift nan dcos dsin dacos mpi datan2 k Hp He Hn sm_reset sm_process ql qr margin o w h o' w' notes QL QR I E) as [A B].
  split; [apply inv_reports, A|]. intros id m Q. eapply inv_reports, B, Q.
Qed.
Print Assumptions C94_single_hypothesis_maps_report_probabilities.

(** The particle filter: the same for any number of particles, any random draws and any qualities of the scans in [0, 1]. *)
Theorem C94_gmapping_maps_report_probabilities :
  forall (SM G RV : Type) (sm_process : SM -> whole_scan F64 -> pose F64 -> amap F64 -> outcome (F64 * pose F64 * SM))
    (gcos gsin : F64 -> F64) (rv_sample : RV -> G -> pose F64 * RV * G) (rv_copy : RV -> RV) (rv_zero guess lim : RV) (seeds : nat -> G) (sm : SM) (particles : nat)
    (proto : acell F64) (infinity : F64) (grow : Z -> Z -> coord -> coord -> Z * Z * coord) (impact : acell F64 -> F64) (bound : nat)
    (shift nan : F64) (dcos dsin dacos : F64 -> F64) (mpi : F64) (datan2 : F64 -> F64 -> F64) (k : adder_config F64)
    (m0 : amap F64) (f : gfilter F64 (amap F64) SM G RV) (o : wobservers) (h : list (wevent F64 (whole_scan F64 * (nat -> F64)))) o' f' notes,
  prototype proto -> est01 (ac_est k) -> disnan nan = true -> fresh_map proto infinity m0 ->
  gf_new rv_sample rv_copy rv_zero guess lim seeds m0 sm particles = Ok f ->
  (forall s, In (EScan s) h -> probability (ts_quality s)) ->
  gf_run gcos gsin rv_sample rv_copy rv_zero sm_process (whole_append proto grow impact bound shift nan dcos dsin dacos mpi datan2 k) o f h = Ok (o', f', notes) ->
  Forall (map_reports_well proto) (gf_maps f') /\ forall id m, In (NMap id m) notes -> map_reports_well proto m.
Proof.
  intros * Hp He Hn Hf Ef Hs E. assert (I := fresh_inv proto infinity Hp _ Hf).
  assert (If : ginv proto f).
  { revert Ef. unfold gf_new. destruct (gf_each _ _ _) as [hh| | |]; try discriminate. cbn [bind]. destruct (heaviest_ptr _ _) as [p| | |]; try discriminate. cbn [bind].
    intros X. apply Ok_inj in X. rewrite <- X. constructor; [exact I|constructor]. }
  destruct (gf_run_inv proto grow impact bound shift nan dcos dsin dacos mpi datan2 k Hp He Hn gcos gsin rv_sample rv_copy rv_zero sm_process o f h o' f' notes If Hs E) as [A B].
  split.
  - eapply Forall_impl; [|exact A]. intros m. apply inv_reports.
  - intros id m Q. eapply inv_reports, B, Q.
Qed.
Print Assumptions C94_gmapping_maps_report_probabilities.

(** What such a map is published as (C49): every entry of the occupancy grid is -1 or a percentage, and there is one to publish
    for all cell classes but TbmOccConsistentCell (whose NaN cannot be converted, C49). *)
Theorem C94_published_grids_are_percentages :
  forall (proto : acell F64) (m : amap F64) (w h : Z) (origin : coord), map_reports_well proto m ->
  (forall data, grid_data (fun c => v <- amap_get m c ;; Ok (acell_prob v))%out w h origin = Ok data -> Forall grid_byte data) /\
  (~ is_consistent proto -> (0 <= w)%Z -> (0 <= h)%Z ->
   (forall x y, (- cx origin <= x < w - cx origin)%Z -> (- cy origin <= y < h - cy origin)%Z -> exists v, amap_get m (x, y) = Ok v) ->
   exists data, grid_data (fun c => v <- amap_get m c ;; Ok (acell_prob v))%out w h origin = Ok data /\ Forall grid_byte data).
Proof.
  intros proto m w h origin R. split; [intros data; apply (grid_bytes proto); exact R|]. intros. eapply grid_published; eassumption.
Qed.
Print Assumptions C94_published_grids_are_percentages.

(** *** a run: two scans, the second with a NaN and an infinite range, on an unbounded map with blurring *)
Definition ex_cos (x : F64) : F64 := dsub (dofZ 1) (ddiv (dmul x x) (dofZ 2)).
Definition ex_sin (x : F64) : F64 := x.
Definition ex_nan : F64 := ddiv (dofZ 0) (dofZ 0).
Definition ex_inf : F64 := ddiv (dofZ 1) (dofZ 0).
Definition ex_adder : adder_config F64 :=
  mkAdder (dlit 1 2) (AreaEst (mkOcc (dlit 19 20) (dofZ 1)) (mkOcc (dlit 1 100) (dofZ 1))) AhrOmqe (dofZ 50) (dlit 11 10).
Definition ex_scan (l : list (F64 * F64)) : whole_scan F64 := (map (fun p => sp_make_polar (fst p) (snd p) true) l, raw_trig ex_cos ex_sin).
Definition ex_history : list (wevent F64 (whole_scan F64)) :=
  [ESubMap 7; EScan (mkTS (mkPose (dlit 1 10) (dlit 1 20) (dlit 1 30)) (ex_scan [(dofZ 3, dlit 1 10); (dofZ 4, dlit 1 5); (dlit 7 2, dlit 3 10)]) (dofZ 1));
   EScan (mkTS (mkPose (dlit 1 10) (dlit 1 20) (dlit 1 30)) (ex_scan [(ex_inf, dlit 1 10)]) (dofZ 1))].
Definition ex_proto : acell F64 := new_cell TbmUnknownEven.
Definition ex_world : ss_world F64 (amap F64) unit := mkSS (mkPose (dofZ 0) (dofZ 0) (dofZ 0)) (MUnbounded (pmap_new ex_proto 2 2)) tt [].
Notation ex_result := (
  ss_run (fun s => s) (fun s _ _ _ => Ok (dofZ 1, mkPose (dofZ 0) (dofZ 0) (dofZ 0), s))
    (whole_append ex_proto (fun w h o _ => (w, h, o)) acell_prob 10 (dlit 1 200) ex_nan ex_cos ex_sin (fun x => dsub (dofZ 1) x) (dlit 314159 100000) (fun y _ => y) ex_adder)
    (dlit 9 10) (dlit 6 10) (dofZ 0) wo_new ex_world ex_history).
Definition ex_check : bool :=
  match ex_result with
  | Ok (_, w, notes) =>
      (length notes =? 2)%nat &&
      match ss_map w with
      | MUnbounded m =>
          existsb (existsb (fun c => dlt (dlit 3 5) (acell_prob c))) (p_cells m) && existsb (existsb (fun c => dlt (acell_prob c) (dlit 2 5))) (p_cells m)
      | _ => false
      end
  | _ => false
  end.
Lemma f_lit01 a b : (0 <= a <= b)%Z -> (0 < b <= 2 ^ 53)%Z -> probability (dlit a b).
Proof.
  intros A B. assert (P : (0 < IZR b)%R) by (apply IZR_lt; lia). assert (P0 : (0 <= IZR a)%R) by (apply IZR_le; lia). assert (P1 : (IZR a <= IZR b)%R) by (apply IZR_le; lia).
  assert (R : (0 <= IZR a / IZR b <= 1)%R).
  { split; [apply Rmult_le_pos; [exact P0|left; apply Rinv_0_lt_compat; exact P]|]. apply Rmult_le_reg_r with (IZR b); [exact P|]. unfold Rdiv. rewrite Rmult_assoc, Rinv_l by lra. lra. }
  destruct (F_dlit_correct a b ltac:(lia) B) as [E F]; [apply no_ovf_1; lra|]. split; [exact F|]. rewrite E. apply rnd_between; [apply fmt_0|apply fmt_1|exact R].
Qed.
Lemma ex_nan_nan : disnan ex_nan = true. Proof. vm_compute. reflexivity. Qed.
(** the hypotheses are met, the run ends, there are both occupied and free cells, and the theorem applies *)
Example C94_example_runs : ex_check = true.
Proof. vm_cast_no_check (eq_refl true). Qed.
Example C94_example : forall o' w' notes, ex_result = Ok (o', w', notes) -> map_reports_well ex_proto (ss_map w').
Proof.
  intros o' w' notes E. apply C94_single_hypothesis_maps_report_probabilities with (infinity := ex_inf) in E.
  - exact (proj1 E).
  - exact (proto_configured TbmUnknownEven).
  - unfold ex_adder, est01, occ01. cbn [ac_est prob_occ est_quality].
    split; (split; [apply f_lit01; lia|exact f01_1]).
  - exact ex_nan_nan.
  - apply f_lit01; lia.
  - apply f_lit01; lia.
  - left. exists UnboundedPlainKind, 2%Z, 2%Z. unfold ex_world. cbn [ss_map new_amap]. reflexivity.
Qed.
