(** C95 for the maps that rescale (the ones given to the multi-resolution matcher). *)
From Coq Require Import Reals ZArith List Bool Lia Lra.
From Flocq Require Import Core.
From Verif.Base Require Import Outcome Num F64Facts.
From Verif.Model Require Import MathUtils Geometry Grid PlainMap LazyMap Cells Sensor ScanAdder Histogram AreaEstimator World Config Pyramid WholeSlam.
From Verif.Spec Require Import GeometrySpec MapSpec ScanSpec ManyMapsSpec WholeMapSpec.
From Verif.Proofs Require Import AreaRange ScanAdderProofs WholeExact WholeRescalable.
From Verif.Props Require Import WholeMapProps.
Import ListNotations.

(** Whatever scan matcher, odometry, observers, cell class, estimators, blurring and quality settings, and whatever the coarser
    levels of the map do: when a run on a rescalable map returns, its pose is the last corrected pose, and every cell a user
    reads is the prototype with all the observations of the scans in their order, exactly as on the other maps. *)
Theorem C95_rescalable_map_is_what_the_scans_say :
  forall (SM : Type) (sm_reset : SM -> SM) (sm_process : SM -> whole_scan F64 -> pose F64 -> amap F64 -> outcome (F64 * pose F64 * SM))
    (proto : acell F64) (infinity scale : F64) (grow : Z -> Z -> coord -> coord -> Z * Z * coord) (impact : acell F64 -> F64) (bound : nat)
    (shift nan : F64) (dcos dsin dacos : F64 -> F64) (mpi : F64) (datan2 : F64 -> F64 -> F64) (k : adder_config F64) (margin : nat)
    (ql qr : F64) (w h B : Z) (o : wobservers) (wd : ss_world F64 (amap F64) SM) (history : list (wevent F64 (whole_scan F64)))
    (o' : wobservers) (w' : ss_world F64 (amap F64) SM) (notes : list (wnote F64 (amap F64))),
  let run := ss_run sm_reset sm_process (whole_append proto grow impact bound shift nan dcos dsin dacos mpi datan2 k) ql qr (dofZ (Z.of_nat margin)) in
  let insert := insertable shift nan dcos dsin dacos mpi datan2 k margin (within B) in
  F_fin (ac_scale k) = true -> (0 < F2R64 (ac_scale k) <= bpow radix2 900)%R -> (0 <= B)%Z -> (4 * B + 2 < 2 ^ 31)%Z ->
  new_rescalable proto infinity w h scale = Ok (ss_map wd) ->
  (forall h1 s h2 o1 w1 n1, history = h1 ++ EScan s :: h2 -> run o wd h1 = Ok (o1, w1, n1) -> goes_on sm_reset sm_process insert w1 s) ->
  run o wd history = Ok (o', w', notes) ->
  exists corrections, ss_log w' = ss_log wd ++ corrections /\ length corrections = length (all_scans history) /\
    let es := mapped ql qr (ss_pose wd) (all_scans history) corrections in
    ss_pose w' = last_pose (ss_pose wd) es /\
    forall c, amap_get (ss_map w') c = Ok (cell_of shift nan dcos dsin dacos mpi datan2 k margin proto es c).
Proof.
  intros * Fs Hs HB0 HB Hm HG ER.
  assert (Hz : size_ok UnboundedPlainKind 1 1 B) by (unfold size_ok; lia).
  destruct (run_updates_of proto grow impact bound shift nan dcos dsin dacos mpi datan2 k margin Fs Hs UnboundedPlainKind 1 1 B Hz sm_reset sm_process ql qr (ss_map wd)
    history o wd [] o' w' notes eq_refl ER HG) as (ds & l & El & Ed & Eu & Ol & Ep).
  exists ds. do 2 (split; [assumption|]). cbv zeta. split; [exact Ep|]. intros c. cbn [app] in Eu.
  unfold new_rescalable in Hm. apply bind_Ok_inv in Hm as (p & Ep0 & Hm). assert (Hm' : MRescalable p = ss_map wd) by congruence. clear Hm.
  unfold pyramid_new in Ep0. apply bind_Ok_inv in Ep0 as (ls & E1 & E2). assert (E2' : mkPyr ls 0 = p) by congruence. clear E2. subst p.
  apply ensure_keeps in E1. cbn [nth_error] in E1. rewrite <- Hm' in Eu.
  destruct (resc_updates proto grow impact bound l (mkPyr ls 0) _ _ E1 eq_refl Eu) as (p' & lv' & Em & A' & Hl' & HC').
  rewrite Em. cbn [amap_get]. rewrite A', Hl', HC'. unfold cell_of. rewrite Ol. reflexivity.
Qed.
Print Assumptions C95_rescalable_map_is_what_the_scans_say.

(** *** a case *)
Definition r_inf : F64 := ddiv (dofZ 1) (dofZ 0).
Definition r_wd (m : amap F64) : ss_world F64 (amap F64) unit := mkSS x_start m tt [].
Notation r_run := (ss_run (fun s : unit => s) (reading x_look) x_adder (dlit 9 10) (dlit 6 10) (dofZ (Z.of_nat 1))).
Definition is_ok {A} (o : outcome A) : bool := match o with Ok _ => true | _ => false end.
Lemma r_runs : is_ok (bind (new_rescalable x_proto r_inf 40 40 (dlit 1 2)) (fun m => r_run wo_new (r_wd m) x_history)) = true.
Proof. vm_cast_no_check (eq_refl true). Qed.

Section Ex.
  Variable m0 : amap F64.
  Hypothesis Hm : new_rescalable x_proto r_inf 40 40 (dlit 1 2) = Ok m0.
  Lemma r_read00 : exists v, amap_get m0 (0, 0)%Z = Ok v.
  Proof using Hm.
    unfold new_rescalable in Hm. apply bind_Ok_inv in Hm as (p & Ep & E). assert (X : MRescalable p = m0) by congruence. subst m0.
    unfold pyramid_new in Ep. apply bind_Ok_inv in Ep as (ls & E1 & E2). assert (X : mkPyr ls 0 = p) by congruence. subst p.
    apply ensure_keeps in E1. cbn [amap_get py_active py_levels]. rewrite E1. eexists. reflexivity.
  Qed.
  Lemma r_good : forall h1 s h2 o1 w1 n1, x_history = h1 ++ EScan s :: h2 -> r_run wo_new (r_wd m0) h1 = Ok (o1, w1, n1) ->
    goes_on (fun s : unit => s) (reading x_look) (x_insert (within 15)) w1 s.
  Proof using Hm.
    assert (R0 := r_read00).
    assert (G1 : goes_on (fun s : unit => s) (reading x_look) (x_insert (within 15)) (r_wd m0) (x_scan 3)) by (apply x_goes; [auto|exact R0|exact x_beams_3]).
    intros h1 s h2 o1 w1 n1 Eh. unfold x_history in Eh.
    destruct h1 as [|e1 h1]; [discriminate|]. cbn [app] in Eh. injection Eh as <- Eh. destruct h1 as [|e2 h1].
    - cbn [app] in Eh. injection Eh as <- _. intros Er. unfold ss_run in Er. cbn [world_run] in Er. injection Er as _ <- _. exact G1.
    - cbn [app] in Eh. injection Eh as <- Eh. destruct h1 as [|e3 h1]; [|cbn [app] in Eh; injection Eh as _ Eh; destruct h1; discriminate Eh].
      cbn [app] in Eh. injection Eh as <- _. intros Er.
      destruct x_scale as [S1 S2].
      assert (P := fun HG => C95_rescalable_map_is_what_the_scans_say unit (fun s => s) (reading x_look) x_proto r_inf (dlit 1 2) (fun w h o _ => (w, h, o)) acell_prob 10 (dlit 1 200) x_nan x_cos x_sin x_cos
        (dlit 314159 100000) x_atan2 x_k 1 (dlit 9 10) (dlit 6 10) 40 40 15 wo_new (r_wd m0) [ESubMap 7; EScan (x_scan 3)] o1 w1 n1 S1 S2 ltac:(lia) ltac:(lia) Hm HG Er).
      destruct P as (cs & El & Ec & Ep & Eg).
      { clear Er. intros h1 s h2' o2 w2 n2 Eh Er. destruct h1 as [|e1 h1]; [discriminate|]. cbn [app] in Eh. injection Eh as <- Eh. destruct h1 as [|e2 h1]; [|injection Eh as _ Eh; destruct h1; discriminate Eh].
        cbn [app] in Eh. injection Eh as <- _. unfold ss_run in Er. cbn [world_run] in Er. injection Er as _ <- _. exact G1. }
      assert (Ecs : cs = [x_corr]).
      { clear -Er El R0. destruct R0 as (v & R0). revert Er. unfold ss_run, r_wd. cbn [world_run]. unfold handle_sensor_data. cbn [bind]. unfold ss_observe. cbn [ss_update ss_pose ss_map ss_sm ss_log].
        unfold reading at 1, x_look at 1. rewrite R0. cbn [bind]. destruct (x_adder _ _ _ _ _) as [m1| | |]; try discriminate. cbn [bind ss_pose ss_map ss_sm ss_log ss_update].
        intros X. apply Ok_inj in X. assert (Y : w1 = mkSS (ss_pose w1) m1 tt ([] ++ [x_corr])) by (injection X as _ X _; rewrite <- X; reflexivity).
        rewrite Y in El. cbn [ss_log app r_wd] in El. symmetry. exact El. }
      subst cs. cbn [all_scans flat_map app mapped r_wd ss_pose] in Ep, Eg. unfold last_pose in Ep. cbn [map last en_pose ss_pose] in Ep. fold (x_at x_start 3) in Ep.
      destruct w1 as [p' m' sm' log']. cbn [ss_pose ss_map] in *. subst p'. apply x_goes; [auto|eexists; apply Eg|exact x_beams_4].
  Qed.
  Lemma r_case o' w' notes : r_run wo_new (r_wd m0) x_history = Ok (o', w', notes) -> length (ss_log w') = 2%nat /\
    forall c, amap_get (ss_map w') c = Ok (cell_of (dlit 1 200) x_nan x_cos x_sin x_cos (dlit 314159 100000) x_atan2 x_k 1 x_proto
      (mapped (dlit 9 10) (dlit 6 10) x_start [x_scan 3; x_scan 4] (ss_log w')) c).
  Proof using Hm.
    intros Er. destruct x_scale as [S1 S2].
    destruct (C95_rescalable_map_is_what_the_scans_say unit (fun s => s) (reading x_look) x_proto r_inf (dlit 1 2) (fun w h o _ => (w, h, o)) acell_prob 10 (dlit 1 200) x_nan x_cos x_sin x_cos
        (dlit 314159 100000) x_atan2 x_k 1 (dlit 9 10) (dlit 6 10) 40 40 15 wo_new (r_wd m0) x_history o' w' notes S1 S2 ltac:(lia) ltac:(lia) Hm r_good Er)
      as (cs & El & Ec & _ & Eg).
    cbn [ss_log r_wd app] in El. split.
    - rewrite El. exact Ec.
    - intros c. rewrite El. exact (Eg c).
  Qed.
End Ex.
Lemma r_ok {A B} (a : outcome A) (f : A -> outcome B) : is_ok (bind a f) = true -> exists x y, a = Ok x /\ f x = Ok y.
Proof. destruct a as [x| | |]; try discriminate. cbn [bind]. destruct (f x) as [y| | |] eqn:E; try discriminate. eauto. Qed.
(** the run of C95 on a rescalable map returns, with two corrections, and the map reads as the scans say *)
Example C95_rescalable_case : exists m0 o' w' notes, new_rescalable x_proto r_inf 40 40 (dlit 1 2) = Ok m0 /\
  r_run wo_new (r_wd m0) x_history = Ok (o', w', notes) /\ length (ss_log w') = 2%nat /\
  forall c, amap_get (ss_map w') c = Ok (cell_of (dlit 1 200) x_nan x_cos x_sin x_cos (dlit 314159 100000) x_atan2 x_k 1 x_proto
    (mapped (dlit 9 10) (dlit 6 10) x_start [x_scan 3; x_scan 4] (ss_log w')) c).
Proof.
  destruct (r_ok _ _ r_runs) as (m0 & [[o' w'] notes] & Hm & Er). exists m0, o', w', notes. split; [exact Hm|]. split; [exact Er|].
  exact (r_case m0 Hm o' w' notes Er).
Qed.
