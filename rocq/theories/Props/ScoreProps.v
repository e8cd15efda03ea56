(** C102: during a run every score is a probability or unknown, and reading the map for it does not stop the program. *)
From Coq Require Import Reals ZArith List Bool Lia Lra.
From Flocq Require Import Core IEEE754.BinarySingleNaN IEEE754.Binary IEEE754.Bits.
From Verif.Base Require Import Outcome Num F64Facts.
From Verif.Model Require Import MathUtils Geometry Grid PlainMap LazyMap Cells Sensor ScanAdder Histogram Pyramid World ParticleFilter Gmapping Config WholeSlam Spe Matchers WholeMatcher Impact.
From Verif.Spec Require Import WholeSpec ScoreSpec.
From Verif.Proofs Require Import GridNumProofs CellProofs TbmFloatProofs AreaRange WholeProofs WholeObs WholeMaps WholeRun ScoreProofs ScoreRuns.
From Verif.Props Require Import WholeProps.
Import ListNotations.
Local Open Scope R_scope.

Lemma weighting_nw k weight : weighting k weight -> forall pts i w, weight pts i = Ok w -> nw w.
Proof.
  intros [|dcos dsin datan2|dcos dsin dacos mpi] pts i w.
  - apply even_nw.
  - apply viny_nw.
  - intros E. apply bind_Ok_inv in E as (h & Eh & E). eapply f01_nw, ahr_f01; eassumption.
Qed.
Lemma weighting_f01 k weight : weighting k weight -> k <> VinySwp -> forall pts i w, pts <> [] -> weight pts i = Ok w -> f01 w.
Proof.
  intros [|dcos dsin datan2|dcos dsin dacos mpi] K pts i w NE; [|contradiction|].
  - unfold even_weight. intros E. apply Ok_inj in E. rewrite <- E. apply inv_f01. destruct pts; [contradiction|cbn [length]; lia].
  - intros E. apply bind_Ok_inv in E as (h & Eh & E). eapply ahr_f01; eassumption.
Qed.

(** scores read from a map whose cells are as they can be in a run *)
Section Scores.
  Variables (proto : acell F64) (m : amap F64) (view : omap F64 (acell F64)) (dexp : F64 -> F64).
  Hypotheses (I : ainv proto m) (X : exponential dexp) (V : sees m view).
  Lemma view_impact oie p c v : cell_impact (oie_impact dexp oie (expected_obs p)) view c = Ok v -> f01 v.
  Proof using I X V.
    unfold cell_impact. rewrite V. intros E. apply bind_Ok_inv in E as (cell & Ec & E). apply bind_Ok_inv in E as (x & Ex & E).
    destruct (is_prob_bounded x) eqn:B; [|discriminate]. apply Ok_inj in E. rewrite <- E. eapply any_impact; [exact X| |exact Ex|exact B]. exact (proj1 (ainv_get _ _ _ _ I Ec)).
  Qed.
  Lemma score_nan01 dcos dsin datan2 oie kind bound k weight area scan pts p v : weighting k weight -> (Z.of_nat bound <= 2 ^ 53)%Z -> (forall s, In s pts -> single_point s) ->
    pose_score dexp dcos dsin datan2 oie kind bound weight area view scan pts p = Ok (Some v) -> nan01 v.
  Proof using I X V.
    intros HW Hb HF. unfold pose_score. apply scan_nan01; [|intros i x; eapply weighting_nw; eassumption|exact HF].
    intros o a x A B. unfold observed_prob. apply observation_nan01; auto. intros c y. apply view_impact.
  Qed.
  Lemma score_f01 dcos dsin datan2 oie kind bound k weight area scan pts p r : weighting k weight -> (Z.of_nat bound <= 2 ^ 53)%Z -> (forall s, In s pts -> single_point s) ->
    kind <> OverlapOope -> k <> VinySwp -> (Z.of_nat (length pts) <= 2 ^ 53)%Z -> pts <> [] ->
    pose_score dexp dcos dsin datan2 oie kind bound weight area view scan pts p = Ok r ->
    (forall v, r = Some v -> f01 v) /\ (k = EvenSwp -> r <> None).
  Proof using I X V.
    intros HW Hb HF KO KV Hl NE. unfold pose_score. intros E.
    apply scan_f01 in E; [|intros o a x; unfold observed_prob; apply observation_f01; auto; intros c y; apply view_impact|
      intros i x; apply (weighting_f01 k weight HW KV); exact NE|exact Hl|exact HF].
    destruct E as [A B]. split; [exact A|].
    { intros ->. assert (W : weight = even_weight) by (inversion HW; reflexivity). subst weight.
      apply (B (ddiv (dofZ 1) (dofZ (Z.of_nat (length pts))))); [reflexivity| |exact NE].
      assert (L : (0 < Z.of_nat (length pts))%Z) by (destruct pts; [contradiction|cbn [length]; lia]). set (n := Z.of_nat (length pts)) in *.
      destruct (F_ofZ_correct 1 ltac:(cbn; lia)) as [O0 OF]. destruct (F_ofZ_correct n) as [N0 NF]; [rewrite Z.abs_eq; lia|].
      assert (P : 1 <= IZR n) by (apply (IZR_le 1); lia). assert (P2 : IZR n <= bpow radix2 53) by (change (bpow radix2 53) with (IZR (2 ^ 53)); apply IZR_le; lia).
      assert (Q : bpow radix2 (-53) <= F2R64 (dofZ 1) / F2R64 (dofZ n) <= 1).
      { rewrite O0, N0. change (-53)%Z with (- (53))%Z. rewrite bpow_opp. unfold Rdiv. rewrite Rmult_1_l. split; [apply Rinv_le; lra|]. rewrite <- Rinv_1. apply Rinv_le; lra. }
      destruct (F_div_correct (dofZ 1) (dofZ n) OF) as [E1 _]; [rewrite N0; lra|apply no_ovf_1; assert (Z := bpow_gt_0 radix2 (-53)); lra|].
      rewrite E1. apply Rlt_le_trans with (bpow radix2 (-53)); [apply bpow_gt_0|]. apply rnd_ge; [apply generic_format_bpow; vm_compute; discriminate|apply Q]. }
  Qed.
  Lemma match_nan01 {En} (en : enumerator F64 En) obs fuel nan dcos dsin datan2 oie kind bound skip range k weight area e scan p q d e' : weighting k weight -> (Z.of_nat bound <= 2 ^ 53)%Z ->
    disnan nan = true -> (forall s, In s (fst scan) -> single_point s) ->
    scored_match dexp dcos dsin datan2 oie kind bound skip range weight area nan en obs fuel e scan p view = Ok (q, d, e') -> nan01 q.
  Proof using I X V.
    intros HW Hb HN HF. unfold scored_match. intros Y. apply bind_Ok_inv in Y as (pts & Ep & Y). cbv zeta in Y. apply bind_Ok_inv in Y as (r & Er & Y).
    destruct (forallb _ _); [|discriminate]. apply Ok_inj in Y. assert (Q : q = mr_prob r) by congruence. rewrite Q. clear Y.
    eapply (process_value en obs nan01); [|exact Er]. intros x. cbn beta.
    destruct (pose_score _ _ _ _ _ _ _ _ _ _ _ _ x) as [[v|]| | |] eqn:Ex; try (left; exact HN). eapply score_nan01; [exact HW|exact Hb| |exact Ex].
    intros s Hs. apply HF. eapply ex_filter; [exact Ep|exact Hs].
  Qed.
End Scores.

(** Single hypothesis worlds, after any run (scans with any doubles, any matcher, any settings as in C94): whatever occupancy
    observation estimator, impact estimator, weighting, analysis area, sensor pose, scan and view on the map, a score is a
    probability or NaN ([None] is the quiet NaN of a scan without usable weight); so is what the matcher reports. *)
Theorem C102_scores_are_probabilities_or_nan :
  forall (SM : Type) (sm_reset : SM -> SM) (sm_process : SM -> whole_scan F64 -> pose F64 -> amap F64 -> outcome (F64 * pose F64 * SM))
    (proto : acell F64) (infinity : F64) (grow : Z -> Z -> coord -> coord -> Z * Z * coord) (impact : acell F64 -> F64) (levels : nat)
    (shift nan : F64) (dcos dsin dacos : F64 -> F64) (mpi : F64) (datan2 : F64 -> F64 -> F64) (k : adder_config F64)
    (ql qr margin : F64) (o : wobservers) (w : ss_world F64 (amap F64) SM) (h : list (wevent F64 (whole_scan F64))) o' w' notes,
  prototype proto -> est01 (ac_est k) -> disnan nan = true -> probability ql -> probability qr ->
  fresh_map proto infinity (ss_map w) ->
  ss_run sm_reset sm_process (whole_append proto grow impact levels shift nan dcos dsin dacos mpi datan2 k) ql qr margin o w h = Ok (o', w', notes) ->
  forall (dexp : F64 -> F64) (view : omap F64 (acell F64)) (oie : oie_kind) (kind : oope_kind) (cells : nat) (swp : swp_kind)
    (weight : list (scan_point F64) -> Z -> outcome F64) (area : rect F64) (scan : whole_scan F64),
  exponential dexp -> sees (ss_map w') view -> weighting swp weight -> (Z.of_nat cells <= 2 ^ 53)%Z ->
  (forall s, In s (fst scan) -> single_point s) ->
  (forall pts p v, (forall s, In s pts -> In s (fst scan)) ->
     pose_score dexp dcos dsin datan2 oie kind cells weight area view scan pts p = Ok (Some v) -> probability_or_nan v) /\
  (forall (E : Type) (en : enumerator F64 E) obs fuel skip range e p q d e',
     scored_match dexp dcos dsin datan2 oie kind cells skip range weight area nan en obs fuel e scan p view = Ok (q, d, e') -> probability_or_nan q).
Proof.
  intros * Hp He Hn QL QR Hf E dexp view oie kind cells swp weight area scan X V HW Hb HF. assert (I0 := fresh_inv proto infinity Hp _ Hf).
  destruct (ss_run_inv proto grow impact levels shift nan dcos dsin dacos mpi datan2 k Hp He Hn sm_reset sm_process ql qr margin o w h o' w' notes QL QR I0 E) as [I _].
  split.
  - intros pts p v Hpts Y. eapply score_nan01; [exact I|exact X|exact V|exact HW|exact Hb| |exact Y]. auto.
  - intros En en obs fuel skip range e p q d e' Y. eapply match_nan01; [exact I|exact X|exact V|exact HW|exact Hb|exact Hn|exact HF|exact Y].
Qed.
Print Assumptions C102_scores_are_probabilities_or_nan.

(** With even or histogram weights and any estimator but the overlap weighted one there is no NaN but the quiet one, and with
    even weights not even that: every scan with a usable point gets a probability. *)
Theorem C102_scores_are_probabilities :
  forall (SM : Type) (sm_reset : SM -> SM) (sm_process : SM -> whole_scan F64 -> pose F64 -> amap F64 -> outcome (F64 * pose F64 * SM))
    (proto : acell F64) (infinity : F64) (grow : Z -> Z -> coord -> coord -> Z * Z * coord) (impact : acell F64 -> F64) (levels : nat)
    (shift nan : F64) (dcos dsin dacos : F64 -> F64) (mpi : F64) (datan2 : F64 -> F64 -> F64) (k : adder_config F64)
    (ql qr margin : F64) (o : wobservers) (w : ss_world F64 (amap F64) SM) (h : list (wevent F64 (whole_scan F64))) o' w' notes,
  prototype proto -> est01 (ac_est k) -> disnan nan = true -> probability ql -> probability qr ->
  fresh_map proto infinity (ss_map w) ->
  ss_run sm_reset sm_process (whole_append proto grow impact levels shift nan dcos dsin dacos mpi datan2 k) ql qr margin o w h = Ok (o', w', notes) ->
  forall (dexp : F64 -> F64) (view : omap F64 (acell F64)) (oie : oie_kind) (kind : oope_kind) (cells : nat) (swp : swp_kind)
    (weight : list (scan_point F64) -> Z -> outcome F64) (area : rect F64) (scan : whole_scan F64) (pts : list (scan_point F64)) (p : pose F64) (r : option F64),
  exponential dexp -> sees (ss_map w') view -> weighting swp weight -> (Z.of_nat cells <= 2 ^ 53)%Z ->
  (forall s, In s pts -> single_point s) -> (Z.of_nat (length pts) <= 2 ^ 53)%Z -> pts <> [] -> kind <> OverlapOope -> swp <> VinySwp ->
  pose_score dexp dcos dsin datan2 oie kind cells weight area view scan pts p = Ok r ->
  (forall v, r = Some v -> probability v) /\ (swp = EvenSwp -> exists v, r = Some v).
Proof.
  intros * Hp He Hn QL QR Hf E dexp view oie kind cells swp weight area scan pts p r X V HW Hb HF Hl NE KO KV Y. assert (I0 := fresh_inv proto infinity Hp _ Hf).
  destruct (ss_run_inv proto grow impact levels shift nan dcos dsin dacos mpi datan2 k Hp He Hn sm_reset sm_process ql qr margin o w h o' w' notes QL QR I0 E) as [I _].
  destruct (score_f01 proto _ view dexp I X V dcos dsin datan2 oie kind cells swp weight area scan pts p r HW Hb HF KO KV Hl NE Y) as [A B].
  split; [exact A|]. intros Z. destruct r as [v|]; [eauto|]. now contradiction (B Z).
Qed.
Print Assumptions C102_scores_are_probabilities.

(** Looking a cell up for a score passes the assertion that its impact is a probability, for every cell that can be read, in
    every configuration but two: GMapping's cells (below), and cells of the class TbmOccConsistentCell with the occupancy impact
    (below).  The impact does not depend on where the obstacle was seen. *)
Theorem C102_impacts_do_not_stop_the_run :
  forall (SM : Type) (sm_reset : SM -> SM) (sm_process : SM -> whole_scan F64 -> pose F64 -> amap F64 -> outcome (F64 * pose F64 * SM))
    (proto : acell F64) (infinity : F64) (grow : Z -> Z -> coord -> coord -> Z * Z * coord) (impact : acell F64 -> F64) (levels : nat)
    (shift nan : F64) (dcos dsin dacos : F64 -> F64) (mpi : F64) (datan2 : F64 -> F64 -> F64) (k : adder_config F64)
    (ql qr margin : F64) (o : wobservers) (w : ss_world F64 (amap F64) SM) (h : list (wevent F64 (whole_scan F64))) o' w' notes,
  prototype proto -> est01 (ac_est k) -> disnan nan = true -> probability ql -> probability qr ->
  fresh_map proto infinity (ss_map w) ->
  ss_run sm_reset sm_process (whole_append proto grow impact levels shift nan dcos dsin dacos mpi datan2 k) ql qr margin o w h = Ok (o', w', notes) ->
  proto <> CGmapping gm_new ->
  forall (dexp : F64 -> F64) (view : omap F64 (acell F64)) (oie : oie_kind) (c : coord) (cell : acell F64),
  (oie = OccupancyOie -> ~ is_consistent proto) -> sees (ss_map w') view -> amap_get (ss_map w') c = Ok cell ->
  exists v, probability v /\ forall obstacle, cell_impact (oie_impact dexp oie (expected_obs obstacle)) view c = Ok v.
Proof.
  intros * Hp He Hn QL QR Hf E NG dexp view oie c cell NC V G. assert (I0 := fresh_inv proto infinity Hp _ Hf).
  destruct (ss_run_inv proto grow impact levels shift nan dcos dsin dacos mpi datan2 k Hp He Hn sm_reset sm_process ql qr margin o w h o' w' notes QL QR I0 E) as [I _].
  destruct (ainv_get _ _ _ _ I G) as [Gc Sc].
  assert (NG' : forall g, cell <> CGmapping g).
  { intros g ->. destruct Hp as [[]| |]; try exact Sc. apply NG. reflexivity. }
  assert (NC' : oie = OccupancyOie -> ~ is_consistent cell).
  { intros Q [t ->]. apply (NC Q). destruct proto as [x|x|x|x|x|x]; try contradiction Sc. eexists. reflexivity. }
  set (o0 := (dofZ 0, dofZ 0) : point F64).
  destruct (good_impact dexp oie o0 cell Gc NG' NC') as (v & Ev & Hv). exists v. split; [exact Hv|]. intros obstacle.
  assert (Ev' : oie_impact dexp oie (expected_obs obstacle) cell = Ok v).
  { unfold oie_impact in *. destruct oie; [rewrite (disc_place dexp cell obstacle o0 NG')|]; exact Ev. }
  unfold cell_impact. rewrite V, G. cbn [bind]. rewrite Ev'. cbn [bind]. rewrite (bounded_f01 v Hv). reflexivity.
Qed.
Print Assumptions C102_impacts_do_not_stop_the_run.

(** The particle filter: the same scores, for the map of every particle after any run. *)
Theorem C102_gmapping_scores_are_probabilities_or_nan :
  forall (SM G RV : Type) (sm_process : SM -> whole_scan F64 -> pose F64 -> amap F64 -> outcome (F64 * pose F64 * SM))
    (gcos gsin : F64 -> F64) (rv_sample : RV -> G -> pose F64 * RV * G) (rv_copy : RV -> RV) (rv_zero guess lim : RV) (seeds : nat -> G) (sm : SM) (particles : nat)
    (proto : acell F64) (infinity : F64) (grow : Z -> Z -> coord -> coord -> Z * Z * coord) (impact : acell F64 -> F64) (levels : nat)
    (shift nan : F64) (dcos dsin dacos : F64 -> F64) (mpi : F64) (datan2 : F64 -> F64 -> F64) (k : adder_config F64)
    (m0 : amap F64) (f : gfilter F64 (amap F64) SM G RV) (o : wobservers) (h : list (wevent F64 (whole_scan F64 * (nat -> F64)))) o' f' notes,
  prototype proto -> est01 (ac_est k) -> disnan nan = true -> fresh_map proto infinity m0 ->
  gf_new rv_sample rv_copy rv_zero guess lim seeds m0 sm particles = Ok f ->
  (forall s, In (EScan s) h -> probability (ts_quality s)) ->
  gf_run gcos gsin rv_sample rv_copy rv_zero sm_process (whole_append proto grow impact levels shift nan dcos dsin dacos mpi datan2 k) o f h = Ok (o', f', notes) ->
  forall (m : amap F64) (dexp : F64 -> F64) (view : omap F64 (acell F64)) (oie : oie_kind) (kind : oope_kind) (cells : nat) (swp : swp_kind)
    (weight : list (scan_point F64) -> Z -> outcome F64) (area : rect F64) (scan : whole_scan F64),
  In m (gf_maps f') -> exponential dexp -> sees m view -> weighting swp weight -> (Z.of_nat cells <= 2 ^ 53)%Z ->
  (forall s, In s (fst scan) -> single_point s) ->
  (forall pts p v, (forall s, In s pts -> In s (fst scan)) ->
     pose_score dexp dcos dsin datan2 oie kind cells weight area view scan pts p = Ok (Some v) -> probability_or_nan v) /\
  (forall (E : Type) (en : enumerator F64 E) obs fuel skip range e p q d e',
     scored_match dexp dcos dsin datan2 oie kind cells skip range weight area nan en obs fuel e scan p view = Ok (q, d, e') -> probability_or_nan q).
Proof.
  intros * Hp He Hn Hf Ef Hs E m dexp view oie kind cells swp weight area scan Hm X V HW Hb HF. assert (I := fresh_inv proto infinity Hp _ Hf).
  assert (If : ginv proto f).
  { revert Ef. unfold gf_new. destruct (gf_each _ _ _) as [hh| | |]; try discriminate. cbn [bind]. destruct (heaviest_ptr _ _) as [p| | |]; try discriminate. cbn [bind].
    intros Y. apply Ok_inj in Y. rewrite <- Y. constructor; [exact I|constructor]. }
  destruct (gf_run_inv proto grow impact levels shift nan dcos dsin dacos mpi datan2 k Hp He Hn gcos gsin rv_sample rv_copy rv_zero sm_process o f h o' f' notes If Hs E) as [A _].
  assert (Im := proj1 (Forall_forall _ _) A m Hm). split.
  - intros pts p v Hpts Y. eapply score_nan01; [exact Im|exact X|exact V|exact HW|exact Hb| |exact Y]. auto.
  - intros En en obs fuel skip range e p q d e' Y. eapply match_nan01; [exact Im|exact X|exact V|exact HW|exact Hb|exact Hn|exact HF|exact Y].
Qed.
Print Assumptions C102_gmapping_scores_are_probabilities_or_nan.

(** C54 in binary64 for GMapping's cells: for every cell and observation the discrepancy is a probability or NaN, and it is a
    probability when the obstacles are at finite places. *)
Lemma sub_notnan (x y : F64) : F_fin x = true -> F_fin y = true -> disnan (dsub x y) = false.
Proof.
  intros F F'. generalize (Bminus_correct 53 1024 eq_refl eq_refl binop_nan_pl64 mode_NE x y F F'). intros H. ovf_case H.
  - destruct H as [_ [H _]]. apply F_fin_nan. exact H.
  - destruct H as [H _]. apply B2FF_ovf in H. change (dsub x y) with (Binary.Bminus 53 1024 eq_refl eq_refl binop_nan_pl64 mode_NE x y). rewrite H. reflexivity.
Qed.
Theorem C54_gmapping_discrepancy_in_binary64 :
  forall (dexp : F64 -> F64) (c : gmcell F64) (a : aoo F64), exponential dexp ->
  probability_or_nan (gm_discrepancy dexp c a) /\
  (F_fin (ptx (g_obst c)) = true -> F_fin (pty (g_obst c)) = true -> F_fin (ptx (a_obst a)) = true -> F_fin (pty (a_obst a)) = true ->
   probability (gm_discrepancy dexp c a)).
Proof.
  intros dexp c a X. split; [apply gm_disc_nan01, X|]. intros F1 F2 F3 F4. unfold gm_discrepancy. apply f01_sub1.
  destruct (X (ddiv (dopp (dist_sq (g_obst c) (a_obst a))) gm_dist_variance)) as [_ Y]. apply Y, gm_arg_nonpos.
  unfold dist_sq. apply add_nneg; apply sq_nneg, sub_notnan; assumption.
Qed.
Print Assumptions C54_gmapping_discrepancy_in_binary64.

(** *** the two exceptions are real *)
Definition ex_pose0 : pose F64 := mkPose (dofZ 0) (dofZ 0) (dofZ 0).
Definition ex_area : rect F64 := mkRect (dlit (-1) 4) (dlit 1 4) (dlit (-1) 4) (dlit 1 4).
Definition ex_view (m : amap F64) : omap F64 (acell F64) := mkOmap 40 40 (20%Z, 20%Z) (dlit 1 2) (fun _ => true) (amap_get m).
Definition ex_score (oie : oie_kind) (kind : oope_kind) (scan : whole_scan F64) (m : amap F64) : outcome (option F64) :=
  pose_score (fun _ => dlit 1 2) ex_cos ex_sin (fun y _ => y) oie kind 100 even_weight ex_area (ex_view m) scan (fst scan) ex_pose0.
Definition cons_adder : adder_config F64 :=
  mkAdder (dlit 1 2) (ConstEst (mkOcc (dofZ 1) (dofZ 1)) (mkOcc (dofZ 0) (dofZ 1))) IdleOmqe (dofZ 50) (dofZ 0).
Definition cons_proto : acell F64 := new_cell TbmConsistent.
Definition cons_scan1 : whole_scan F64 := ex_scan [(dofZ 3, dlit 1 10)].
Definition cons_scan2 : whole_scan F64 := ex_scan [(dofZ 5, dlit 1 10)].
Definition cons_world : ss_world F64 (amap F64) unit := mkSS ex_pose0 (MUnbounded (pmap_new cons_proto 2 2)) tt [].
Definition cons_result : outcome (wobservers * ss_world F64 (amap F64) unit * list (wnote F64 (amap F64))) :=
  ss_run (fun s => s) (fun s _ _ _ => Ok (dofZ 1, mkPose (dofZ 0) (dofZ 0) (dofZ 0), s))
    (whole_append cons_proto (fun w h o _ => (w, h, o)) acell_prob 10 (dlit 1 200) ex_nan ex_cos ex_sin (fun x => dsub (dofZ 1) x) (dlit 314159 100000) (fun y _ => y) cons_adder)
    (dofZ 1) (dofZ 1) (dofZ 0) wo_new cons_world
    [EScan (mkTS ex_pose0 cons_scan1 (dofZ 1)); EScan (mkTS ex_pose0 cons_scan2 (dofZ 1))].
Definition stops {A} (r : outcome A) : bool := match r with Abort => true | _ => false end.
(** Cells of the class TbmOccConsistentCell with the occupancy impact: a wall is seen with certainty, then seen through with
    certainty; the cell becomes NaN, and scoring the first scan again fails the assertion.  With the discrepancy impact the
    same scan gets a score. *)
Definition cons_check : bool :=
  match cons_result with
  | Ok (_, w, _) =>
      stops (ex_score OccupancyOie ObstacleOope cons_scan1 (ss_map w)) &&
      match ex_score DiscrepancyOie ObstacleOope cons_scan1 (ss_map w) with Ok (Some v) => dle (dofZ 0) v && dle v (dofZ 1) | _ => false end
  | _ => false
  end.
Lemma cons_check_ok : cons_check = true.
Proof. vm_cast_no_check (eq_refl true). Qed.
Theorem C102_occupancy_of_consistent_cells_stops_the_program_refuted :
  exists o' w' notes, cons_result = Ok (o', w', notes) /\ ex_score OccupancyOie ObstacleOope cons_scan1 (ss_map w') = Abort.
Proof.
  assert (H := cons_check_ok). unfold cons_check in H. destruct cons_result as [[[o' w'] notes]| | |]; [|discriminate H|discriminate H|discriminate H].
  exists o', w', notes. split; [reflexivity|]. apply andb_true_iff in H as [H _]. revert H. generalize (ex_score OccupancyOie ObstacleOope cons_scan1 (ss_map w')).
  intros r H. destruct r; [discriminate H|reflexivity|discriminate H|discriminate H].
Qed.
Print Assumptions C102_occupancy_of_consistent_cells_stops_the_program_refuted.
(** GMapping's cells with the occupancy impact: any scan on a fresh map stops the program, its unknown cells report -1. *)
Theorem C102_occupancy_of_unknown_gmapping_cells_stops_the_program_refuted :
  ex_score OccupancyOie ObstacleOope cons_scan1 (MUnbounded (pmap_new (CGmapping gm_new) 2 2)) = Abort.
Proof.
  assert (H : stops (ex_score OccupancyOie ObstacleOope cons_scan1 (MUnbounded (pmap_new (CGmapping gm_new) 2 2))) = true) by (vm_cast_no_check (eq_refl true)).
  revert H. generalize (ex_score OccupancyOie ObstacleOope cons_scan1 (MUnbounded (pmap_new (CGmapping gm_new) 2 2))).
  intros r H. destruct r; [discriminate H|reflexivity|discriminate H|discriminate H].
Qed.
Print Assumptions C102_occupancy_of_unknown_gmapping_cells_stops_the_program_refuted.

(** *** the hypotheses are met: scores after the run of C94's example, with each estimator *)
Definition score_between (lo hi : F64) (r : outcome (option F64)) : bool := match r with Ok (Some v) => dle lo v && dle v hi | _ => false end.
Definition score_check : bool :=
  match ex_result with
  | Ok (_, w, _) =>
      forallb (fun kind => score_between (dlit 1 10) (dlit 9 10) (ex_score DiscrepancyOie kind (ex_scan [(dofZ 3, dlit 1 10); (dofZ 4, dlit 1 5)]) (ss_map w)))
        [ObstacleOope; MaxOope; MeanOope; OverlapOope]
  | _ => false
  end.
Example C102_example_scores : score_check = true.
Proof. vm_cast_no_check (eq_refl true). Qed.
Example C102_example_hypotheses :
  exponential (fun x => if disnan x then x else dlit 1 2) /\ weighting EvenSwp even_weight /\
  (forall m, sees m (ex_view m)) /\ (forall s, In s (fst cons_scan1) -> single_point s).
Proof.
  split; [|split; [constructor|split; [intros m c; reflexivity|]]].
  - intros x. split; [intros N; rewrite N; exact N|]. intros L. destruct (disnan x) eqn:N; [exfalso; destruct x; try discriminate N; discriminate L|apply f_lit01; lia].
  - intros s [<-|[]]. destruct (F_ofZ_correct 1 ltac:(cbn; lia)) as [O0 OF]. split; [exact OF|exact O0].
Qed.
