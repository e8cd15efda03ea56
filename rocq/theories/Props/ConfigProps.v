(** C50, C56-C58: configuration and command line. *)
From Coq Require Import Ascii String Reals ZArith List Bool Lia Lra.
From Verif.Base Require Import Outcome Num.
From Verif.Model Require Import Properties Cells Config.
From Verif.Spec Require Import PropertiesSpec ConfigSpec.
From Verif.Proofs Require Import PropertiesProofs.
Import ListNotations.
Local Open Scope string_scope.
Local Open Scope list_scope.
Local Open Scope Z_scope.

Lemma number_get_dbl {D} (stod : str -> outcome D) p key dflt v : number stod p key dflt v -> get_dbl stod p (lit key) dflt = Ok v.
Proof. unfold get_dbl. intros [(s & -> & E)|(-> & ->)]; [exact E|reflexivity]. Qed.

(** C50: the property is false.  The cells across are computed from the configured height and the cells up from the width. *)
Theorem C50_width_and_height_swapped_partial :
  forall (D : Type) (ops : DOps D) (stod : str -> outcome D) (p : props) (width height scale : D) (wc hc : Z),
  number stod p "slam/map/width_in_meters" (dofZ 10) width -> number stod p "slam/map/height_in_meters" (dofZ 10) height ->
  number stod p "slam/map/meters_per_cell" (dlit 1 10) scale ->
  ceil_int (ddiv width scale) = Ok wc -> ceil_int (ddiv height scale) = Ok hc ->
  init_grid_map_params stod p = Ok (hc, wc, scale) /\ (init_grid_map_params stod p = Ok (wc, hc, scale) <-> wc = hc).
Proof.
  intros D ops stod p width height scale wc hc Hw Hh Hs Ew Eh.
  assert (E : init_grid_map_params stod p = Ok (hc, wc, scale)).
  { unfold init_grid_map_params. rewrite (number_get_dbl _ _ _ _ _ Hw), (number_get_dbl _ _ _ _ _ Hh), (number_get_dbl _ _ _ _ _ Hs). cbn [bind]. rewrite Ew, Eh. reflexivity. }
  split; [exact E|]. rewrite E. split; [intros H; injection H; auto|intros ->; reflexivity].
Qed.
Print Assumptions C50_width_and_height_swapped_partial.
(** over the reals, the number of cells is the least one that covers the extent *)
Lemma ceil_int_R (x : R) z : ceil_int x = Ok z -> (IZR z - 1 < x <= IZR z)%R.
Proof.
  unfold ceil_int. cbn [dfloor dopp ROps to_int]. destruct (in_int _); [|discriminate]. intros E. injection E as <-. rewrite opp_IZR.
  assert (A := Flocq.Core.Raux.Zfloor_lb (- x)%R). assert (B := Flocq.Core.Raux.Zfloor_ub (- x)%R). lra.
Qed.
Theorem C50_size_in_meters_refuted :
  exists (stod : str -> outcome F64) (p : props) (width height scale : F64),
    number stod p "slam/map/width_in_meters" (dofZ 10) width /\ number stod p "slam/map/height_in_meters" (dofZ 10) height /\
    number stod p "slam/map/meters_per_cell" (dlit 1 10) scale /\
    ceil_int (ddiv width scale) = Ok 20 /\ ceil_int (ddiv height scale) = Ok 10 /\
    match init_grid_map_params stod p with Ok (w, h, _) => w = 10 /\ h = 20 | _ => False end.
Proof.
  exists (fun s => z <- stoi s ;; Ok (dofZ z))%out.
  exists (set_property (set_property (set_property no_props (lit "slam/map/width_in_meters") (lit "20")) (lit "slam/map/height_in_meters") (lit "10")) (lit "slam/map/meters_per_cell") (lit "1")).
  exists (dofZ 20), (dofZ 10), (dofZ 1).
  split; [left; eexists; split; [reflexivity|reflexivity]|]. split; [left; eexists; split; [reflexivity|reflexivity]|]. split; [left; eexists; split; [reflexivity|reflexivity]|].
  split; [vm_compute; reflexivity|]. split; [vm_compute; reflexivity|]. vm_compute. split; reflexivity.
Qed.
Print Assumptions C50_size_in_meters_refuted.
(** what was meant: a square area has the configured size *)
Theorem C50_square_maps_partial :
  forall (stod : str -> outcome R) (p : props) (extent scale : R) w h s,
  number stod p "slam/map/width_in_meters" (dofZ 10) extent -> number stod p "slam/map/height_in_meters" (dofZ 10) extent ->
  number stod p "slam/map/meters_per_cell" (dlit 1 10) scale -> (0 < scale)%R ->
  init_grid_map_params stod p = Ok (w, h, s) -> s = scale /\ w = h /\ (extent <= IZR w * scale < extent + scale)%R.
Proof.
  intros stod p extent scale w h s Hw Hh Hs Pos E. unfold init_grid_map_params in E.
  rewrite (number_get_dbl _ _ _ _ _ Hw), (number_get_dbl _ _ _ _ _ Hh), (number_get_dbl _ _ _ _ _ Hs) in E. cbn [bind] in E.
  destruct (ceil_int (ddiv extent scale)) as [z| | |] eqn:Ez; try discriminate E. cbn [bind] in E. injection E as <- <- <-.
  split; [reflexivity|]. split; [reflexivity|]. apply ceil_int_R in Ez. cbn [ddiv ROps] in Ez. unfold Rdiv in Ez.
  replace extent with (extent * / scale * scale)%R by (field; lra). split; [apply Rmult_le_compat_r; lra|]. 
  replace (extent * / scale * scale + scale)%R with ((extent * / scale + 1) * scale)%R by ring. apply Rmult_lt_compat_r; lra.
Qed.
Print Assumptions C50_square_maps_partial.
Example C50_case : exists (stod : str -> outcome R), number stod no_props "slam/map/width_in_meters" (dofZ 10) (dofZ 10).
Proof. exists (fun _ => Abort). right. split; reflexivity. Qed.

(** C56: components chosen by name. *)
Lemma setting_get_str p key dflt name : setting p key dflt name -> get_str p key dflt = name.
Proof. unfold get_str. intros [->|(-> & ->)]; reflexivity. Qed.
Lemma lit_neq a b : a <> b -> lit a <> lit b.
Proof. intros N E. apply N. rewrite <- (string_of_list_ascii_of_string a), <- (string_of_list_ascii_of_string b). unfold lit in E. rewrite E. reflexivity. Qed.
Ltac choose_by_name :=
  intros name Hn; cbv zeta; rewrite ?(setting_get_str _ _ _ _ Hn); split;
  [ intros n a I ->; cbn [In] in I; decompose [or] I; clear I; try contradiction;
    repeat match goal with H : (_, _) = (_, _) |- _ => injection H as <- <- end; vm_compute; reflexivity
  | intros H; repeat match goal with |- context [str_eqb name ?x] =>
      let E := fresh in destruct (str_eqb name x) eqn:E; [exfalso; apply str_eqb_eq in E; eapply H; [|exact E]; cbn; tauto|] end; reflexivity ].

Theorem C56_components_by_name :
  forall (p : props),
  chooses p "slam/mapping/grid/type" "<undefined>"
    [("plain", PlainKind); ("unbounded_plain", UnboundedPlainKind); ("lazy_tiled", LazyKind); ("unbounded_lazy_tiled", UnboundedLazyKind)]%string (init_map_kind p) /\
  chooses p "slam/mapping/grid/area/type" "<undefined>"
    [("tbm_consistent", TbmConsistent); ("tbm_unknown_even_occ", TbmUnknownEven); ("affine_quality_merge", AffineQuality); ("mean_probability", MeanProbability)]%string
    (init_occupied_area_model p) /\
  chooses p "slam/scmtch/oie/type" "discrepancy" [("discrepancy", DiscrepancyOie); ("occupancy", OccupancyOie)]%string (init_oie p) /\
  (forall oie, init_oie p = Ok oie -> chooses p "slam/scmtch/oope/type" "obstacle"
    [("obstacle", (ObstacleOope, oie)); ("max", (MaxOope, oie)); ("mean", (MeanOope, oie)); ("overlap", (OverlapOope, oie))]%string (init_oope p)) /\
  chooses p "slam/scmtch/spe/wmpp/weighting/type" "<undefined>" [("even", EvenSwp); ("viny", VinySwp); ("ahr", AhrSwp)]%string (init_swp p) /\
  chooses p "slam/mapping/observation_quality_estimator/typetype" "idle" [("idle", IdleOmqe); ("ahr", AhrOmqe)]%string (init_omqe p).
Proof.
  intros p. split; [|split; [|split; [|split; [|split]]]].
  - unfold init_map_kind. choose_by_name.
  - unfold init_occupied_area_model. choose_by_name.
  - unfold init_oie. choose_by_name.
  - intros oie Eo. unfold init_oope. rewrite Eo. choose_by_name.
  - unfold init_swp. choose_by_name.
  - unfold init_omqe. change (lit "slam/mapping/observation_quality_estimator/type" ++ lit "type") with (lit "slam/mapping/observation_quality_estimator/typetype"). choose_by_name.
Qed.
Print Assumptions C56_components_by_name.

(** the scan matcher: the estimators being fine, the matcher of that name with its own parameters, else termination; wrapped in
    the drift detector exactly if that is switched on *)
Theorem C56_scan_matcher_by_name :
  forall (D : Type) (ops : DOps D) (stod : str -> outcome D) (seed : Z) (deg : D -> D) (p : props) spe oope name,
  init_spe stod p = Ok spe -> init_oope p = Ok oope -> setting p (lit "slam/scmtch/type") (lit "<undefined>") name ->
  let made (m : outcome (sm_config (D := D))) := init_scan_matcher stod seed deg p = bind m (fun c => Ok (spe, oope, c, get_bool p (lit "slam/scmtch/use_amb_drift_detector") false)) in
  (name = lit "MC" -> made (init_mc stod seed p)) /\ (name = lit "HC" -> made (init_hc stod p)) /\
  (name = lit "BF" -> made (init_bf stod deg p)) /\ (name = lit "BF_M3RSM" -> made (init_bf_m3rsm stod deg p)) /\
  (name = lit "idle" -> made (Ok IdleConfig)) /\ (name = lit "HC_FIXED" -> made (Ok HcFixedConfig)) /\
  (name <> lit "MC" -> name <> lit "HC" -> name <> lit "BF" -> name <> lit "BF_M3RSM" -> name <> lit "idle" -> name <> lit "HC_FIXED" ->
   init_scan_matcher stod seed deg p = Abort).
Proof.
  intros D ops stod seed deg p spe oope name Es Eo Hn. cbv zeta. unfold init_scan_matcher. rewrite Es, Eo, (setting_get_str _ _ _ _ Hn). cbn [bind].
  split; [intros ->; reflexivity|]. split; [intros ->; reflexivity|]. split; [intros ->; reflexivity|]. split; [intros ->; reflexivity|].
  split; [intros ->; reflexivity|]. split; [intros ->; reflexivity|].
  intros N1 N2 N3 N4 N5 N6.
  repeat match goal with |- context [str_eqb name ?x] => let E := fresh in destruct (str_eqb name x) eqn:E; [exfalso; apply str_eqb_eq in E; contradiction|] end.
  reflexivity.
Qed.
Print Assumptions C56_scan_matcher_by_name.
Example C56_case : setting (set_property no_props (lit "slam/scmtch/type") (lit "HC")) (lit "slam/scmtch/type") (lit "<undefined>") (lit "HC").
Proof. left. reflexivity. Qed.

(** C57: parameters that are documented and do not reach anything. *)
Lemma set_property_other p k v id : k <> id -> set_property p k v id = p id.
Proof. intros N. unfold set_property. destruct (str_eqb k id) eqn:E; [apply str_eqb_eq in E; contradiction|reflexivity]. Qed.
Theorem C57_window_size_refuted :
  forall (D : Type) (ops : DOps D) (stod : str -> outcome D) (p : props) (v : str),
  init_gmapping_oope stod (set_property p (lit "slam/scmtch/oope/custom/window_size") v) = init_gmapping_oope stod p.
Proof. intros D ops stod p v. reflexivity. Qed.
Print Assumptions C57_window_size_refuted.
Theorem C57_skip_exceeding_refuted : forall (p : props) (v : str),
  get_skip_exceeding_lsr (set_property p (lit "ros/skip_exceeding_lsr_vals") v) = get_skip_exceeding_lsr p.
Proof. intros p v. reflexivity. Qed.
Theorem C57_omqe_refuted : forall (p : props) (v : str),
  init_omqe (set_property p (lit "slam/mapping/observation_quality_estimator/type") v) = init_omqe p.
Proof. intros p v. reflexivity. Qed.
(** the shipped config/common/bf_m3rsm.properties sets "limit/...", the code reads "limits/..." *)
Theorem C57_m3rsm_limits_refuted : forall (D : Type) (ops : DOps D) (stod : str -> outcome D) (deg : D -> D) (p : props) (x y r : str),
  init_bf_m3rsm stod deg (set_property (set_property (set_property p (lit "slam/scmtch/BF_M3RSM/limit/x_translation") x) (lit "slam/scmtch/BF_M3RSM/limit/y_translation") y)
    (lit "slam/scmtch/BF_M3RSM/limit/rotation") r) = init_bf_m3rsm stod deg p.
Proof. intros D ops stod deg p x y r. reflexivity. Qed.
Print Assumptions C57_m3rsm_limits_refuted.

(** the parameters of the matchers, the scan probability estimator and the occupancy estimator that do *)
Theorem C57_parameters_partial :
  forall (D : Type) (ops : DOps D) (stod : str -> outcome D) (seed : Z) (deg : D -> D) (p : props),
  let dbl key dflt v := number stod p key dflt v in
  let uint key dflt v := number (fun s => z <- stoul s ;; Ok (z mod 2 ^ 32))%out p key dflt v in
  (forall tr rot fl al sd, dbl "slam/scmtch/MC/dispersion/translation" (dlit 2 10) tr -> dbl "slam/scmtch/MC/dispersion/rotation" (dlit 1 10) rot ->
     uint "slam/scmtch/MC/dispersion/failed_attempts_limit" 20 fl -> uint "slam/scmtch/MC/attempts_limit" 100 al -> number stoi p "slam/scmtch/MC/seed" seed sd ->
     init_mc stod seed p = Ok (McConfig sd tr rot fl al)) /\
  (forall tr rot fl, dbl "slam/scmtch/HC/distortion/translation" (dlit 1 10) tr -> dbl "slam/scmtch/HC/distortion/rotation" (dlit 1 10) rot ->
     uint "slam/scmtch/HC/distortion/failed_attempts_limit" 6 fl ->
     init_hc stod p = Ok (HcConfig fl tr rot (get_bool p (lit "slam/scmtch/HC/use_frame_alignement") false))) /\
  (forall x0 x1 x2 y0 y1 y2 t0 t1 t2,
     dbl "slam/scmtch/BF/x/from" (dopp (dlit 1 2)) x0 -> dbl "slam/scmtch/BF/x/to" (dlit 1 2) x1 -> dbl "slam/scmtch/BF/x/step" (dlit 1 10) x2 ->
     dbl "slam/scmtch/BF/y/from" (dopp (dlit 1 2)) y0 -> dbl "slam/scmtch/BF/y/to" (dlit 1 2) y1 -> dbl "slam/scmtch/BF/y/step" (dlit 1 10) y2 ->
     dbl "slam/scmtch/BF/t/from" (dopp (deg (dofZ 5))) t0 -> dbl "slam/scmtch/BF/t/to" (deg (dofZ 5)) t1 -> dbl "slam/scmtch/BF/t/step" (deg (dofZ 1)) t2 ->
     init_bf stod deg p = Ok (BfConfig (x0, x1, x2) (y0, y1, y2) (t0, t1, t2))) /\
  (forall skip range swp, p (lit "slam/scmtch/spe/type") = Some (lit "wmpp") -> uint "slam/scmtch/spe/wmpp/sp_skip_rate" 0 skip ->
     dbl "slam/scmtch/spe/wmpp/sp_max_usable_range" (dofZ (-1)) range -> init_swp p = Ok swp -> init_spe stod p = Ok (skip, range, swp)) /\
  (forall op oq ep eq, dbl "slam/occupancy_estimator/base_occupied/prob" (dlit 95 100) op -> dbl "slam/occupancy_estimator/base_occupied/qual" (dofZ 1) oq ->
     dbl "slam/occupancy_estimator/base_empty/prob" (dlit 1 100) ep -> dbl "slam/occupancy_estimator/base_empty/qual" (dofZ 1) eq ->
     chooses p "slam/occupancy_estimator/type" "const" [("const", ConstEst (mkOcc op oq) (mkOcc ep eq)); ("area", AreaEst (mkOcc op oq) (mkOcc ep eq))]%string (init_occ_estimator stod p)).
Proof.
  intros D ops stod seed deg p dbl uint.
  assert (U : forall key dflt v, uint key dflt v -> get_uint p (lit key) dflt = Ok v).
  { intros key dflt v [(s & E & C)|(E & ->)]; unfold get_uint; rewrite E; [exact C|reflexivity]. }
  assert (GI : forall key dflt v, number stoi p key dflt v -> get_int p (lit key) dflt = Ok v).
  { intros key dflt v [(s & E & C)|(E & ->)]; unfold get_int; rewrite E; [exact C|reflexivity]. }
  assert (G : forall key dflt v, dbl key dflt v -> get_dbl stod p (lit key) dflt = Ok v) by (intros key dflt v; apply number_get_dbl).
  split; [|split; [|split; [|split]]].
  - intros tr rot fl al sd H1 H2 H3 H4 H5. unfold init_mc. rewrite (G _ _ _ H1), (G _ _ _ H2), (U _ _ _ H3), (U _ _ _ H4), (GI _ _ _ H5). reflexivity.
  - intros tr rot fl H1 H2 H3. unfold init_hc. rewrite (G _ _ _ H1), (G _ _ _ H2), (U _ _ _ H3). reflexivity.
  - intros x0 x1 x2 y0 y1 y2 t0 t1 t2 H1 H2 H3 H4 H5 H6 H7 H8 H9. unfold init_bf, bf_range.
    change (lit "slam/scmtch/BF/" ++ lit "x" ++ lit "/from") with (lit "slam/scmtch/BF/x/from"). change (lit "slam/scmtch/BF/" ++ lit "x" ++ lit "/to") with (lit "slam/scmtch/BF/x/to").
    change (lit "slam/scmtch/BF/" ++ lit "x" ++ lit "/step") with (lit "slam/scmtch/BF/x/step"). change (lit "slam/scmtch/BF/" ++ lit "y" ++ lit "/from") with (lit "slam/scmtch/BF/y/from").
    change (lit "slam/scmtch/BF/" ++ lit "y" ++ lit "/to") with (lit "slam/scmtch/BF/y/to"). change (lit "slam/scmtch/BF/" ++ lit "y" ++ lit "/step") with (lit "slam/scmtch/BF/y/step").
    change (lit "slam/scmtch/BF/" ++ lit "t" ++ lit "/from") with (lit "slam/scmtch/BF/t/from"). change (lit "slam/scmtch/BF/" ++ lit "t" ++ lit "/to") with (lit "slam/scmtch/BF/t/to").
    change (lit "slam/scmtch/BF/" ++ lit "t" ++ lit "/step") with (lit "slam/scmtch/BF/t/step").
    rewrite (G _ _ _ H1), (G _ _ _ H2), (G _ _ _ H3). cbn [bind]. rewrite (G _ _ _ H4), (G _ _ _ H5), (G _ _ _ H6). cbn [bind].
    rewrite (G _ _ _ H7), (G _ _ _ H8), (G _ _ _ H9). reflexivity.
  - intros skip range swp Ht H1 H2 H3. unfold init_spe. unfold get_str. rewrite Ht. change (str_eqb (lit "wmpp") (lit "wmpp")) with true. cbv iota.
    rewrite (U _ _ _ H1), (G _ _ _ H2), H3. reflexivity.
  - intros op oq ep eq H1 H2 H3 H4. unfold init_occ_estimator. rewrite (G _ _ _ H1), (G _ _ _ H2), (G _ _ _ H3), (G _ _ _ H4). cbn [bind]. choose_by_name.
Qed.
Print Assumptions C57_parameters_partial.

(** the boolean switches: off by default; when set, on exactly if the value is neither "false" nor "0" *)
Theorem C57_switches_partial : forall (p : props),
  let switch key b := (p (lit key) = None -> b = false) /\ (forall v, p (lit key) = Some v -> (b = true <-> v <> lit "false" /\ v <> lit "0")) in
  switch "slam/performance/use_trig_cache" (get_use_trig_cache p) /\ switch "in/lscan2D/skip_exceeding_vals" (get_skip_exceeding_lsr p) /\
  (forall (D : Type) (ops : DOps D) (stod : str -> outcome D) (fl : Z) (tr rot : D) (b : bool), init_hc stod p = Ok (HcConfig fl tr rot b) -> switch "slam/scmtch/HC/use_frame_alignement" b) /\
  (forall (D : Type) (ops : DOps D) (stod : str -> outcome D) (seed : Z) (deg : D -> D) spe oope c (b : bool), init_scan_matcher stod seed deg p = Ok (spe, oope, c, b) ->
     switch "slam/scmtch/use_amb_drift_detector" b).
Proof.
  intros p switch.
  assert (Sw : forall key, switch key (get_bool p (lit key) false)).
  { intros key. unfold switch, get_bool. split; [intros ->; reflexivity|]. intros v ->. rewrite negb_true_iff, orb_false_iff.
    split; intros [A B]; split.
    - intros ->. discriminate A.
    - intros ->. discriminate B.
    - destruct (str_eqb v (lit "false")) eqn:E; [apply str_eqb_eq in E; contradiction|reflexivity].
    - destruct (str_eqb v (lit "0")) eqn:E; [apply str_eqb_eq in E; contradiction|reflexivity]. }
  split; [apply Sw|]. split; [apply Sw|]. split.
  - intros D ops stod fl tr rot b. unfold init_hc. intros E.
    repeat match type of E with bind ?x _ = _ => destruct x; cbn [bind] in E; try discriminate E end. injection E as _ _ _ <-. apply Sw.
  - intros D ops stod seed deg spe oope c b. unfold init_scan_matcher. intros E.
    repeat match type of E with bind ?x _ = _ => destruct x; cbn [bind] in E; try discriminate E end. injection E as _ _ _ <-. apply Sw.
Qed.
Print Assumptions C57_switches_partial.

(** C58: the command line of the bag runner.  Every command line is a sequence of positional arguments, switches, options with
    and options without a value; it is accepted exactly if there are two positional arguments, and the values are those given. *)
Lemma dashed_flag a : dashed a <-> is_flag a = true.
Proof.
  unfold dashed, is_flag. destruct a as [|c a]; split.
  - intros (s & H). discriminate H.
  - discriminate.
  - intros (s & H). injection H as -> ->. reflexivity.
  - intros H. apply Ascii.eqb_eq in H. subst c. exists a. reflexivity.
Qed.
Lemma not_dashed_flag a : ~ dashed a <-> is_flag a = false.
Proof. rewrite dashed_flag. destruct (is_flag a); split; congruence. Qed.
Lemma str_eqb_neq a b : a <> b -> str_eqb a b = false.
Proof. intros N. destruct (str_eqb a b) eqn:E; [apply str_eqb_eq in E; contradiction|reflexivity]. Qed.

Definition apply_opt (r : prog_args) (i : item) : prog_args :=
  match i with Verbose => set_verbose r | Opt f v => take_flag r f v | _ => r end.
Fixpoint apply_items (r : prog_args) (id : nat) (is : list item) : prog_args * nat :=
  match is with
  | [] => (r, id)
  | Pos a :: is => apply_items (take_mandatory r id a) (S id) is
  | i :: is => apply_items (apply_opt r i) id is
  end.
Lemma loop_items : forall is r id, items_ok is -> args_loop r id [] (flat_map words is) = apply_items r id is /\
  ((forall a is', is <> Pos a :: is') -> forall f, args_loop r id f (flat_map words is) = apply_items r id is).
Proof.
  induction is as [|i is IH]; intros r id H.
  - split; [reflexivity|intros; reflexivity].
  - inversion H; subst; cbn [flat_map words app].
    + split; [|intros N; exfalso; eapply N; reflexivity]. cbn [args_loop apply_items]. assert (Fa : is_flag a = false) by (apply not_dashed_flag; assumption). rewrite Fa. refine (proj1 (IH _ _ _)). assumption.
    + split; intros; cbn [args_loop apply_items]; change (is_flag (lit "-v")) with true; change (str_eqb (lit "-v") (lit "-v")) with true; cbv iota; refine (proj1 (IH _ _ _)); assumption.
    + assert (E : forall f0, args_loop r id f0 (f :: v :: flat_map words is) = apply_items (take_flag r f v) id is).
      { intros f0. cbn [args_loop]. assert (Ff := H2). apply dashed_flag in Ff. rewrite Ff, (str_eqb_neq _ _ H3). apply not_dashed_flag in H4. rewrite H4.
        destruct H2 as (s & ->). refine (proj1 (IH _ _ _)). exact H5. }
      split; [exact (E [])|intros _ f0; exact (E f0)].
    + assert (E : forall f0, args_loop r id f0 (f :: flat_map words is) = apply_items r id is).
      { intros f0. cbn [args_loop]. apply dashed_flag in H2. rewrite H2, (str_eqb_neq _ _ H3). apply (proj2 (IH r id H4)). exact H5. }
      split; [exact (E [])|intros _ f0; exact (E f0)].
Qed.
(** every command line can be read like that *)
Lemma items_exist : forall argv, exists is, items_ok is /\ flat_map words is = argv.
Proof.
  intros argv. remember (length argv) as n eqn:Hn. assert (Hl : (length argv <= n)%nat) by lia. clear Hn. revert argv Hl.
  induction n as [|n IH]; intros argv Hl.
  - destruct argv; [|cbn in Hl; lia]. exists []. split; [constructor|reflexivity].
  - destruct argv as [|a argv]; [exists []; split; [constructor|reflexivity]|]. cbn in Hl.
    destruct (is_flag a) eqn:F.
    + destruct (str_eqb a (lit "-v")) eqn:V.
      * apply str_eqb_eq in V. subst a. destruct (IH argv ltac:(lia)) as (is & O & E). exists (Verbose :: is). split; [constructor; exact O|cbn [flat_map words app]; rewrite E; reflexivity].
      * assert (Nv : a <> lit "-v") by (intros ->; discriminate V). destruct argv as [|v argv].
        -- exists [Dangling a]. split; [|reflexivity]. constructor; [apply dashed_flag; exact F|exact Nv|constructor|discriminate].
        -- destruct (is_flag v) eqn:Fv.
           ++ destruct (IH (v :: argv) ltac:(lia)) as (is & O & E). exists (Dangling a :: is). split; [|cbn [flat_map words app]; rewrite E; reflexivity].
              constructor; [apply dashed_flag; exact F|exact Nv|exact O|]. intros b is' ->. inversion O; subst. cbn [flat_map words app] in E. injection E as -> _.
              apply dashed_flag in Fv. contradiction.
           ++ cbn in Hl. destruct (IH argv ltac:(lia)) as (is & O & E). exists (Opt a v :: is). split; [|cbn [flat_map words app]; rewrite E; reflexivity].
              constructor; [apply dashed_flag; exact F|exact Nv|apply not_dashed_flag; exact Fv|exact O].
    + destruct (IH argv ltac:(lia)) as (is & O & E). exists (Pos a :: is). split; [constructor; [apply not_dashed_flag; exact F|exact O]|cbn [flat_map words app]; rewrite E; reflexivity].
Qed.

Lemma apply_items_spec : forall is r id,
  let (r', id') := apply_items r id is in
  id' = (id + length (positionals is))%nat /\
  (pa_valid r' = true <-> pa_valid r = true /\ (length (positionals is) = 0%nat \/ id' <= 2)%nat) /\
  pa_type r' = (match id with 0%nat => nth 0 (positionals is) (pa_type r) | _ => pa_type r end) /\
  pa_bag r' = (match id with 0%nat => nth 1 (positionals is) (pa_bag r) | 1%nat => nth 0 (positionals is) (pa_bag r) | _ => pa_bag r end) /\
  pa_props r' = pa_props r ++ values (lit "-p") is /\
  pa_traj r' = (match rev (values (lit "-t") is) with v :: _ => Some v | [] => pa_traj r end) /\
  pa_map r' = (match rev (values (lit "-m") is) with v :: _ => v | [] => pa_map r end) /\
  (pa_verbose r' = true <-> pa_verbose r = true \/ In Verbose is).
Proof.
  assert (Rc : forall (A B : Type) (l : list A) (v : A) (g : A -> B) (d : B), match rev (v :: l) with w :: _ => g w | [] => d end = match rev l with w :: _ => g w | [] => g v end).
  { intros A B l v g d. cbn [rev]. destruct (rev l); reflexivity. }
  induction is as [|i is IH]; intros r id; [|destruct i as [a| |f v|f]]; cbn [apply_items].
  - cbn. rewrite app_nil_r. repeat match goal with |- _ /\ _ => split end; try lia; try reflexivity; try tauto.
    + destruct id; reflexivity.
    + destruct id as [|[]]; reflexivity.
  - specialize (IH (take_mandatory r id a) (S id)). destruct (apply_items (take_mandatory r id a) (S id) is) as [r' id'].
    destruct IH as (A1 & A2 & A3 & A4 & A5 & A6 & A7 & A8). change (positionals (Pos a :: is)) with (a :: positionals is). change (fun g => values g (Pos a :: is)) with (fun g => values g is). cbn [length].
    change (values (lit "-p") (Pos a :: is)) with (values (lit "-p") is). change (values (lit "-t") (Pos a :: is)) with (values (lit "-t") is). change (values (lit "-m") (Pos a :: is)) with (values (lit "-m") is).
    split; [lia|]. split; [|split; [|split; [|split; [|split; [|split]]]]].
    + destruct id as [|[|id]]; cbn [take_mandatory pa_valid] in A2; rewrite A2; split; intros [X Y]; split; try exact X; try (right; lia); try lia; try discriminate X.
    + rewrite A3. destruct id as [|[|id]]; reflexivity.
    + rewrite A4. destruct id as [|[|id]]; reflexivity.
    + rewrite A5. destruct id as [|[|id]]; reflexivity.
    + rewrite A6. destruct id as [|[|id]]; reflexivity.
    + rewrite A7. destruct id as [|[|id]]; reflexivity.
    + rewrite A8. destruct id as [|[|id]]; cbn; intuition discriminate.
  - specialize (IH (set_verbose r) id). destruct (apply_items (apply_opt r Verbose) id is) as [r' id'] eqn:E. cbn [apply_opt] in E. rewrite E in IH.
    destruct IH as (A1 & A2 & A3 & A4 & A5 & A6 & A7 & A8). cbn [positionals flat_map values app] in *. unfold set_verbose in *. cbn [pa_valid pa_type pa_bag pa_props pa_traj pa_map pa_verbose] in *.
    split; [exact A1|]. split; [exact A2|]. split; [exact A3|]. split; [exact A4|]. split; [exact A5|]. split; [exact A6|]. split; [exact A7|].
    rewrite A8. split; [intros _; right; left; reflexivity|intros _; left; reflexivity].
  - specialize (IH (take_flag r f v) id). destruct (apply_items (apply_opt r (Opt f v)) id is) as [r' id'] eqn:E. cbn [apply_opt] in E. rewrite E in IH.
    destruct IH as (A1 & A2 & A3 & A4 & A5 & A6 & A7 & A8). cbn [positionals flat_map app] in *.
    assert (V : forall g, values g (Opt f v :: is) = (if str_eqb f g then [v] else []) ++ values g is) by reflexivity. rewrite !V.
    assert (Iv : In Verbose (Opt f v :: is) <-> In Verbose is) by (cbn; intuition discriminate). rewrite Iv. clear V Iv E.
    unfold take_flag in *. destruct (str_eqb f (lit "-p")) eqn:E1; [|destruct (str_eqb f (lit "-t")) eqn:E2; [|destruct (str_eqb f (lit "-m")) eqn:E3]].
    + apply str_eqb_eq in E1. subst f. change (str_eqb (lit "-p") (lit "-t")) with false. change (str_eqb (lit "-p") (lit "-m")) with false. cbn [app].
      cbn [pa_valid pa_type pa_bag pa_props pa_traj pa_map pa_verbose] in *. rewrite <- app_assoc in A5. cbn [app] in A5. tauto.
    + apply str_eqb_eq in E2. subst f. change (str_eqb (lit "-t") (lit "-m")) with false. cbn [app]. cbn [pa_valid pa_type pa_bag pa_props pa_traj pa_map pa_verbose] in *.
      rewrite (Rc _ _ _ v Some). tauto.
    + apply str_eqb_eq in E3. subst f. cbn [app]. cbn [pa_valid pa_type pa_bag pa_props pa_traj pa_map pa_verbose] in *. rewrite (Rc _ _ _ v (fun w => w)). tauto.
    + cbn [app]. tauto.
  - specialize (IH r id). cbn [apply_opt]. destruct (apply_items r id is) as [r' id']. cbn [positionals flat_map values app] in *.
    assert (Iv : In Verbose (Dangling f :: is) <-> In Verbose is) by (cbn; intuition discriminate). rewrite Iv. exact IH.
Qed.

Theorem C58_command_line : forall (argv : list str),
  exists is, items_ok is /\ flat_map words is = argv /\
    let r := args_init argv in
    (pa_valid r = true <-> length (positionals is) = 2%nat) /\
    pa_type r = nth 0 (positionals is) [] /\ pa_bag r = nth 1 (positionals is) [] /\
    pa_props r = values (lit "-p") is /\
    pa_traj r = (match rev (values (lit "-t") is) with v :: _ => Some v | [] => None end) /\
    pa_map r = (match rev (values (lit "-m") is) with v :: _ => v | [] => [] end) /\
    (pa_verbose r = true <-> In Verbose is).
Proof.
  intros argv. destruct (items_exist argv) as (is & O & E). exists is. split; [exact O|]. split; [exact E|].
  unfold args_init. rewrite <- E, (proj1 (loop_items is args0 0%nat O)). assert (S := apply_items_spec is args0 0%nat). destruct (apply_items args0 0 is) as [r id].
  destruct S as (A1 & A2 & A3 & A4 & A5 & A6 & A7 & A8). cbn [args0 pa_valid pa_type pa_bag pa_props pa_traj pa_map pa_verbose app] in *. cbn zeta.
  split; [|split; [exact A3|split; [exact A4|split; [exact A5|split; [exact A6|split; [exact A7|]]]]]].
  - rewrite andb_true_iff, Nat.eqb_eq, A2. cbn [Nat.add] in A1. split; [intros [_ X]; lia|]. intros X. split; [split; [reflexivity|right; lia]|lia].
  - rewrite A8. intuition discriminate.
Qed.
Print Assumptions C58_command_line.
Example C58_case : let r := args_init [lit "-v"; lit "tiny"; lit "-p"; lit "a.properties"; lit "-m"; lit "-t"; lit "traj"; lit "x.bag"] in
  (pa_valid r, pa_type r, pa_bag r, pa_props r, pa_traj r, pa_map r, pa_verbose r) = (true, lit "tiny", lit "x.bag", [lit "a.properties"], Some (lit "traj"), [], true).
Proof. vm_compute. reflexivity. Qed.
Example C58_case_3 : pa_valid (args_init [lit "a"; lit "b"; lit "c"]) = false.
Proof. reflexivity. Qed.
