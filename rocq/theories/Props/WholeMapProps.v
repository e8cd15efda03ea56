(** C95: the map a run builds is what its scans say, seen from the corrected poses.
    C96: an unbounded map's class and initial size do not matter. *)
From Coq Require Import Reals ZArith List Bool Lia Lra.
From Flocq Require Import Core.
From Verif.Base Require Import Outcome Num F64Facts.
From Verif.Model Require Import MathUtils Geometry Grid PlainMap LazyMap Cells Sensor ScanAdder Histogram AreaEstimator World Config WholeSlam.
From Verif.Spec Require Import GeometrySpec MapSpec ScanSpec ManyMapsSpec WholeMapSpec.
From Verif.Proofs Require Import AreaRange ScanAdderProofs WholeExact.
Import ListNotations.

(** Whatever scan matcher, odometry, observers, cell class, estimators, blurring and quality settings; any of the four map classes
    and any size: while the matcher answers and the scans can be inserted at the corrected poses, the run goes on; its pose is
    the last corrected pose, and every cell is the prototype with all the observations of the scans in their order. *)
Theorem C95_map_is_what_the_scans_say :
  forall (SM : Type) (sm_reset : SM -> SM) (sm_process : SM -> whole_scan F64 -> pose F64 -> amap F64 -> outcome (F64 * pose F64 * SM))
    (proto : acell F64) (grow : Z -> Z -> coord -> coord -> Z * Z * coord) (impact : acell F64 -> F64) (bound : nat)
    (shift nan : F64) (dcos dsin dacos : F64 -> F64) (mpi : F64) (datan2 : F64 -> F64 -> F64) (k : adder_config F64) (margin : nat)
    (ql qr : F64) (kind : map_kind) (w h B : Z) (o : wobservers) (wd : ss_world F64 (amap F64) SM) (history : list (wevent F64 (whole_scan F64))),
  let run := ss_run sm_reset sm_process (whole_append proto grow impact bound shift nan dcos dsin dacos mpi datan2 k) ql qr (dofZ (Z.of_nat margin)) in
  let insert := insertable shift nan dcos dsin dacos mpi datan2 k margin (area kind w h B) in
  F_fin (ac_scale k) = true -> (0 < F2R64 (ac_scale k) <= bpow radix2 900)%R -> size_ok kind w h B ->
  new_amap proto kind w h = Ok (ss_map wd) ->
  (forall h1 s h2 o1 w1 n1, history = h1 ++ EScan s :: h2 -> run o wd h1 = Ok (o1, w1, n1) -> goes_on sm_reset sm_process insert w1 s) ->
  exists o' w' notes corrections, run o wd history = Ok (o', w', notes) /\
    ss_log w' = ss_log wd ++ corrections /\ length corrections = length (all_scans history) /\
    let es := mapped ql qr (ss_pose wd) (all_scans history) corrections in
    ss_pose w' = last_pose (ss_pose wd) es /\
    forall c, readable kind w h c -> amap_get (ss_map w') c = Ok (cell_of shift nan dcos dsin dacos mpi datan2 k margin proto es c).
Proof.
  intros * Fs Hs Hz Hm HG.
  destruct (run_exact proto grow impact bound shift nan dcos dsin dacos mpi datan2 k margin Fs Hs kind w h B Hz sm_reset sm_process ql qr (ss_map wd) Hm history o wd [] eq_refl)
    as (o' & w' & notes & ds & l & Er & El & Ed & Eu & Al & Ol & Ep); [intros u []|exact HG|].
  exists o', w', notes, ds. do 3 (split; [assumption|]). cbv zeta. split; [exact Ep|]. intros c Hc.
  destruct (kind_refines proto grow impact bound kind w h B l (ss_map wd) Hz Al Hm) as (m & Em & HR).
  cbn [app] in Eu. assert (X : m = ss_map w') by congruence. subst m. rewrite HR by exact Hc. unfold cell_of. rewrite Ol. reflexivity.
Qed.
Print Assumptions C95_map_is_what_the_scans_say.

(** With a constant occupancy estimator, equal qualities and plain trigonometry (the settings tinySLAM starts with) only beams that
    leave the area of the map, and margins above the number of points, prevent an insertion. *)
Theorem C95_constant_estimates_are_always_given :
  forall (shift nan : F64) (dcos dsin dacos : F64 -> F64) (mpi : F64) (datan2 : F64 -> F64 -> F64) (k : adder_config F64) (margin : nat)
    (in_area : coord -> Prop) (p : pose F64) (pts : list (scan_point F64)) (tcos tsin : F64 -> F64) a b,
  ac_est k = ConstEst a b -> ac_omqe k = IdleOmqe -> (Z.of_nat (length pts) < 2 ^ 52)%Z -> (margin < length pts)%nat ->
  (forall i pt, In (i, pt) (numbered margin pts) ->
     let r := sp_angle datan2 pt in
     let beam := mkSegment (px p, py p) (dadd (px p) (dmul (sp_range pt) (tcos (dadd (pth p) r))), dadd (py p) (dmul (sp_range pt) (tsin (dadd (pth p) r)))) in
     too_long (ac_range k) beam = false ->
     fin_point (sbeg beam) /\ fin_point (send beam) /\
     exists c0 c1, world_to_cell (ac_scale k) (sbeg beam) = Ok c0 /\ in_area c0 /\ world_to_cell (ac_scale k) (send beam) = Ok c1 /\ in_area c1) ->
  insertable shift nan dcos dsin dacos mpi datan2 k margin in_area p (pts, raw_trig tcos tsin).
Proof.
  intros * Ee Eo Hl Hm H. right. cbn [fst snd]. do 2 (split; [assumption|]). rewrite Eo. split; [exists None; reflexivity|].
  intros i pt Hin. split. { unfold rated. rewrite Eo. cbn [omqe_reset bind omqe_quality]. eexists. reflexivity. }
  split; [eexists; reflexivity|]. split; [eexists; reflexivity|]. intros HT. destruct (H i pt Hin HT) as (F1 & F2 & c0 & c1 & E0 & A0 & E1 & A1).
  do 2 (split; [assumption|]). exists c0, c1. do 4 (split; [assumption|]). intros c _. rewrite Ee. eexists. reflexivity.
Qed.
Print Assumptions C95_constant_estimates_are_always_given.

(** Two unbounded maps, plainly stored or lazily tiled, of any initial sizes, for which the area [within B] is small enough: a run
    whose scan matcher only reads the map ends in the same way on both, with the same poses, the same corrections, the same
    announcements, and maps that read the same everywhere. *)
Theorem C96_map_class_and_size_do_not_matter :
  forall (SM : Type) (sm_reset : SM -> SM) (look : SM -> whole_scan F64 -> pose F64 -> (coord -> outcome (acell F64)) -> outcome (F64 * pose F64 * SM))
    (proto : acell F64) (grow : Z -> Z -> coord -> coord -> Z * Z * coord) (impact : acell F64 -> F64) (bound : nat)
    (shift nan : F64) (dcos dsin dacos : F64 -> F64) (mpi : F64) (datan2 : F64 -> F64 -> F64) (k : adder_config F64) (margin : nat)
    (ql qr : F64) (kind1 kind2 : map_kind) (w1 h1 w2 h2 B : Z) (o : wobservers) (wa wb : ss_world F64 (amap F64) SM)
    (history : list (wevent F64 (whole_scan F64))),
  let run := ss_run sm_reset (reading look) (whole_append proto grow impact bound shift nan dcos dsin dacos mpi datan2 k) ql qr (dofZ (Z.of_nat margin)) in
  let insert := insertable shift nan dcos dsin dacos mpi datan2 k margin (within B) in
  (forall sm s p f g, (forall c, f c = g c) -> look sm s p f = look sm s p g) ->
  F_fin (ac_scale k) = true -> (0 < F2R64 (ac_scale k) <= bpow radix2 900)%R ->
  bounded_kind kind1 = false -> size_ok kind1 w1 h1 B -> new_amap proto kind1 w1 h1 = Ok (ss_map wa) ->
  bounded_kind kind2 = false -> size_ok kind2 w2 h2 B -> new_amap proto kind2 w2 h2 = Ok (ss_map wb) ->
  ss_pose wa = ss_pose wb -> ss_sm wa = ss_sm wb -> ss_log wa = ss_log wb ->
  (forall h1 s h2 o1 w1 n1, history = h1 ++ EScan s :: h2 -> run o wa h1 = Ok (o1, w1, n1) -> goes_on sm_reset (reading look) insert w1 s) ->
  exists o' wa' wb' na nb, run o wa history = Ok (o', wa', na) /\ run o wb history = Ok (o', wb', nb) /\
    ss_pose wa' = ss_pose wb' /\ ss_sm wa' = ss_sm wb' /\ ss_log wa' = ss_log wb' /\
    same_cells (ss_map wa') (ss_map wb') /\ Forall2 same_note na nb.
Proof.
  intros * Hlook Fs Hs U1 Hz1 Hm1 U2 Hz2 Hm2 Ep Es El HG.
  exact (twins_run proto grow impact bound shift nan dcos dsin dacos mpi datan2 k margin Fs Hs kind1 kind2 w1 h1 w2 h2 B Hz1 Hz2 U1 U2 sm_reset look ql qr Hlook
    (ss_map wa) (ss_map wb) Hm1 Hm2 history o wa wb [] Ep Es El eq_refl eq_refl (fun u H => match H with end) HG).
Qed.
Print Assumptions C96_map_class_and_size_do_not_matter.

(** *** two scans of four points, of which the first and the last are trimmed; the matcher reads a cell and always corrects the pose *)
Definition x_cos (x : F64) : F64 := dsub (dofZ 1) (ddiv (dmul x x) (dofZ 2)).
Definition x_sin (x : F64) : F64 := x.
Definition x_nan : F64 := ddiv (dofZ 0) (dofZ 0).
Definition x_k : adder_config F64 :=
  mkAdder (dlit 1 2) (ConstEst (mkOcc (dlit 19 20) (dofZ 1)) (mkOcc (dlit 1 100) (dofZ 1))) IdleOmqe (dofZ 50) (dlit 11 10).
Definition x_pts (r : Z) : list (scan_point F64) :=
  map (fun p => sp_make_polar (fst p) (snd p) true) [(x_nan, dofZ 0); (dofZ r, dlit 1 10); (dlit (2 * r + 1) 2, dlit (-1) 5); (x_nan, dofZ 0)].
Definition x_scan (r : Z) : tr_scan F64 (whole_scan F64) := mkTS (mkPose (dlit 1 10) (dlit 1 20) (dlit 1 30)) (x_pts r, raw_trig x_cos x_sin) (dofZ 1).
Definition x_corr : pose F64 := mkPose (dlit 1 5) (dofZ 0) (dofZ 0).
Definition x_look (sm : unit) (s : whole_scan F64) (p : pose F64) (f : coord -> outcome (acell F64)) : outcome (F64 * pose F64 * unit) :=
  (v <- f (0, 0)%Z ;; Ok (acell_prob v, x_corr, tt))%out.
Definition x_history : list (wevent F64 (whole_scan F64)) := [ESubMap 7; EScan (x_scan 3); EScan (x_scan 4)].
Definition x_proto : acell F64 := new_cell TbmUnknownEven.
Definition x_start : pose F64 := mkPose (dofZ 0) (dofZ 0) (dofZ 0).
Definition x_at (p : pose F64) (r : Z) : pose F64 := pose_add (pose_add p (ts_delta (x_scan r))) x_corr.
Notation x_atan2 := (fun y x : F64 => y).
Notation x_adder := (whole_append x_proto (fun w h o _ => (w, h, o)) acell_prob 10 (dlit 1 200) x_nan x_cos x_sin x_cos (dlit 314159 100000) x_atan2 x_k).
Notation x_run := (ss_run (fun s : unit => s) (reading x_look) x_adder (dlit 9 10) (dlit 6 10) (dofZ 1)).
Notation x_insert := (insertable (dlit 1 200) x_nan x_cos x_sin x_cos (dlit 314159 100000) x_atan2 x_k 1).

Definition beam_check (b : segment F64) : bool :=
  F_fin (ptx (sbeg b)) && F_fin (pty (sbeg b)) && F_fin (ptx (send b)) && F_fin (pty (send b)) &&
  match world_to_cell (dlit 1 2) (sbeg b), world_to_cell (dlit 1 2) (send b) with
  | Ok c0, Ok c1 => (Z.max (Z.max (Z.abs (fst c0)) (Z.abs (snd c0))) (Z.max (Z.abs (fst c1)) (Z.abs (snd c1))) <=? 15)%Z
  | _, _ => false
  end.
Lemma beam_check_ok b : beam_check b = true -> fin_point (sbeg b) /\ fin_point (send b) /\
  exists c0 c1, world_to_cell (dlit 1 2) (sbeg b) = Ok c0 /\ within 15 c0 /\ world_to_cell (dlit 1 2) (send b) = Ok c1 /\ within 15 c1.
Proof.
  unfold beam_check, fin_point. intros H. apply andb_prop in H as [H W]. apply andb_prop in H as [H H4]. apply andb_prop in H as [H H3]. apply andb_prop in H as [H1 H2].
  split; [split; assumption|]. split; [split; assumption|].
  destruct (world_to_cell (dlit 1 2) (sbeg b)) as [c0| | |]; try discriminate. destruct (world_to_cell (dlit 1 2) (send b)) as [c1| | |]; try discriminate.
  exists c0, c1. apply Z.leb_le in W. unfold within. split; [reflexivity|]. split; [lia|]. split; [reflexivity|]. lia.
Qed.
Definition x_beams (p : pose F64) (r : Z) : bool :=
  forallb (fun ip => let pt := snd ip in let a := sp_angle x_atan2 pt in
    beam_check (mkSegment (px p, py p) (dadd (px p) (dmul (sp_range pt) (x_cos (dadd (pth p) a))), dadd (py p) (dmul (sp_range pt) (x_sin (dadd (pth p) a)))))) (numbered 1 (x_pts r)).
Lemma x_beams_3 : x_beams (x_at x_start 3) 3 = true. Proof. vm_cast_no_check (eq_refl true). Qed.
Lemma x_beams_4 : x_beams (x_at (x_at x_start 3) 4) 4 = true. Proof. vm_cast_no_check (eq_refl true). Qed.
Lemma x_insertable (in_area : coord -> Prop) p r : (forall c, within 15 c -> in_area c) -> x_beams p r = true -> x_insert in_area p (ts_scan (x_scan r)).
Proof.
  intros HA H. unfold x_scan. cbn [ts_scan]. eapply C95_constant_estimates_are_always_given; [reflexivity|reflexivity|cbn; lia|cbn; lia|].
  intros i pt Hin. cbv zeta. intros _. unfold x_beams in H. rewrite forallb_forall in H. specialize (H _ Hin). cbn [snd] in H. apply beam_check_ok in H as (F1 & F2 & c0 & c1 & E0 & A0 & E1 & A1).
  do 2 (split; [assumption|]). exists c0, c1. cbn [ac_scale x_k]. auto.
Qed.
Lemma x_goes (in_area : coord -> Prop) m r p sm log : (forall c, within 15 c -> in_area c) -> (exists v, amap_get m (0, 0)%Z = Ok v) -> x_beams (x_at p r) r = true ->
  goes_on (fun s : unit => s) (reading x_look) (x_insert in_area) (mkSS p m sm log) (x_scan r).
Proof.
  intros HA (v & E) H. unfold goes_on. cbn [ss_pose ss_map ss_sm]. exists (acell_prob v), x_corr, tt. unfold reading, x_look. rewrite E. split; [reflexivity|].
  apply x_insertable; [exact HA|exact H].
Qed.
Lemma x_scale : F_fin (ac_scale x_k) = true /\ (0 < F2R64 (ac_scale x_k) <= bpow radix2 900)%R.
Proof.
  unfold x_k. cbn [ac_scale]. destruct (F_dlit_correct 1 2) as [E F]; [lia|lia|apply no_ovf_1; lra|]. split; [exact F|]. rewrite E, rnd_id.
  - split; [lra|]. apply Rle_trans with (bpow radix2 0); [cbn; lra|]. apply bpow_le. lia.
  - replace (1 / 2)%R with (bpow radix2 (-1)) by (cbn; lra). apply fmt_bpow; lia.
Qed.

(** the hypotheses of C95 are met by any of the maps that are large enough *)
Section Ex.
  Variables (kind : map_kind) (w h : Z) (m0 : amap F64).
  Hypotheses (Hz : size_ok kind w h 15) (Hin : forall c, within 15 c -> area kind w h 15 c) (Hm : new_amap x_proto kind w h = Ok m0).
  Notation wd := (mkSS x_start m0 tt [] : ss_world F64 (amap F64) unit).
  Lemma x_read00 : readable kind w h (0, 0)%Z.
  Proof using Hin.
    intros E. specialize (Hin (0, 0)%Z). unfold area in Hin. rewrite E in Hin. apply Hin. unfold within. cbn. lia.
  Qed.
  Lemma x_good : forall h1 s h2 o1 w1 n1, x_history = h1 ++ EScan s :: h2 -> x_run wo_new wd h1 = Ok (o1, w1, n1) ->
    goes_on (fun s : unit => s) (reading x_look) (x_insert (area kind w h 15)) w1 s.
  Proof using Hz Hin Hm.
    assert (R0 : exists v, amap_get m0 (0, 0)%Z = Ok v).
    { destruct (kind_refines x_proto (fun w h o _ => (w, h, o)) acell_prob 10 kind w h 15 [] m0 Hz ltac:(intros u []) Hm) as (m & E & R).
      cbn [run_updates] in E. assert (X : m0 = m) by congruence. subst m. eexists. apply R. exact x_read00. }
    assert (G1 : goes_on (fun s : unit => s) (reading x_look) (x_insert (area kind w h 15)) wd (x_scan 3)) by (apply x_goes; [exact Hin|exact R0|exact x_beams_3]).
    intros h1 s h2 o1 w1 n1 Eh. unfold x_history in Eh.
    destruct h1 as [|e1 h1]; [discriminate|]. cbn [app] in Eh. injection Eh as <- Eh. destruct h1 as [|e2 h1].
    - cbn [app] in Eh. injection Eh as <- _. intros Er. unfold ss_run in Er. cbn [world_run] in Er. injection Er as _ <- _. exact G1.
    - cbn [app] in Eh. injection Eh as <- Eh. destruct h1 as [|e3 h1]; [|cbn [app] in Eh; injection Eh as _ Eh; destruct h1; discriminate Eh].
      cbn [app] in Eh. injection Eh as <- _. intros Er.
      destruct x_scale as [S1 S2].
      assert (P := fun HG => C95_map_is_what_the_scans_say unit (fun s => s) (reading x_look) x_proto (fun w h o _ => (w, h, o)) acell_prob 10 (dlit 1 200) x_nan x_cos x_sin x_cos
        (dlit 314159 100000) x_atan2 x_k 1 (dlit 9 10) (dlit 6 10) kind w h 15 wo_new wd [ESubMap 7; EScan (x_scan 3)] S1 S2 Hz Hm HG).
      destruct P as (o' & w' & notes & cs & Er' & El & Ec & Ep & Eg).
      { clear Er. intros h1 s h2' o2 w2 n2 Eh Er. destruct h1 as [|e1 h1]; [discriminate|]. cbn [app] in Eh. injection Eh as <- Eh. destruct h1 as [|e2 h1]; [|injection Eh as _ Eh; destruct h1; discriminate Eh].
        cbn [app] in Eh. injection Eh as <- _. unfold ss_run in Er. cbn [world_run] in Er. injection Er as _ <- _. exact G1. }
      change (Z.of_nat 1) with 1%Z in Er'.
      assert (X : w1 = w') by (rewrite Er in Er'; clear -Er'; apply Ok_inj in Er'; congruence). subst w1.
      assert (Ecs : cs = [x_corr]).
      { (* the matcher's only correction *)
        clear -Er' El Ec R0. destruct R0 as (v & R0). revert Er'. unfold ss_run. cbn [world_run]. unfold handle_sensor_data. cbn [bind]. unfold ss_observe. cbn [ss_update ss_pose ss_map ss_sm ss_log].
        unfold reading at 1, x_look at 1. rewrite R0. cbn [bind]. destruct (x_adder _ _ _ _ _) as [m1| | |]; try discriminate. cbn [bind ss_pose ss_map ss_sm ss_log ss_update].
        intros X. apply Ok_inj in X. assert (Y : w' = mkSS (ss_pose w') m1 tt ([] ++ [x_corr])) by (injection X as _ X _; rewrite <- X; reflexivity).
        rewrite Y in El. cbn [ss_log app] in El. symmetry. exact El. }
      subst cs. cbn [all_scans flat_map app mapped] in Ep, Eg. unfold last_pose in Ep. cbn [map last en_pose ss_pose] in Ep. fold (x_at x_start 3) in Ep.
      destruct w' as [p' m' sm' log']. cbn [ss_pose ss_map] in *. subst p'. apply x_goes; [exact Hin|eexists; apply Eg, x_read00|exact x_beams_4].
  Qed.
End Ex.
Lemma x_plain : size_ok PlainKind 40 40 15 /\ (forall c, within 15 c -> area PlainKind 40 40 15 c).
Proof. split; [unfold size_ok; lia|]. intros c. unfold area, within, binside. cbn [bounded_kind]. cbn. lia. Qed.
Example C95_case : exists o' w' notes, x_run wo_new (mkSS x_start (MPlain (pmap_new x_proto 40 40)) tt []) x_history = Ok (o', w', notes) /\ length (ss_log w') = 2%nat.
Proof.
  destruct x_scale as [S1 S2]. destruct x_plain as [Z1 Z2].
  destruct (C95_map_is_what_the_scans_say unit (fun s => s) (reading x_look) x_proto (fun w h o _ => (w, h, o)) acell_prob 10 (dlit 1 200) x_nan x_cos x_sin x_cos
        (dlit 314159 100000) x_atan2 x_k 1 (dlit 9 10) (dlit 6 10) PlainKind 40 40 15 wo_new (mkSS x_start (MPlain (pmap_new x_proto 40 40)) tt []) x_history S1 S2 Z1 eq_refl
        (x_good PlainKind 40 40 _ Z1 Z2 eq_refl)) as (o' & w' & notes & cs & Er & El & Ec & _).
  exists o', w', notes. split; [exact Er|]. rewrite El. cbn [ss_log app]. exact Ec.
Qed.
Example C96_case : forall m, new_amap x_proto UnboundedLazyKind 3 5 = Ok m ->
  exists o' wa' wb' na nb, x_run wo_new (mkSS x_start (MUnbounded (pmap_new x_proto 2 2)) tt []) x_history = Ok (o', wa', na) /\
    x_run wo_new (mkSS x_start m tt []) x_history = Ok (o', wb', nb) /\ same_cells (ss_map wa') (ss_map wb').
Proof.
  intros m Hm. destruct x_scale as [S1 S2].
  assert (Z1 : size_ok UnboundedPlainKind 2 2 15) by (unfold size_ok; lia). assert (Z2 : size_ok UnboundedLazyKind 3 5 15) by (unfold size_ok; lia).
  destruct (C96_map_class_and_size_do_not_matter unit (fun s => s) x_look x_proto (fun w h o _ => (w, h, o)) acell_prob 10 (dlit 1 200) x_nan x_cos x_sin x_cos
        (dlit 314159 100000) x_atan2 x_k 1 (dlit 9 10) (dlit 6 10) UnboundedPlainKind UnboundedLazyKind 2 2 3 5 15 wo_new (mkSS x_start (MUnbounded (pmap_new x_proto 2 2)) tt [])
        (mkSS x_start m tt []) x_history) as (o' & wa' & wb' & na & nb & Ea & Eb & _ & _ & _ & C & _); try reflexivity; try assumption.
  - intros sm s p f g H. unfold x_look. rewrite H. reflexivity.
  - exact (x_good UnboundedPlainKind 2 2 _ Z1 (fun c H => H) eq_refl).
  - exists o', wa', wb', na, nb. auto.
Qed.
(** and there is something to see: occupied and free cells *)
Definition x_check : bool :=
  match x_run wo_new (mkSS x_start (MUnbounded (pmap_new x_proto 2 2)) tt []) x_history with
  | Ok (_, w, notes) =>
      (length notes =? 2)%nat &&
      match ss_map w with
      | MUnbounded m => existsb (existsb (fun c => dlt (dlit 3 5) (acell_prob c))) (p_cells m) && existsb (existsb (fun c => dlt (acell_prob c) (dlit 2 5))) (p_cells m)
      | _ => false
      end
  | _ => false
  end.
Example C95_C96_case_cells : x_check = true.
Proof. vm_cast_no_check (eq_refl true). Qed.
