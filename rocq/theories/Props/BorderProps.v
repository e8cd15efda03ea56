(** C104: a bounded map that is large enough behaves as an unbounded one. *)
From Coq Require Import Reals ZArith List Bool Lia Lra.
From Flocq Require Import Core IEEE754.BinarySingleNaN IEEE754.Binary IEEE754.Bits.
From Verif.Base Require Import Outcome Num F64Facts.
From Verif.Model Require Import MathUtils Geometry Grid PlainMap LazyMap Cells Sensor Matchers Spe ScanAdder Histogram AreaEstimator World Config Pyramid WholeSlam WholeMatcher MapView.
From Verif.Spec Require Import GeometrySpec MapSpec ScanSpec ManyMapsSpec WholeMapSpec BorderSpec.
From Verif.Proofs Require Import ScanAdderProofs WholeExact BorderProofs.
From Verif.Props Require Import WholeMapProps.
Import ListNotations.

(** The single-hypothesis world with a pose enumeration matcher, any enumerator, estimator of observations, weighting, skipping of
    points, configuration of the mapping and observers.  One world has a bounded plain map of [w] x [h] cells; the other any of
    the unbounded maps of any initial size.  While the obstacles of each scan, seen from the predicted pose, lie in the bounded
    map, and the matcher answers and the scan can be inserted (in this map), both worlds run in the same way: same poses,
    corrections, enumerator states and announcements, and the same cells in the bounded map's rectangle. *)
Theorem C104_large_enough_map_is_as_good_as_unbounded :
  forall (E : Type) (en : enumerator F64 E) (heard : observers) (fuel : nat)
    (mcos msin : F64 -> F64) (cell_impact : acell F64 -> outcome F64) (oope : oope_kind) (cells_bound : nat) (skip : Z) (max_range : F64)
    (weight : list (scan_point F64) -> Z -> outcome F64) (analysed : rect F64)
    (proto : acell F64) (grow : Z -> Z -> coord -> coord -> Z * Z * coord) (impact : acell F64 -> F64) (bound : nat)
    (shift nan : F64) (dcos dsin dacos : F64 -> F64) (mpi : F64) (datan2 : F64 -> F64 -> F64) (k : adder_config F64) (margin : nat)
    (ql qr : F64) (kind : map_kind) (w h w2 h2 B : Z) (o : wobservers) (wa wb : ss_world F64 (amap F64) E)
    (history : list (wevent F64 (whole_scan F64))),
  let matcher e s p m := matcher_process mcos msin datan2 cell_impact oope cells_bound skip max_range weight analysed nan en heard fuel e s p (amap_view (ac_scale k) m) in
  let run := ss_run (e_reset en) matcher (whole_append proto grow impact bound shift nan dcos dsin dacos mpi datan2 k) ql qr (dofZ (Z.of_nat margin)) in
  let insert := insertable shift nan dcos dsin dacos mpi datan2 k margin (binside w h) in
  stays_finite analysed -> F_fin (ac_scale k) = true -> (0 < F2R64 (ac_scale k) <= bpow radix2 900)%R ->
  size_ok PlainKind w h B -> new_amap proto PlainKind w h = Ok (ss_map wa) ->
  bounded_kind kind = false -> size_ok kind w2 h2 B -> new_amap proto kind w2 h2 = Ok (ss_map wb) ->
  (w / 2 <= B)%Z -> (h / 2 <= B)%Z ->
  ss_pose wa = ss_pose wb -> ss_sm wa = ss_sm wb -> ss_log wa = ss_log wb ->
  (forall h1 s h2 o1 w1 n1, history = h1 ++ EScan s :: h2 -> run o wa h1 = Ok (o1, w1, n1) ->
     goes_on (e_reset en) matcher insert w1 s /\
     sees_only_the_map w h (ac_scale k) datan2 (pose_add (ss_pose w1) (ts_delta s)) (ts_scan s)) ->
  exists o' wa' wb' na nb, run o wa history = Ok (o', wa', na) /\ run o wb history = Ok (o', wb', nb) /\
    ss_pose wa' = ss_pose wb' /\ ss_sm wa' = ss_sm wb' /\ ss_log wa' = ss_log wb' /\
    same_inside w h (ss_map wa') (ss_map wb') /\ Forall2 (same_note_inside w h) na nb.
Proof.
  intros * HF Fs Hs Hz1 Hm1 U2 Hz2 Hm2 HB1 HB2 Ep Es El HG.
  eapply (border_run proto grow impact bound shift nan dcos dsin dacos mpi datan2 k margin Fs Hs kind w h w2 h2 B Hz1 Hz2 U2) with
    (seen := sees_only_the_map w h (ac_scale k) datan2) (m01 := ss_map wa) (m02 := ss_map wb) (l0 := []); try eassumption; try reflexivity.
  - intros c. unfold binside, within. destruct Hz1 as (Hw & Hh & _). pose proof (Z.div_mod w 2 ltac:(lia)). pose proof (Z.mod_pos_bound w 2 ltac:(lia)).
    pose proof (Z.div_mod h 2 ltac:(lia)). pose proof (Z.mod_pos_bound h 2 ltac:(lia)). lia.
  - intros sm s p a b r Pa Pb GX (v0 & G0) SV. apply matcher_ext.
    + rewrite !view_scale; [reflexivity|destruct Pa as (x & -> & _); exact I|destruct b; try exact I; destruct Pb].
    + intros c v. rewrite !view_get. apply GX.
    + exact HF.
    + exact (unb_like_has _ _ _ _ Pb G0).
    + intros pt q c Hin Ho Eq Ec. apply (plain_has _ w h _ _ Pa). rewrite view_scale in Ec by (destruct Pa as (x & -> & _); exact I). exact (SV pt q c Hin Ho Eq Ec).
  - intros u [].
Qed.
Print Assumptions C104_large_enough_map_is_as_good_as_unbounded.

(** the matchers analyse the default area, a point, which is finite wherever it is moved *)
Definition no_area : rect F64 := mkRect (dofZ 0) (dofZ 0) (dofZ 0) (dofZ 0).
Lemma half_0 : ddiv (dsub (dofZ 0) (dofZ 0)) (dofZ 2) = (B754_zero 53 1024 false : F64). Proof. vm_compute. reflexivity. Qed.
Lemma zero_or_nan (z : F64) : (exists s, z = B754_zero 53 1024 s) \/ disnan z = true -> forall y : F64, (exists s, y = B754_zero 53 1024 s) \/ disnan y = true ->
  dispinf (dmul z y) = false.
Proof. intros [(s & ->)|N] y [(t & ->)|M]; try (destruct z; try discriminate N); try (destruct y; try discriminate M); reflexivity. Qed.
Lemma no_side (z : F64) : let d := dsub (dadd z (B754_zero 53 1024 false)) (dsub z (B754_zero 53 1024 false)) in (exists s, d = B754_zero 53 1024 s) \/ disnan d = true.
Proof.
  cbv zeta. destruct z as [s|s|s pl e|s m e B0].
  - left. destruct s; eexists; vm_compute; reflexivity.
  - right. destruct s; vm_compute; reflexivity.
  - right. reflexivity.
  - left. set (f := B754_finite 53 1024 s m e B0).
    change (dadd f (B754_zero 53 1024 false)) with f. change (dsub f (B754_zero 53 1024 false)) with f.
    destruct (F_sub_correct f f eq_refl eq_refl) as [E F].
    { rewrite Rminus_diag_eq by reflexivity. apply no_ovf_1. lra. }
    rewrite Rminus_diag_eq in E by reflexivity. rewrite rnd_0 in E.
    assert (Z : forall d : F64, F2R64 d = 0%R -> F_fin d = true -> exists s', d = B754_zero 53 1024 s'); [|exact (Z _ E F)].
    clear. intros d E F. destruct d as [s'|s'|s' pl e'|s' m' e' B']; try discriminate F; [exists s'; reflexivity|].
    exfalso. unfold F2R64 in E. cbn [B2R] in E. apply eq_0_F2R in E. destruct s'; discriminate E.
Qed.
Theorem C104_default_area_stays_finite : stays_finite no_area.
Proof.
  intros [x y] a. unfold move_center, vside_len, hside_len, no_area, ptx, pty. cbn [top bot left right fst snd]. rewrite half_0.
  unfold mk_rect. destruct (_ && _); [|discriminate]. set (z := B754_zero 53 1024 false). intros H.
  assert (X : mkRect (dsub y z) (dadd y z) (dsub x z) (dadd x z) = a) by congruence. subst a. clear H.
  unfold rect_area, vside_len, hside_len. cbn [top bot left right]. apply zero_or_nan; apply no_side.
Qed.
Print Assumptions C104_default_area_stays_finite.

(** *** a case: two scans, matched by brute force over 27 poses *)
Definition b_pts (r : Z) : list (scan_point F64) :=
  map (fun p => sp_make_polar (fst p) (snd p) true) [(dofZ r, dlit (-1) 5); (dofZ r, dofZ 0); (dlit (2 * r + 1) 2, dlit 1 10); (dofZ r, dlit 1 5)].
Definition b_scan (r : Z) : tr_scan F64 (whole_scan F64) := mkTS (mkPose (dlit 1 10) (dlit 1 20) (dlit 1 30)) (b_pts r, raw_trig x_cos x_sin) (dofZ 1).
Definition b_cfg : bf_cfg F64 := mkBfCfg (dlit (-1) 2) (dlit 1 2) (dlit 1 2) (dlit (-1) 2) (dlit 1 2) (dlit 1 2) (dlit (-1) 10) (dlit 1 10) (dlit 1 10).
Definition b_en := bf_enum b_cfg.
Definition b_history : list (wevent F64 (whole_scan F64)) := [ESubMap 7; EScan (b_scan 3); EScan (b_scan 4)].
Notation b_matcher := (fun (e : bf_state F64) (s : whole_scan F64) (p : pose F64) (m : amap F64) =>
  matcher_process x_cos x_sin x_atan2 (fun c => Ok (acell_prob c)) MeanOope 100 0 (dofZ 20) (even_weight (D := F64)) no_area x_nan b_en [] 1000 e s p (amap_view (ac_scale x_k) m)).
Notation b_run := (ss_run (e_reset b_en) b_matcher x_adder (dlit 9 10) (dlit 6 10) (dofZ (Z.of_nat 1))).
Notation b_insert := (x_insert (binside 40 40)).
Definition b_world (m : amap F64) : ss_world F64 (amap F64) (bf_state F64) := mkSS x_start m (bf_new b_cfg) [].
Definition b_plain : ss_world F64 (amap F64) (bf_state F64) := b_world (MPlain (pmap_new x_proto 40 40)).

Definition inside_check (c : coord) : bool := ((-20 <=? fst c) && (fst c <? 20) && (-20 <=? snd c) && (snd c <? 20))%Z.
Lemma inside_check_ok c : inside_check c = true -> binside 40 40 c.
Proof. unfold inside_check. rewrite !andb_true_iff, !Z.leb_le, !Z.ltb_lt. unfold binside. change (40 / 2)%Z with 20%Z. lia. Qed.
Definition b_beams (p : pose F64) (r : Z) : bool :=
  forallb (fun ip => let pt := snd ip in let a := sp_angle x_atan2 pt in
    beam_check (mkSegment (px p, py p) (dadd (px p) (dmul (sp_range pt) (x_cos (dadd (pth p) a))), dadd (py p) (dmul (sp_range pt) (x_sin (dadd (pth p) a)))))) (numbered 1 (b_pts r)).
Definition b_seen (p : pose F64) (r : Z) : bool :=
  forallb (fun pt => match sp_move_origin_tp x_atan2 (px p, py p) (raw_trig x_cos x_sin (pth p)) pt with
    | Ok q => match world_to_cell (dlit 1 2) q with Ok c => inside_check c | _ => true end | _ => true end) (b_pts r).
Definition b_check (wd : ss_world F64 (amap F64) (bf_state F64)) (r : Z) : bool :=
  let p := pose_add (ss_pose wd) (ts_delta (b_scan r)) in
  b_seen p r && match b_matcher (e_reset b_en (ss_sm wd)) (ts_scan (b_scan r)) p (ss_map wd) with Ok (_, d, _) => b_beams (pose_add p d) r | _ => false end.
Definition b_check2 (o : outcome (wobservers * ss_world F64 (amap F64) (bf_state F64) * list (wnote F64 (amap F64)))) (r : Z) : bool :=
  match o with Ok (_, wd, _) => b_check wd r | _ => false end.
Lemma b_check_in (in_area : coord -> Prop) wd r : (forall c, within 15 c -> in_area c) -> b_check wd r = true -> goes_on (e_reset b_en) b_matcher (x_insert in_area) wd (b_scan r) /\
  sees_only_the_map 40 40 (ac_scale x_k) x_atan2 (pose_add (ss_pose wd) (ts_delta (b_scan r))) (ts_scan (b_scan r)).
Proof.
  intros HIn. unfold b_check, goes_on. cbv zeta. intros H. apply andb_prop in H as [H1 H2]. split.
  - destruct (matcher_process _ _ _ _ _ _ _ _ _ _ _ _ _ _ _ _ _ _) as [[[score d] sm]| | |]; try discriminate H2. exists score, d, sm. split; [reflexivity|].
    revert H2. generalize (pose_add (pose_add (ss_pose wd) (ts_delta (b_scan r))) d). intros p H2. unfold b_scan. cbn [ts_scan].
    eapply C95_constant_estimates_are_always_given; [reflexivity|reflexivity|cbn; lia|cbn; lia|].
    intros i pt Hin. cbv zeta. intros _. unfold b_beams in H2. rewrite forallb_forall in H2. specialize (H2 _ Hin). cbn [snd] in H2. apply beam_check_ok in H2 as (F1 & F2 & c0 & c1 & E0 & A0 & E1 & A1).
    do 2 (split; [assumption|]). exists c0, c1. cbn [ac_scale x_k]. auto.
  - clear H2. revert H1. generalize (pose_add (ss_pose wd) (ts_delta (b_scan r))). intros p H1 pt q c Hin _ Eq Ec. unfold b_scan in Hin, Eq. cbn [ts_scan fst snd] in Hin, Eq.
    unfold b_seen in H1. rewrite forallb_forall in H1. specialize (H1 pt Hin). rewrite Eq in H1. change (ac_scale x_k) with (dlit (D := F64) 1 2) in Ec. rewrite Ec in H1. apply inside_check_ok, H1.
Qed.
Lemma b_check_ok wd r : b_check wd r = true -> goes_on (e_reset b_en) b_matcher b_insert wd (b_scan r) /\
  sees_only_the_map 40 40 (ac_scale x_k) x_atan2 (pose_add (ss_pose wd) (ts_delta (b_scan r))) (ts_scan (b_scan r)).
Proof. apply b_check_in. intros c. unfold within, binside. change (40 / 2)%Z with 20%Z. lia. Qed.
Lemma b_first : b_check b_plain 3 = true.
Proof. vm_cast_no_check (eq_refl true). Qed.
Lemma b_second : b_check2 (b_run wo_new b_plain [ESubMap 7; EScan (b_scan 3)]) 4 = true.
Proof. vm_cast_no_check (eq_refl true). Qed.
Lemma b_after_sub wd o1 w1 n1 : b_run wo_new wd [ESubMap 7] = Ok (o1, w1, n1) -> w1 = wd.
Proof. unfold ss_run. cbn [world_run]. congruence. Qed.
Lemma b_check2_ok r o o1 wd n : o = Ok (o1, wd, n) -> b_check2 o r = true -> b_check wd r = true.
Proof. intros -> H. exact H. Qed.
Lemma b_good : forall h1 s h2 o1 w1 n1, b_history = h1 ++ EScan s :: h2 -> b_run wo_new b_plain h1 = Ok (o1, w1, n1) ->
  goes_on (e_reset b_en) b_matcher b_insert w1 s /\ sees_only_the_map 40 40 (ac_scale x_k) x_atan2 (pose_add (ss_pose w1) (ts_delta s)) (ts_scan s).
Proof.
  intros h1 s h2 o1 w1 n1 Eh. unfold b_history in Eh.
  destruct h1 as [|e1 h1]; [discriminate Eh|]. cbn [app] in Eh. injection Eh as <- Eh. destruct h1 as [|e2 h1].
  - cbn [app] in Eh. injection Eh as <- _. intros Er. apply b_after_sub in Er. subst w1. exact (b_check_ok _ _ b_first).
  - cbn [app] in Eh. injection Eh as <- Eh. destruct h1 as [|e3 h1]; [|cbn [app] in Eh; injection Eh as _ Eh; destruct h1; discriminate Eh].
    cbn [app] in Eh. injection Eh as <- _. intros Er. exact (b_check_ok _ _ (b_check2_ok _ _ _ _ _ Er b_second)).
Qed.
(** the bounded map, and a lazily tiled map that starts with 3 x 5 cells *)
Example C104_case : forall m, new_amap x_proto UnboundedLazyKind 3 5 = Ok m ->
  exists o' wa' wb' na nb, b_run wo_new b_plain b_history = Ok (o', wa', na) /\ b_run wo_new (b_world m) b_history = Ok (o', wb', nb) /\
    ss_log wa' = ss_log wb' /\ same_inside 40 40 (ss_map wa') (ss_map wb').
Proof.
  intros m Hm. destruct x_scale as [S1 S2]. assert (Z1 : size_ok PlainKind 40 40 20) by (unfold size_ok; lia). assert (Z2 : size_ok UnboundedLazyKind 3 5 20) by (unfold size_ok; lia).
  destruct (C104_large_enough_map_is_as_good_as_unbounded (bf_state F64) b_en [] 1000 x_cos x_sin (fun c => Ok (acell_prob c)) MeanOope 100 0 (dofZ 20) (even_weight (D := F64)) no_area
    x_proto (fun w h o _ => (w, h, o)) acell_prob 10 (dlit 1 200) x_nan x_cos x_sin x_cos (dlit 314159 100000) x_atan2 x_k 1 (dlit 9 10) (dlit 6 10) UnboundedLazyKind 40 40 3 5 20 wo_new
    b_plain (b_world m) b_history C104_default_area_stays_finite S1 S2 Z1 eq_refl eq_refl Z2 Hm ltac:(discriminate) ltac:(discriminate) eq_refl eq_refl eq_refl b_good)
    as (o' & wa' & wb' & na & nb & Ra & Rb & _ & _ & El & C & _).
  exists o', wa', wb', na, nb. split; [exact Ra|]. split; [exact Rb|]. split; [exact El|exact C].
Qed.

(** C96 for the matchers of the program, which also ask the map for its size: they qualify.  Two unbounded maps, plainly stored
    or lazily tiled, of any initial sizes; a pose enumeration matcher with an analysis area that stays finite. *)
Theorem C96_pose_enumeration_does_not_see_the_map_class :
  forall (E : Type) (en : enumerator F64 E) (heard : observers) (fuel : nat)
    (mcos msin : F64 -> F64) (cell_impact : acell F64 -> outcome F64) (oope : oope_kind) (cells_bound : nat) (skip : Z) (max_range : F64)
    (weight : list (scan_point F64) -> Z -> outcome F64) (analysed : rect F64)
    (proto : acell F64) (grow : Z -> Z -> coord -> coord -> Z * Z * coord) (impact : acell F64 -> F64) (bound : nat)
    (shift nan : F64) (dcos dsin dacos : F64 -> F64) (mpi : F64) (datan2 : F64 -> F64 -> F64) (k : adder_config F64) (margin : nat)
    (ql qr : F64) (kind1 kind2 : map_kind) (w h w2 h2 B : Z) (o : wobservers) (wa wb : ss_world F64 (amap F64) E)
    (history : list (wevent F64 (whole_scan F64))),
  let matcher e s p m := matcher_process mcos msin datan2 cell_impact oope cells_bound skip max_range weight analysed nan en heard fuel e s p (amap_view (ac_scale k) m) in
  let run := ss_run (e_reset en) matcher (whole_append proto grow impact bound shift nan dcos dsin dacos mpi datan2 k) ql qr (dofZ (Z.of_nat margin)) in
  let insert := insertable shift nan dcos dsin dacos mpi datan2 k margin (within B) in
  stays_finite analysed -> F_fin (ac_scale k) = true -> (0 < F2R64 (ac_scale k) <= bpow radix2 900)%R ->
  bounded_kind kind1 = false -> size_ok kind1 w h B -> new_amap proto kind1 w h = Ok (ss_map wa) ->
  bounded_kind kind2 = false -> size_ok kind2 w2 h2 B -> new_amap proto kind2 w2 h2 = Ok (ss_map wb) ->
  ss_pose wa = ss_pose wb -> ss_sm wa = ss_sm wb -> ss_log wa = ss_log wb ->
  (forall h1 s h2 o1 w1 n1, history = h1 ++ EScan s :: h2 -> run o wa h1 = Ok (o1, w1, n1) -> goes_on (e_reset en) matcher insert w1 s) ->
  exists o' wa' wb' na nb, run o wa history = Ok (o', wa', na) /\ run o wb history = Ok (o', wb', nb) /\
    ss_pose wa' = ss_pose wb' /\ ss_sm wa' = ss_sm wb' /\ ss_log wa' = ss_log wb' /\
    same_cells (ss_map wa') (ss_map wb') /\ Forall2 same_note na nb.
Proof.
  intros * HF Fs Hs U1 Hz1 Hm1 U2 Hz2 Hm2 Ep Es El HG.
  eapply (unbounded_run proto grow impact bound shift nan dcos dsin dacos mpi datan2 k margin Fs Hs kind1 kind2 w h w2 h2 B Hz1 Hz2 U1 U2) with
    (m01 := ss_map wa) (m02 := ss_map wb) (l0 := []); try eassumption; try reflexivity.
  - intros sm s p a b r Pa Pb GX (v0 & G0). assert (S : forall m : amap F64, unb_like m -> match m with MRescalable _ => False | _ => True end) by (intros m; destruct m; try exact (fun _ => I); intros []).
    apply matcher_ext.
    + rewrite (view_scale _ a (S a Pa)), (view_scale _ b (S b Pb)). reflexivity.
    + intros c v. rewrite !view_get, GX. auto.
    + exact HF.
    + exact (unb_like_has _ _ _ _ Pb G0).
    + intros pt q c _ _ _ _. rewrite <- GX in G0. exact (unb_like_has _ _ _ _ Pa G0 c).
  - intros u [].
Qed.
Print Assumptions C96_pose_enumeration_does_not_see_the_map_class.

Definition b_unb : ss_world F64 (amap F64) (bf_state F64) := b_world (MUnbounded (pmap_new x_proto 2 2)).
Lemma b_first_unb : b_check b_unb 3 = true.
Proof. vm_cast_no_check (eq_refl true). Qed.
Lemma b_second_unb : b_check2 (b_run wo_new b_unb [ESubMap 7; EScan (b_scan 3)]) 4 = true.
Proof. vm_cast_no_check (eq_refl true). Qed.
Lemma b_good_unb : forall h1 s h2 o1 w1 n1, b_history = h1 ++ EScan s :: h2 -> b_run wo_new b_unb h1 = Ok (o1, w1, n1) ->
  goes_on (e_reset b_en) b_matcher (x_insert (within 15)) w1 s.
Proof.
  intros h1 s h2 o1 w1 n1 Eh. unfold b_history in Eh.
  destruct h1 as [|e1 h1]; [discriminate Eh|]. cbn [app] in Eh. injection Eh as <- Eh. destruct h1 as [|e2 h1].
  - cbn [app] in Eh. injection Eh as <- _. intros Er. apply b_after_sub in Er. subst w1. exact (proj1 (b_check_in _ _ _ (fun c H => H) b_first_unb)).
  - cbn [app] in Eh. injection Eh as <- Eh. destruct h1 as [|e3 h1]; [|cbn [app] in Eh; injection Eh as _ Eh; destruct h1; discriminate Eh].
    cbn [app] in Eh. injection Eh as <- _. intros Er. exact (proj1 (b_check_in _ _ _ (fun c H => H) (b_check2_ok _ _ _ _ _ Er b_second_unb))).
Qed.
Example C96_pose_enumeration_case : forall m, new_amap x_proto UnboundedLazyKind 3 5 = Ok m ->
  exists o' wa' wb' na nb, b_run wo_new b_unb b_history = Ok (o', wa', na) /\ b_run wo_new (b_world m) b_history = Ok (o', wb', nb) /\
    ss_log wa' = ss_log wb' /\ same_cells (ss_map wa') (ss_map wb').
Proof.
  intros m Hm. destruct x_scale as [S1 S2]. assert (Z1 : size_ok UnboundedPlainKind 2 2 15) by (unfold size_ok; lia). assert (Z2 : size_ok UnboundedLazyKind 3 5 15) by (unfold size_ok; lia).
  destruct (C96_pose_enumeration_does_not_see_the_map_class (bf_state F64) b_en [] 1000 x_cos x_sin (fun c => Ok (acell_prob c)) MeanOope 100 0 (dofZ 20) (even_weight (D := F64)) no_area
    x_proto (fun w h o _ => (w, h, o)) acell_prob 10 (dlit 1 200) x_nan x_cos x_sin x_cos (dlit 314159 100000) x_atan2 x_k 1 (dlit 9 10) (dlit 6 10) UnboundedPlainKind UnboundedLazyKind 2 2 3 5 15 wo_new
    b_unb (b_world m) b_history C104_default_area_stays_finite S1 S2 eq_refl Z1 eq_refl eq_refl Z2 Hm eq_refl eq_refl eq_refl b_good_unb)
    as (o' & wa' & wb' & na & nb & Ra & Rb & _ & _ & El & C & _).
  exists o', wa', wb', na, nb. split; [exact Ra|]. split; [exact Rb|]. split; [exact El|exact C].
Qed.
