(** C101: where a run takes place does not matter. *)
From Coq Require Import Reals ZArith List Bool Lia Lra.
From Flocq Require Import Core.
From Verif.Base Require Import Outcome Num.
From Verif.Model Require Import MathUtils Geometry Grid PlainMap Cells Sensor ScanAdder Matchers World Config WholeSlam Spe WholeMatcher.
From Verif.Spec Require Import GeometrySpec ShiftSpec.
From Verif.Proofs Require Import GridNumProofs CompareProofs ShiftProofs ShiftMatch.
Import ListNotations.
Local Open Scope R_scope.

(** A scan that can be added both to a map and, with the pose moved by a whole number of cells, to the map moved in the same way,
    leaves maps of which one is the other one moved; for any cells, beams, blurring, qualities and margins. *)
Theorem C101_moved_scan :
  forall (M1 M2 : Type) (update1 : M1 -> coord -> aoo R -> outcome M1) (update2 : M2 -> coord -> aoo R -> outcome M2)
    (cells1 : M1 -> coord -> acell R) (cells2 : M2 -> coord -> acell R) (scale : R) (by_cells : coord)
    (shift nan : R) (occupied empty : occup R) (quality : list (scan_point R) -> Z -> outcome R) (range blur : R) (datan2 : R -> R -> R)
    (scan : whole_scan R) (p : pose R) (scan_quality margin : R) (m1 m1' : M1) (m2 m2' : M2),
  0 < scale -> cellwise update1 cells1 -> cellwise update2 cells2 ->
  moved_map scale by_cells (cells1 m1) (cells2 m2) ->
  append_scan update1 scale (estimate_with shift nan (ConstEst occupied empty)) quality range blur datan2 (snd scan) m1
    p (fst scan) scan_quality margin = Ok m1' ->
  append_scan update2 scale (estimate_with shift nan (ConstEst occupied empty)) quality range blur datan2 (snd scan) m2
    (moved_pose scale by_cells p) (fst scan) scan_quality margin = Ok m2' ->
  moved_map scale by_cells (cells1 m1') (cells2 m2').
Proof.
  intros * Hs L1 L2 Hm A B.
  refine (append_shift scale by_cells Hs _ _ _ _ _ _ _ _ (fun a b => moved_map scale by_cells (cells1 a) (cells2 b)) _ _ _ _ _ _ _ _ _ _ _ Hm A B).
  - intros. eapply map_shift; eassumption.
  - intros b r o v v'. cbn [estimate_with]. congruence.
Qed.
Print Assumptions C101_moved_scan.

(** Two programs, alike in all but the place: one starts with a map and a pose that are those of the other moved by a whole number of
    cells.  Both get the same scans and odometry.  If neither is stopped by an assertion, then at the end - and in every announcement
    on the way - the poses and maps of the second are those of the first moved by these cells; the scan matcher made the same
    corrections.  For the brute force, hill climbing and Monte-Carlo matchers as they are created, all cell classes, constant
    occupancy estimates, and all observation probabilities but the overlap weighted one. *)
Theorem C101_moved_run :
  forall (M1 M2 E : Type) (update1 : M1 -> coord -> aoo R -> outcome M1) (update2 : M2 -> coord -> aoo R -> outcome M2)
    (cells1 : M1 -> coord -> acell R) (cells2 : M2 -> coord -> acell R) (size1 : M1 -> Z * Z * coord) (size2 : M2 -> Z * Z * coord)
    (scale : R) (by_cells : coord) (shift nan : R) (occupied empty : occup R) (quality : list (scan_point R) -> Z -> outcome R) (range blur : R)
    (dcos dsin : R -> R) (datan2 : R -> R -> R) (impact : acell R -> outcome R) (kind : oope_kind) (bound : nat) (skip : Z) (sp_range : R)
    (weight : list (scan_point R) -> Z -> outcome R) (area : rect R) (en : enumerator R E) (e : E) (obs : observers) (fuel : nat)
    (ql qr margin : R) (o : wobservers) (a a' : ss_world R M1 E) (b b' : ss_world R M2 E) (history : list (wevent R (whole_scan R)))
    (o1 o2 : wobservers) (n1 : list (wnote R M1)) (n2 : list (wnote R M2)),
  let matcher M (cells : M -> coord -> acell R) size (e : E) (scan : whole_scan R) (p : pose R) (m : M) :=
    matcher_process dcos dsin datan2 impact kind bound skip sp_range weight area nan en obs fuel e scan p (seen scale size cells m) in
  let adder M (update : M -> coord -> aoo R -> outcome M) (m : M) (p : pose R) (scan : whole_scan R) (q mg : R) :=
    append_scan update scale (estimate_with shift nan (ConstEst occupied empty)) quality range blur datan2 (snd scan) m p (fst scan) q mg in
  0 < scale -> cellwise update1 cells1 -> cellwise update2 cells2 -> kind <> OverlapOope ->
  (forall c c', moved_cell scale by_cells c c' -> impact c = impact c') -> new_enumerator E en e ->
  ss_sm a = e -> ss_sm b = e -> ss_log a = ss_log b ->
  ss_pose b = moved_pose scale by_cells (ss_pose a) -> moved_map scale by_cells (cells1 (ss_map a)) (cells2 (ss_map b)) ->
  ss_run (e_reset en) (matcher M1 cells1 size1) (adder M1 update1) ql qr margin o a history = Ok (o1, a', n1) ->
  ss_run (e_reset en) (matcher M2 cells2 size2) (adder M2 update2) ql qr margin o b history = Ok (o2, b', n2) ->
  o1 = o2 /\ ss_log a' = ss_log b' /\ ss_pose b' = moved_pose scale by_cells (ss_pose a') /\
  moved_map scale by_cells (cells1 (ss_map a')) (cells2 (ss_map b')) /\
  Forall2 (moved_note scale by_cells (fun m m' => moved_map scale by_cells (cells1 m) (cells2 m'))) n1 n2.
Proof.
  intros * Hs L1 L2 Hk Hi He Ea Eb El Ep Hm A B.
  assert (X : exists Re : E -> E -> Prop, moving scale by_cells en Re /\ Re e e).
  { destruct He; [exists (bf_rel scale by_cells)|exists (frl_rel scale by_cells)|exists eq].
    - split; [apply bf_moving|repeat split; reflexivity].
    - split; [apply frl_moving|split; reflexivity].
    - split; [apply gauss_moving|reflexivity]. }
  destruct X as (Re & HRe & Re0).
  refine (_ (run_shift scale by_cells (e_reset en) (e_reset en) (matcher M1 cells1 size1) (matcher M2 cells2 size2) (adder M1 update1) (adder M2 update2) ql qr margin
    (fun m m' => moved_map scale by_cells (cells1 m) (cells2 m')) Re _ _ history o a b o1 o2 a' b' n1 n2 _ A B)).
  - intros (H1 & (H2 & H3 & H4 & _) & H5). split; [exact H1|]. split; [congruence|]. split; [exact H2|]. split; [exact H4|exact H5].
  - intros m1 m2 m1' m2' p sc q Hmm P1 P2. exact (C101_moved_scan _ _ _ _ _ _ _ _ _ _ _ _ _ _ _ _ _ _ _ _ _ _ _ _ Hs L1 L2 Hmm P1 P2).
  - intros x y sc p m1 m2 q1 d1 x' q2 d2 y' Hxy Hmm P1 P2. destruct (HRe _ _ Hxy) as (_ & Hr & _ & _).
    destruct (matcher_shift scale by_cells Hs en Re obs HRe impact (seen scale size1 cells1 m1) (seen scale size2 cells2 m2) (cells1 m1) (cells2 m2) Hi eq_refl eq_refl (fun c => eq_refl) (fun c => eq_refl) (fun c => eq_refl) (fun c => eq_refl) Hmm
      _ _ _ _ _ _ _ _ _ _ _ _ _ _ _ _ _ _ _ _ _ Hk Hr P1 P2) as (_ & Y & Z). auto.
  - unfold Rw. rewrite Ea, Eb. auto.
Qed.
Print Assumptions C101_moved_run.

(** The overlap weighted observation probability is left out because the overlap of two rectangles, computed with comparisons whose
    tolerance grows with the distance from the origin, depends on the place: two cells half a cell apart do not overlap, but ten
    million cells away from the origin the same question stops the program. *)
Theorem C101_overlap_depends_on_the_place :
  let a := mkRect 0 1 0 1 in let b := mkRect 0 1 (3 / 2) (5 / 2) in
  let far := (10000000, 0)%Z in
  rect_overlap a b = Ok 0 /\ rect_overlap (moved_rect 1 far a) (moved_rect 1 far b) = Abort.
Proof.
  Local Ltac tol_tac := unfold tol, Rmax, Rabs; repeat (destruct (Rle_dec _ _) || destruct (Rcase_abs _)); lra.
  Local Ltac yes_tac := apply R_less_or_equal; tol_tac.
  Local Ltac no_tac := apply not_true_is_false; rewrite R_less_or_equal; apply Rlt_not_le; tol_tac.
  intros a b far.
  assert (Ea : moved_rect 1 far a = mkRect 0 1 10000000 10000001) by (unfold far, a, moved_rect, moved_x, moved_y, cx, cy; cbn [bot top left right fst snd]; f_equal; lra).
  assert (Eb : moved_rect 1 far b = mkRect 0 1 (20000003 / 2) (20000005 / 2)) by (unfold far, b, moved_rect, moved_x, moved_y, cx, cy; cbn [bot top left right fst snd]; f_equal; lra).
  rewrite Ea, Eb. unfold a, b. clear Ea Eb a b far.
  assert (Hn : forall x y : R, x <> y -> deq x y = false) by (intros x y Hxy; cbn; now apply R_eq_false).
  assert (Hr : forall x y : R, x <= y -> dle x y = true) by (intros x y Hxy; cbn; now apply R_le_true).
  assert (Hq : forall x y : R, y < x -> dle x y = false) by (intros x y Hxy; cbn; now apply R_le_false).
  split.
  - unfold rect_overlap. rewrite Hn by (unfold rect_area, vside_len, hside_len; cbn; lra). cbn [negb].
    assert (L1 : less_or_equal (3 / 2) 1 = false) by no_tac. assert (L2 : less_or_equal (5 / 2) 1 = false) by no_tac.
    assert (L3 : less_or_equal (3 / 2) 0 = false) by no_tac.
    unfold rect_intersect, corner_analysis, intersect_rev, corner_analysis, rect_contains, are_ordered. cbn [bot top left right].
    rewrite L1, L2, L3, !andb_false_r. cbn [andb]. unfold mk_rect. rewrite !Hr by (cbn; lra). cbn [andb bind].
    f_equal. unfold rect_area, vside_len, hside_len; cbn. lra.
  - unfold rect_overlap. rewrite Hn by (unfold rect_area, vside_len, hside_len; cbn; lra). cbn [negb].
    assert (L1 : less_or_equal (20000003 / 2) 10000001 = true) by yes_tac. assert (L2 : less_or_equal (20000005 / 2) 10000001 = false) by no_tac.
    assert (L3 : less_or_equal 10000000 (20000003 / 2) = true) by yes_tac.
    assert (L4 : less_or_equal 0 0 = true) by yes_tac. assert (L5 : less_or_equal 0 1 = true) by yes_tac. assert (L6 : less_or_equal 1 1 = true) by yes_tac.
    unfold rect_intersect, corner_analysis, rect_contains, are_ordered. cbn [bot top left right].
    rewrite L1, L2, L3, L4, L5, L6, !andb_false_r. cbn [andb]. unfold mk_rect. rewrite (Hr 0 1), (Hq (20000003 / 2) 10000001) by lra. reflexivity.
Qed.
Print Assumptions C101_overlap_depends_on_the_place.

(** *** a map given by its cells, a scan of one point one cell ahead of the robot, and a Monte-Carlo matcher of two attempts *)
Definition x_map : Type := coord -> acell R.
Definition x_update (m : x_map) (c : coord) (a : aoo R) : outcome x_map := Ok (fun c' => if coord_eqb c c' then acell_upd (m c) a else m c').
Lemma x_cellwise : cellwise x_update (fun m => m).
Proof.
  intros m c a m' X. unfold x_update in X. injection X as <-. split.
  - unfold coord_eqb. rewrite !Z.eqb_refl. reflexivity.
  - intros c' Hc. destruct (coord_eqb c c') eqn:Ec; [|reflexivity]. exfalso. apply Hc. unfold coord_eqb in Ec. apply andb_true_iff in Ec. rewrite !Z.eqb_eq in Ec.
    destruct c, c'. unfold cx, cy in Ec. cbn in Ec. f_equal; lia.
Qed.
Definition x_sample (tr rot : R) (g : unit) : pose R * unit := (mkPose 1 0 0, g).
Definition x_en := gauss_enum x_sample.
Definition x_e : gauss R unit := gauss_new tt (1 / 10) (1 / 10) 1 2.
Definition x_scan : whole_scan R := ([sp_make_polar 1 0 true], raw_trig (fun _ => 1) (fun _ => 0)).
Definition x_impact (c : acell R) : outcome R := Ok (match c with CGmapping c => if (g_hits c =? 0)%Z then 0 else 1 | _ => 1 / 2 end).
Definition x_match (e : gauss R unit) (sc : whole_scan R) (p : pose R) (m : x_map) :=
  matcher_process (fun _ => 1) (fun _ => 0) (fun _ _ => 0) x_impact ObstacleOope 100 0 100 (even_weight (D := R)) (mkRect 0 0 0 0) 0 x_en [] 3 e sc p
    (seen 1 (fun _ => (1, 1, (0, 0))%Z) (fun m => m) m).
Definition x_add (m : x_map) (p : pose R) (sc : whole_scan R) (q mg : R) :=
  append_scan x_update 1 (estimate_with 0 0 (ConstEst (mkOcc (9 / 10) 1) (mkOcc (1 / 10) 1))) (fun _ _ => Ok 1) 100 1 (fun _ _ => 0) (snd sc) m p (fst sc) q mg.
Definition x_run := ss_run (e_reset x_en) x_match x_add (9 / 10) (6 / 10) 0.
Definition x_history : list (wevent R (whole_scan R)) := [ESubPose 4; EScan (mkTS (mkPose 1 0 0) x_scan 1)].
Definition x_world (p : pose R) : ss_world R x_map (gauss R unit) := mkSS p (fun _ => CGmapping gm_new) x_e [].
Definition x_pose : pose R := mkPose (1 / 2) (1 / 2) 0.

Definition near (p : pose R) : Prop := Rabs (px p) <= 100 /\ Rabs (py p) <= 100.
Lemma near_cell x y : Rabs x <= 1000 -> Rabs y <= 1000 -> world_to_cell 1 (x, y) = Ok (Zfloor x, Zfloor y).
Proof.
  intros Hx Hy. apply world_to_cell_R_iff; [lra|]. cbn [fst snd].
  assert (K : forall z, Rabs z <= 1000 -> in_int (Zfloor z) = true /\ IZR (Zfloor z) <= z < IZR (Zfloor z) + 1).
  { intros z Hz. assert (A := Zfloor_lb z). assert (B := Zfloor_ub z). split; [|lra]. unfold in_int.
    apply Rabs_le_inv in Hz. assert (IZR (Zfloor z) <= 1000) by lra. assert (-1001 <= IZR (Zfloor z)) by lra.
    apply le_IZR in H. apply le_IZR in H0. apply andb_true_iff. rewrite !Z.leb_le. cbn. lia. }
  destruct (K x Hx) as [A1 A2]. destruct (K y Hy) as [B1 B2]. rewrite !Rmult_1_l. auto.
Qed.
Lemma x_add_ok m p q : near p -> exists m', x_add m p x_scan q 0 = Ok m'.
Proof.
  intros [Hx Hy]. unfold x_add, append_scan, x_scan. cbn [fst snd length].
  replace (dtrunc (dsub (dsub (dofZ (Z.of_nat 1)) 0) (dofZ 1))) with (Some 0%Z) by (cbn; f_equal; rewrite Rminus_0_r, Rminus_diag_eq by reflexivity; now rewrite Ztrunc_IZR).
  replace (dtrunc 0) with (Some 0%Z) by (cbn; f_equal; now rewrite Ztrunc_IZR).
  change (to_size (Some 0%Z)) with (Ok 0%Z : outcome Z). cbn [bind]. cbn [append_loop Z.leb Z.compare Z.to_nat nth_error].
  unfold sp_move_origin_tp, raw_trig, sp_range. cbn [tp_cos tp_sin bind sp_make_polar sp_polar sp_u sp_v sp_occ dadd dmul ROps].
  match goal with |- exists m', (m0 <- ?h ;; _)%out = Ok m' => assert (X : exists m0, h = Ok m0) end.
  2: { destruct X as (m0 & X). rewrite X. cbn [bind Z.add Z.leb Z.compare]. eexists. reflexivity. }
  unfold handle_scan_point. cbn [sbeg send]. destruct (dlt _ _); [eexists; reflexivity|].
  unfold pose_point, ptx, pty. cbn [fst snd].
  apply Rabs_le_inv in Hx. apply Rabs_le_inv in Hy.
  assert (E1 : world_to_cell 1 (px p, py p) = Ok (Zfloor (px p), Zfloor (py p))) by (apply near_cell; apply Rabs_le; lra).
  assert (E2 : world_to_cell 1 (px p + 1 * 1, py p + 1 * 0) = Ok (Zfloor (px p + 1 * 1), Zfloor (py p + 1 * 0))) by (apply near_cell; apply Rabs_le; lra).
  rewrite E1, E2. cbn [bind].
  destruct (world_to_cells_path_R 1 (mkSegment (px p, py p) (px p + 1 * 1, py p + 1 * 0)) _ _ ltac:(lra) E1 E2) as (l & El & Pl). rewrite El. cbn [bind].
  assert (HB : forall c, exists r, world_cell_bounds 1 c = Ok r).
  { intros c. unfold world_cell_bounds, mk_rect. cbn [dmul dofZ dle ROps]. rewrite (proj2 (R_le_true _ _)), (proj2 (R_le_true _ _)) by (rewrite plus_IZR; lra). eexists. reflexivity. }
  destruct (rev l) as [|back r] eqn:Er.
  { exfalso. apply (f_equal (@rev coord)) in Er. rewrite rev_involutive in Er. subst l. destruct Pl as (P & _). unfold starts_with in P. discriminate P. }
  destruct (HB back) as (rb & ->). cbn [bind estimate_with x_update].
  match goal with |- exists m', free_cells_loop _ _ _ ?bm ?q ?bs ?ob ?od ?hd ?l ?m = Ok m' => generalize m; generalize l; generalize od; generalize hd end.
  clear -HB. intros hd od l. induction l as [|c l IH]; intros m; cbn [free_cells_loop]; [eexists; reflexivity|].
  unfold free_cell_obs. destruct (HB c) as (rc & ->). cbn [bind estimate_with x_update]. apply IH.
Qed.
Lemma x_est_ok m p : near p -> exists v, pose_estimate (fun _ => 1) (fun _ => 0) (fun _ _ => 0) x_impact ObstacleOope 100 (even_weight (D := R)) (mkRect 0 0 0 0)
   (seen 1 (fun _ => (1, 1, (0, 0))%Z) (fun m => m) m) x_scan [sp_make_polar 1 0 true] p = Ok v.
Proof.
  intros [Hx Hy]. unfold pose_estimate, estimate_scan, x_scan. cbn [snd estimate_loop]. unfold point_prob, sp_move_origin_tp, raw_trig, sp_range.
  cbn [tp_cos tp_sin bind sp_make_polar sp_polar sp_u sp_v sp_occ dadd dmul ROps]. unfold pose_point, ptx, pty. cbn [fst snd].
  unfold move_center, mk_rect. unfold vside_len, hside_len. cbn [ptx pty fst snd top bot left right].
  rewrite !(proj2 (R_le_true _ _)) by (cbn; lra). cbn [andb bind]. unfold observation_prob, obstacle_pe. cbn [seen om_scale].
  apply Rabs_le_inv in Hx. apply Rabs_le_inv in Hy.
  rewrite near_cell by (apply Rabs_le; lra). cbn [bind]. unfold cell_impact. cbn [om_cell seen bind]. unfold x_impact at 1. cbn [bind].
  match goal with |- context [assert_ (is_prob_bounded ?v)] => assert (B : is_prob_bounded v = true) end.
  { unfold is_prob_bounded. apply andb_true_iff. rewrite !R_less_or_equal.
    match goal with |- _ /\ ?v <= _ => assert (V : 0 <= v <= 1) by (destruct (m _) as [| | | | |g]; try (destruct (g_hits g =? 0)%Z); lra); assert (T1 := tol_pos 0 v); assert (T2 := tol_pos v 1) end.
    cbn [dofZ ROps]. lra. }
  cbn [bind]. rewrite B. cbn [assert_ bind even_weight]. eexists. reflexivity.
Qed.
Lemma x_match_ok e m p : near p -> near (pose_add p (mkPose 1 0 0)) -> near (pose_add (pose_add p (mkPose 1 0 0)) (mkPose 1 0 0)) ->
  gs_max_failed e = 1%Z -> gs_max_poses e = 2%Z ->
  exists q d e', x_match e x_scan p m = Ok (q, d, e') /\ near (pose_add p d).
Proof.
  intros N0 N1 N2 F P. unfold x_match, matcher_process. cbn [fst snd x_scan].
  match goal with |- context [filter_scan ?t ?m ?sk ?r ?p ?tp ?l] => assert (EF : filter_scan t m sk r p tp l = Ok [sp_make_polar 1 0 true]) end.
  { unfold filter_scan. cbn [filter_loop Z.eqb negb andb]. unfold sp_move_origin_tp, raw_trig, sp_range.
    cbn [tp_cos tp_sin bind sp_make_polar sp_polar sp_u sp_v sp_occ dadd dmul ROps]. unfold pose_point, ptx, pty. cbn [fst snd om_scale seen].
    destruct N0 as [Hx Hy]. apply Rabs_le_inv in Hx. apply Rabs_le_inv in Hy. rewrite near_cell by (apply Rabs_le; lra). cbn [bind].
    unfold should_skip, are_strictly_ordered, sp_range. cbn [sp_occ om_has seen negb orb sp_polar sp_u]. 
    replace (less 100 1) with false by (symmetry; apply not_true_is_false; rewrite R_less; assert (Q := eps52); lra). rewrite andb_false_r. reflexivity. }
  rewrite EF. cbn [bind]. clear EF.
  set (est := pose_estimate _ _ _ _ _ _ _ _ _ _ _). assert (HE : forall x, near x -> exists v, est x = Ok v) by (intros x Hx; apply x_est_ok; exact Hx).
  destruct (HE _ N0) as (v0 & E0). destruct (HE _ N1) as (v1 & E1). destruct (HE _ N2) as (v2 & E2).
  unfold process_scan. destruct e as [mf mp b1 b2 f ps tr rot g]. cbn [gs_max_failed gs_max_poses] in F, P. subst mf mp.
  unfold x_en. cbn [gauss_enum e_reset e_has_next e_next e_feedback pe_loop]. unfold gauss_reset, gauss_has_next at 1. cbn [gs_max_failed gs_max_poses gs_failed gs_poses gs_base_tr gs_base_rot gs_gen].
  change ((0 <? 1)%Z && (0 <? 2)%Z)%bool with true. cbv iota.
  unfold gauss_next at 1, x_sample at 1. cbn [gs_tr gs_rot gs_gen].
  match goal with |- context [dlt ?a ?b] => destruct (dlt a b) end.
  - cbn [gauss_feedback negb gs_failed gs_max_failed gs_max_poses gs_base_tr gs_base_rot gs_poses gs_tr gs_rot gs_gen].
    change ((0 <=? 1 / 3)%Z) with true. cbv iota. unfold gauss_has_next at 1. cbn [gs_max_failed gs_max_poses gs_failed gs_poses]. change ((0 <? 1)%Z && (u32 (0 + 1) <? 2)%Z)%bool with true. cbv iota.
    unfold gauss_next at 1, x_sample at 1. cbn [gs_tr gs_rot gs_gen].
    match goal with |- context [dlt ?a ?b] => destruct (dlt a b) end;
      cbn [gauss_feedback negb gs_failed gs_max_failed gs_max_poses gs_base_tr gs_base_rot gs_poses gs_tr gs_rot gs_gen];
      try change ((0 <=? 1 / 3)%Z) with true; cbv iota; unfold gauss_has_next; cbn [gs_max_failed gs_max_poses gs_failed gs_poses];
      [change ((0 <? 1)%Z && (u32 (u32 (0 + 1) + 1) <? 2)%Z)%bool with false|change ((u32 (0 + 1) <? 1)%Z && (u32 (u32 (0 + 1) + 1) <? 2)%Z)%bool with false]; cbv iota; cbn [bind mr_tested app forallb];
      rewrite E0, E1, E2; cbn [andb]; do 3 eexists; (split; [reflexivity|]); cbn [mr_delta].
    + replace (pose_add p _) with (pose_add (pose_add p (mkPose 1 0 0)) (mkPose 1 0 0)); [exact N2|].
      unfold pose_add, pose_sub; cbn [px py pth dadd dsub ROps]. f_equal; ring.
    + replace (pose_add p _) with (pose_add p (mkPose 1 0 0)); [exact N1|].
      unfold pose_add, pose_sub; cbn [px py pth dadd dsub ROps]. f_equal; ring.
  - cbn [gauss_feedback negb gs_failed gs_max_failed gs_max_poses gs_base_tr gs_base_rot gs_poses gs_tr gs_rot gs_gen].
    unfold gauss_has_next. cbn [gs_max_failed gs_max_poses gs_failed gs_poses]. change ((u32 (0 + 1) <? 1)%Z && (u32 (0 + 1) <? 2)%Z)%bool with false. cbv iota. cbn [bind mr_tested app forallb].
    rewrite E0, E1; cbn [andb]; do 3 eexists; (split; [reflexivity|]); cbn [mr_delta].
    replace (pose_add p _) with p; [exact N0|]. destruct p as [x0 y0 t0]. unfold pose_add, pose_sub; cbn [px py pth dadd dsub ROps]. f_equal; ring.
Qed.
Lemma x_run_ok p : Rabs (px p) <= 50 -> Rabs (py p) <= 50 -> exists o' w' notes, x_run wo_new (x_world p) x_history = Ok (o', w', notes).
Proof.
  intros Hx Hy. apply Rabs_le_inv in Hx. apply Rabs_le_inv in Hy. unfold x_run, x_history, x_world, ss_run. cbn [world_run]. unfold handle_sensor_data. cbn [bind].
  unfold ss_observe. cbn [ss_update ss_pose ss_map ss_sm ss_log ts_delta ts_scan ts_quality].
  match goal with |- context [x_match ?e _ ?q ?m] => destruct (x_match_ok e m q) as (pr & d & e' & E & N) end;
    try (split; cbn [pose_add px py dadd ROps]; apply Rabs_le; lra); try reflexivity.
  rewrite E. cbn [bind ss_pose ss_map ss_sm ss_log]. match goal with |- context [x_add ?m ?q _ ?k _] => destruct (x_add_ok m q k N) as (m' & E') end.
  rewrite E'. cbn [bind]. eexists _, _, _. reflexivity.
Qed.
(** both runs go through, twenty cells apart, in spite of GMapping's cells storing where they were hit *)
Example C101_case : exists o1 o2 a' b' n1 n2,
  x_run wo_new (x_world x_pose) x_history = Ok (o1, a', n1) /\
  x_run wo_new (x_world (moved_pose 1 (20, -3)%Z x_pose)) x_history = Ok (o2, b', n2) /\
  ss_pose b' = moved_pose 1 (20, -3)%Z (ss_pose a') /\ moved_map 1 (20, -3)%Z (ss_map a') (ss_map b').
Proof.
  destruct (x_run_ok x_pose) as (o1 & a' & n1 & E1); try (cbn [x_pose px py]; apply Rabs_le; lra).
  destruct (x_run_ok (moved_pose 1 (20, -3)%Z x_pose)) as (o2 & b' & n2 & E2); try (cbn [x_pose moved_pose px py]; unfold moved_x, moved_y, cx, cy; cbn [fst snd]; apply Rabs_le; lra).
  exists o1, o2, a', b', n1, n2. do 2 (split; [assumption|]).
  destruct (C101_moved_run x_map x_map (gauss R unit) x_update x_update (fun m => m) (fun m => m) (fun _ => (1, 1, (0, 0))%Z) (fun _ => (1, 1, (0, 0))%Z) 1 (20, -3)%Z 0 0
    (mkOcc (9 / 10) 1) (mkOcc (1 / 10) 1) (fun _ _ => Ok 1) 100 1 (fun _ => 1) (fun _ => 0) (fun _ _ => 0) x_impact ObstacleOope 100 0 100 (even_weight (D := R)) (mkRect 0 0 0 0)
    x_en x_e [] 3 (9 / 10) (6 / 10) 0 wo_new (x_world x_pose) a' (x_world (moved_pose 1 (20, -3)%Z x_pose)) b' x_history o1 o2 n1 n2) as (_ & _ & H1 & H2 & _); try assumption; try reflexivity.
  - lra.
  - exact x_cellwise.
  - exact x_cellwise.
  - discriminate.
  - intros c c' H. destruct H; try reflexivity.
  - apply new_monte_carlo.
  - intros c. apply mv_gmapping.
  - split; assumption.
Qed.
