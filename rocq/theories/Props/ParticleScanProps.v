(** C73-C76: what GMapping particles and the single-hypothesis world do with a scan. *)
From Coq Require Import Reals ZArith List Lia Lra Bool.
From Verif.Base Require Import Outcome Num OrdLaws.
From Verif.Model Require Import MathUtils Geometry Sensor Histogram World ParticleFilter Gmapping.
From Verif.Spec Require Import WorldSpec ParticleSpec TravelSpec ParticleScanSpec.
From Verif.Proofs Require Import HistProofs ParticleProofs WorldProofs ResampleProofs CompareProofs ParticleScanProofs ParticleIdleProofs.
From Verif.Props Require Import ResampleProps.
Import ListNotations.
Local Open Scope R_scope.

(** C73.  In any arithmetic (binary64 with NaN and infinities, exact reals).  Any matcher and any adder, watched ([watch_sm], [watch_adder] log their calls): the scan after any history of a new
    filter asks the matcher once for each particle that went at least its drawn limit since its last question, in order, from
    the particle's pose with the odometry and the drawn noise ([uses], [guess_of]); the particle moves by the correction and its
    weight is multiplied by the score; the scan is added to the map at the corrected pose with the scan's quality and no hole
    when the score is positive or it is the particle's first ([adds]); nothing else is asked or added; then the weights are
    divided by their sum, and the particles of the filter are these or are drawn from these (C36, C71). *)
Theorem C73_how_particles_use_a_scan :
  forall (D : Type) (ops : DOps D) (S M SM G RV : Type) (dcos dsin : D -> D) (rv_sample : RV -> G -> pose D * RV * G) (rv_copy : RV -> RV) (rv_zero : RV)
    (sm : SM -> S -> pose D -> M -> outcome (D * pose D * SM)) (adder : M -> pose D -> S -> D -> D -> outcome M)
    guess lim seeds m0 k0 n f0 o history o1 f n1 o2 s o3 f' n2 xs m adds0 k calls0,
  let run := gf_run dcos dsin rv_sample rv_copy rv_zero (watch_sm sm) (watch_adder adder) in
  (0 < n)%nat -> gf_new rv_sample rv_copy rv_zero guess lim seeds (m0, []) (k0, []) n = Ok f0 ->
  run o f0 history = Ok (o1, f, n1) -> run o2 f [EScan s] = Ok (o3, f', n2) ->
  objects (pf_heap (gf_pf f)) (pf_ptrs (gf_pf f)) = Ok xs -> gf_maps f = [(m, adds0)] -> gf_sm f = (k, calls0) ->
  exists answers ups ys p m' k',
    scan_all rv_sample (mkTS (ts_delta s) (fst (ts_scan s)) (ts_quality s)) (map (gp_update_robot_pose dcos dsin (ts_delta s)) xs) answers ups ys /\
    gf_sm f' = (k', calls0 ++ calls answers) /\ gf_maps f' = [(m', adds0 ++ ups)] /\
    pf_ptrs p = pf_ptrs (gf_pf f) /\
    objects (pf_heap p) (pf_ptrs p) = Ok (map (fun y => gp_set_weight (ddiv (gp_weight y) (sum_in_order (map gp_weight ys))) y) ys) /\
    (gf_pf f' = p \/ exists p', pf_try_resample gp_weight gp_set_weight (gp_duplicate rv_copy) p (snd (ts_scan s)) = Ok (p', true) /\ pf_ptrs (gf_pf f') = pf_ptrs p').
Proof.
  intros D ops S M SM G RV dcos dsin rv_sample rv_copy rv_zero sm adder guess lim seeds m0 k0 n f0 o history o1 f n1 o2 s o3 f' n2 xs m adds0 k calls0 run Hn E0 E1 E2 Ox Em Ek.
  destruct (gf_new_inv rv_sample rv_copy rv_zero guess lim seeds (m0, @nil (upload D S)) (k0, @nil (call D)) n Hn) as (f1 & E & I & _). rewrite E0 in E. injection E as <-.
  apply (gf_run_inv dcos dsin rv_sample rv_copy rv_zero (watch_sm sm) (watch_adder adder) 0) in E1; [|exact I]. apply objects_refs in Ox.
  destruct (scan_step dcos dsin rv_sample rv_copy rv_zero sm adder o2 f s o3 f' n2 m adds0 k calls0 xs E1 Em Ek Ox E2) as (ans & us & ys & p & m' & k' & A & B & C & P & F & H).
  exists ans, us, ys, p, m', k'. split; [exact A|]. split; [exact B|]. split; [exact C|]. split; [exact P|]. split; [|exact H]. apply objects_refs. exact F.
Qed.
Print Assumptions C73_how_particles_use_a_scan.
(** the filter always has the one map and the one matcher the statement names *)
Theorem C73_the_watched_map_is_there :
  forall (D : Type) (ops : DOps D) (S M SM G RV : Type) (dcos dsin : D -> D) (rv_sample : RV -> G -> pose D * RV * G) (rv_copy : RV -> RV) (rv_zero : RV)
    (sm : SM -> S -> pose D -> M -> outcome (D * pose D * SM)) (adder : M -> pose D -> S -> D -> D -> outcome M)
    guess lim seeds (m0 : M) (k0 : SM) n f0 o history o1 f n1,
  (0 < n)%nat -> gf_new rv_sample rv_copy rv_zero guess lim seeds m0 k0 n = Ok f0 ->
  gf_run dcos dsin rv_sample rv_copy rv_zero sm adder o f0 history = Ok (o1, f, n1) ->
  length (gf_maps f) = 1%nat.
Proof.
  intros D ops S M SM G RV dcos dsin rv_sample rv_copy rv_zero sm adder guess lim seeds m0 k0 n f0 o history o1 f n1 Hn E0 E1.
  destruct (gf_new_inv rv_sample rv_copy rv_zero guess lim seeds m0 k0 n Hn) as (f1 & E & I & _). rewrite E0 in E. injection E as <-.
  rewrite (run_maps dcos dsin rv_sample rv_copy rv_zero sm adder 0 _ _ _ _ _ _ I E1). unfold gf_new in E0. apply bind_Ok_inv in E0 as (hh & _ & E0). apply bind_Ok_inv in E0 as (p & _ & E0). injection E0 as <-. reflexivity.
Qed.
Print Assumptions C73_the_watched_map_is_there.

(** three particles, a matcher that corrects every pose; a history with subscribers and two scans, then a third scan *)
Example C73_case : let sm (k : nat) (s : unit) (p : pose R) (m : unit) := Ok (1 / 2, mkPose (1 / 10) 0 0, Datatypes.S k) in
  exists f0 o1 f n1 o3 f' n2 xs m adds0 k calls0,
  gf_new ex_rv ex_id tt tt tt (fun _ => tt) (tt, []) (0%nat, []) 3 = Ok f0 /\
  gf_run cos sin ex_rv ex_id tt (watch_sm sm) (watch_adder ex_adder) wo_new f0 [ESubPose 7; EScan ex_scan; EDestroy 7; EScan ex_scan] = Ok (o1, f, n1) /\
  gf_run cos sin ex_rv ex_id tt (watch_sm sm) (watch_adder ex_adder) o1 f [EScan ex_scan] = Ok (o3, f', n2) /\
  objects (pf_heap (gf_pf f)) (pf_ptrs (gf_pf f)) = Ok xs /\ gf_maps f = [(m, adds0)] /\ gf_sm f = (k, calls0).
Proof.
  intros sm. destruct (gf_new_inv ex_rv ex_id tt tt tt (fun _ => tt) (tt, @nil (upload R unit)) (0%nat, @nil (call R)) 3 ltac:(lia)) as (f0 & E0 & I0 & _).
  assert (ST : forall (k : nat * list (call R)) (s : unit) p (m : unit * list (upload R unit)), exists r, watch_sm sm k s p m = Ok r) by (intros; unfold watch_sm, sm; cbn [bind]; eauto).
  assert (AT : forall (m : unit * list (upload R unit)) p s q mg, exists m', watch_adder ex_adder m p s q mg = Ok m') by (intros; unfold watch_adder, ex_adder; cbn [bind]; eauto).
  destruct (run_total cos sin ex_rv ex_id tt (watch_sm sm) (watch_adder ex_adder) ST AT [ESubPose 7; EScan ex_scan; EDestroy 7; EScan ex_scan] wo_new f0 I0) as ([[o1 f] n1] & E1).
  assert (I1 := E1). apply (gf_run_inv cos sin ex_rv ex_id tt (watch_sm sm) (watch_adder ex_adder) 0) in I1; [|exact I0].
  destruct (run_total cos sin ex_rv ex_id tt (watch_sm sm) (watch_adder ex_adder) ST AT [EScan ex_scan] o1 f I1) as ([[o3 f'] n2] & E2).
  assert (L := C73_the_watched_map_is_there R ROps unit _ _ unit unit cos sin ex_rv ex_id tt _ _ tt tt (fun _ => tt) _ _ 3 f0 _ _ _ _ _ ltac:(lia) E0 E1).
  destruct I1 as (xs & HR & _). destruct (gf_maps f) as [|[m ad] [|? ?]] eqn:Em; try discriminate. destruct (gf_sm f) as [k cl] eqn:Ek.
  exists f0, o1, f, n1, o3, f', n2, xs, m, ad, k, cl. apply objects_refs in HR. auto 10.
Qed.

(** C74 refuted.  The master is not matched on each step: it keeps the limit drawn before it was made master.  Whatever the
    number of particles, the scans and the matcher, as long as the whole way stays below the limits all particles drew at
    construction, no scan is matched and none is added to the map. *)
Theorem C74_master_ignores_scans_before_its_limit_refuted :
  forall (S M SM G RV : Type) (rv_sample : RV -> G -> pose R * RV * G) (rv_copy : RV -> RV) (rv_zero : RV)
    (sm : SM -> S -> pose R -> M -> outcome (R * pose R * SM)) (adder : M -> pose R -> S -> R -> R -> outcome M)
    (guess lim : RV) (seeds : nat -> G) (m0 : M) (k0 : SM) (n : nat) (lx lth : R) (history : list (wevent R (S * (nat -> R)))) (o : wobservers),
  (0 < n)%nat ->
  (forall i, let drawn := fst (fst (rv_sample (rv_copy lim) (seeds i))) in lx <= px drawn * px drawn + py drawn * py drawn /\ lth <= pth drawn) ->
  total (@px R) (deltas history) * total (@px R) (deltas history) + total (@py R) (deltas history) * total (@py R) (deltas history) < lx ->
  total (@pth R) (deltas history) < lth ->
  exists f0 o' f notes, gf_new rv_sample rv_copy rv_zero guess lim seeds m0 k0 n = Ok f0 /\
    gf_run cos sin rv_sample rv_copy rv_zero sm adder o f0 history = Ok (o', f, notes) /\ gf_maps f = [m0] /\ gf_sm f = k0.
Proof.
  intros S M SM G RV rv_sample rv_copy rv_zero sm adder guess lim seeds m0 k0 n lx lth history o Hn HL H1 H2.
  destruct (new_idle rv_sample rv_copy rv_zero lx lth guess lim seeds m0 k0 n Hn HL) as (f0 & xs & E & I & HR & L & F & Em & Ek).
  destruct (idle_run rv_sample rv_copy rv_zero sm adder lx lth n history Hn o f0 (mkPose 0 0 0) xs I HR L F) as (o' & f & ns & Er & M1 & K1); [cbn; lra..| | |].
  - cbn [px py]. rewrite !Rplus_0_l. exact H1.
  - cbn [pth]. rewrite Rplus_0_l. exact H2.
  - exists f0, o', f, ns. rewrite M1, K1. auto.
Qed.
Print Assumptions C74_master_ignores_scans_before_its_limit_refuted.
(** the default limits (0.6 m to 0.8 m in x and y, 0.3 to 0.4 rad) and a robot that moves 0.8 m in steps of 0.1 m *)
Example C74_case : let h := repeat (EScan (mkTS (mkPose (1 / 10) 0 0) (tt, fun _ : nat => 1 / 2) 1)) 8 in
  (forall i : nat, let drawn := fst (fst ((fun (_ : unit) (_ : unit) => (mkPose (6 / 10) (6 / 10) (3 / 10), tt, tt)) tt tt)) in 72 / 100 <= px drawn * px drawn + py drawn * py drawn /\ 3 / 10 <= pth drawn) /\
  total (@px R) (deltas h) * total (@px R) (deltas h) + total (@py R) (deltas h) * total (@py R) (deltas h) < 72 / 100 /\ total (@pth R) (deltas h) < 3 / 10.
Proof.
  cbv zeta. split; [intros _; cbn [fst px py pth]; lra|]. cbn [repeat deltas flat_map app total fold_right px py pth ts_delta].
  rewrite !Rabs_R0. rewrite !(Rabs_right (1 / 10)) by lra. lra.
Qed.

(** C74, what holds: from the first scan the master is matched with, it is matched with every later scan, and from its
    odometry pose without noise, as long as it is in the filter (random variables [Z] give zeros only, as
    normal distributions of mean and deviation 0 do) *)
Theorem C74_master_is_matched_without_noise_partial :
  forall (S M SM G RV : Type) (dcos dsin : R -> R) (rv_sample : RV -> G -> pose R * RV * G) (rv_copy : RV -> RV) (rv_zero : RV)
    (sm : SM -> S -> pose R -> M -> outcome (R * pose R * SM)) (adder : M -> pose R -> S -> R -> R -> outcome M) (Z : RV -> Prop)
    guess lim seeds m0 k0 n f0 o h o1 f n1 o2 s o3 f1 n2 p x o4 h' o5 f2 n3,
  let run := gf_run dcos dsin rv_sample rv_copy rv_zero sm adder in
  Z rv_zero -> (forall z g, Z z -> fst (fst (rv_sample z g)) = mkPose 0 0 0 /\ Z (snd (fst (rv_sample z g)))) ->
  (0 < n)%nat -> gf_new rv_sample rv_copy rv_zero guess lim seeds m0 k0 n = Ok f0 -> run o f0 h = Ok (o1, f, n1) ->
  (** a master, and a scan it is matched with *)
  In p (pf_ptrs (gf_pf f)) -> nth_error (pf_heap (gf_pf f)) p = Some x -> gp_master x = true ->
  ~ short_way (gp_update_robot_pose dcos dsin (ts_delta s) x) -> run o2 f [EScan s] = Ok (o3, f1, n2) ->
  (** any later time *)
  run o4 f1 h' = Ok (o5, f2, n3) ->
  exists y, nth_error (pf_heap (gf_pf f2)) p = Some y /\ gp_master y = true /\
    forall d, let z := gp_update_robot_pose dcos dsin d y in ~ short_way z /\ guess_of rv_sample z = gp_pose z.
Proof.
  intros S M SM G RV dcos dsin rv_sample rv_copy rv_zero sm adder Z guess lim seeds m0 k0 n f0 o h o1 f n1 o2 s o3 f1 n2 p x o4 h' o5 f2 n3 run Z0 ZS Hn E0 E1 Ip Np Mx NS E2 E3.
  assert (MA := mastered_all dcos dsin rv_sample rv_copy rv_zero sm adder Z Z0 ZS guess lim seeds m0 k0 n f0 o h o1 f n1 E0 E1).
  destruct (gf_new_inv rv_sample rv_copy rv_zero guess lim seeds m0 k0 n Hn) as (fz & E & I & _). rewrite E0 in E. injection E as <-.
  apply (gf_run_inv dcos dsin rv_sample rv_copy rv_zero sm adder 0) in E1; [|exact I].
  assert (HS : held (settled Z) (pf_heap (gf_pf f1)) p).
  { destruct E1 as (xs & HR & ND & _). unfold run, gf_run in E2. cbn [world_run] in E2. apply bind_Ok_inv in E2 as ([w nn] & E & E'). injection E' as _ <- _. unfold handle_sensor_data in E.
    apply bind_Ok_inv in E as (g1 & Eu & E). apply bind_Ok_inv in E as (g2 & Eo & E). apply bind_Ok_inv in E as (pp & _ & E). apply bind_Ok_inv in E as (mm & _ & E). injection E as <- _.
    unfold gf_update in Eu. destruct (gf_each_spec (gp_update_robot_pose dcos dsin (ts_delta s)) _ _ _ HR ND) as (h1 & Eh & R1 & _). rewrite Eh in Eu. cbn [bind] in Eu. injection Eu as <-.
    assert (Nu : nth_error h1 p = Some (gp_update_robot_pose dcos dsin (ts_delta s) x)).
    { apply In_nth_error in Ip as [i Ip]. destruct (refs_at _ _ _ _ _ HR Ip) as (x1 & X1 & X2). rewrite Np in X2. injection X2 as <-. destruct (refs_at _ _ _ _ _ R1 Ip) as (y1 & Y1 & Y2). rewrite nth_error_map, X1 in Y1. cbn in Y1. injection Y1 as <-. exact Y2. }
    unfold gf_observe in Eo. cbn [gf_trav gf_pf gf_maps gf_sm pf_ptrs pf_heap] in Eo. apply bind_Ok_inv in Eo as ([[maps k1] hh] & Eb & Eo).
    assert (Mu : mastered Z (gp_update_robot_pose dcos dsin (ts_delta s) x)) by (rewrite Forall_forall in MA; exact (MA x (nth_error_In _ _ Np))).
    assert (H0 := observe_settles rv_sample sm adder Z ZS _ _ _ _ _ _ _ _ _ _ ND Ip Nu Mx Mu NS Eb).
    (* the rest of the step *)
    apply bind_Ok_inv in Eo as (p1 & En & Eo).
    assert (W : forall w (y : gparticle R G RV), settled Z y -> settled Z (gp_set_weight w y)) by (intros w y H; exact H).
    assert (MM : forall y : gparticle R G RV, settled Z y -> settled Z (gp_mark_master (G := G) rv_zero y)) by (intros y (A1 & B1 & C1 & D1); unfold settled; cbn; auto).
    apply (held_normalize (settled Z) W _ _ p) in En; [|exact H0].
    unfold gf_try_resample in Eo. cbn [gf_trav gf_pf gf_maps gf_sm] in Eo. destruct (_ && _)%bool in Eo; [injection Eo as <-; exact En|].
    apply bind_Ok_inv in Eo as ([p2 b] & Er & Eo). assert (H3 : held (settled Z) (pf_heap p2) p).
    { unfold pf_try_resample in Er. apply bind_Ok_inv in Er as (zs & _ & Er). destruct (negb _); [injection Er as <- _; exact En|].
      apply bind_Ok_inv in Er as ([h3 q3] & Et & Er). apply bind_Ok_inv in Er as (f3 & E5 & Er). injection Er as <- _. apply (held_normalize (settled Z) W _ _ p) in E5; [exact E5|]. cbn [pf_heap].
      exact (held_take rv_copy (settled Z) _ _ _ _ _ _ _ Et En). }
    destruct b; cbn [negb] in Eo; [|injection Eo as <-; exact H3]. apply bind_Ok_inv in Eo as (p3 & E4 & Eo). injection Eo as <-. cbn [gf_pf].
    unfold gf_ensure_master in E4. apply bind_Ok_inv in E4 as (zs & _ & E4). destruct (existsb _ _); [injection E4 as <-; exact H3|].
    apply bind_Ok_inv in E4 as (q & _ & E4). injection E4 as <-. cbn [pf_heap]. apply held_upd; [exact MM|exact H3]. }
  destruct (settled_run dcos dsin rv_sample rv_copy rv_zero sm adder Z Z0 ZS _ _ _ _ _ _ p E3 HS) as (y & Ny & Sy).
  exists y. split; [exact Ny|]. split; [apply Sy|]. intros d. cbv zeta. apply (settled_uses rv_sample Z ZS). exact Sy.
Qed.
Print Assumptions C74_master_is_matched_without_noise_partial.

(** three particles whose drawn limits are zero: the master is matched with the first scan *)
Example C74_partial_case : exists f0 p x o3 f1 n2 o5 f2 n3,
  gf_new ex_rv ex_id tt tt tt (fun _ => tt) tt 0%nat 3 = Ok f0 /\ In p (pf_ptrs (gf_pf f0)) /\ nth_error (pf_heap (gf_pf f0)) p = Some x /\ gp_master x = true /\
  ~ short_way (gp_update_robot_pose cos sin (ts_delta ex_scan) x) /\ ex_run wo_new f0 [EScan ex_scan] = Ok (o3, f1, n2) /\
  ex_run o3 f1 [EScan ex_scan; EScan ex_scan] = Ok (o5, f2, n3) /\ (forall z g : unit, fst (fst (ex_rv z g)) = mkPose 0 0 0).
Proof.
  destruct (gf_new_inv ex_rv ex_id tt tt tt (fun _ => tt) tt 0%nat 3 ltac:(lia)) as (f0 & E0 & I0 & _).
  assert (E0' := E0). unfold gf_new, pf_new in E0. set (w := @ddiv R ROps _ _) in E0. clearbody w.
  cbn -[dlt dofZ heaviest_ptr] in E0. apply bind_Ok_inv in E0 as (k & Ek & E0). injection E0 as E0.
  assert (K2 : k = 2%nat).
  { unfold heaviest_ptr in Ek. cbn [pf_heap pf_ptrs objects nth_error deref bind map heaviest gp_weight gp_set_weight gp_sample] in Ek. cbn -[dlt] in Ek. replace (dlt w w) with false in Ek by (symmetry; apply R_lt_false; lra). cbn -[dlt] in Ek. replace (dlt w w) with false in Ek by (symmetry; apply R_lt_false; lra). cbn in Ek. congruence. }
  subst k.
  destruct (run_total cos sin ex_rv ex_id tt ex_sm ex_adder ltac:(intros; unfold ex_sm; eauto) ltac:(intros; unfold ex_adder; eauto) [EScan ex_scan] wo_new f0 I0) as ([[o3 f1] n2] & E1).
  assert (I1 := E1). apply (gf_run_inv cos sin ex_rv ex_id tt ex_sm ex_adder 0) in I1; [|exact I0].
  destruct (run_total cos sin ex_rv ex_id tt ex_sm ex_adder ltac:(intros; unfold ex_sm; eauto) ltac:(intros; unfold ex_adder; eauto) [EScan ex_scan; EScan ex_scan] o3 f1 I1) as ([[o5 f2] n3] & E2).
  exists f0, 2%nat. eexists. exists o3, f1, n2, o5, f2, n3. split; [exact E0'|]. split; [rewrite <- E0; right; right; left; reflexivity|]. split; [rewrite <- E0; reflexivity|].
  split; [reflexivity|]. split; [|split; [exact E1|split; [exact E2|reflexivity]]].
  intros [H _]. apply R_lt_true in H. cbn in H. nra.
Qed.

(** C75 refuted.  Resampling copies the random engine with the particle: all the particles drawn from one have its engine, and
    the copies (all but the first of them, which is the particle itself) are equal in everything ... *)
Theorem C75_copies_have_the_same_random_engine_refuted :
  forall (G RV : Type) (rv_copy : RV -> RV) (f : pf (gparticle R G RV)) xs u f' ys i x c a b,
  NoDup (pf_ptrs f) -> objects (pf_heap f) (pf_ptrs f) = Ok xs -> xs <> [] ->
  pf_try_resample gp_weight gp_set_weight (gp_duplicate rv_copy) f u = Ok (f', true) -> objects (pf_heap f') (pf_ptrs f') = Ok ys ->
  nth_error xs i = Some x -> (c < a < length xs)%nat -> (c < b < length xs)%nat ->
  draw (map gp_weight xs) 0 0 (u c) = i -> draw (map gp_weight xs) 0 0 (u a) = i -> draw (map gp_weight xs) 0 0 (u b) = i ->
  exists y y0, nth_error ys c = Some y0 /\ nth_error ys a = Some y /\ nth_error ys b = Some y /\
    gp_engine y0 = gp_engine x /\ gp_engine y = gp_engine x /\ gp_pose y0 = gp_pose x /\ gp_pose y = gp_pose x.
Proof.
  intros G RV rv_copy f xs u f' ys i x c a b ND Ox NE E Oy Nx La Lb Dc Da Db. apply objects_refs in Ox. apply objects_refs in Oy.
  assert (T := try_resample_spec gp_weight gp_set_weight (gp_duplicate rv_copy) f xs u Ox ND NE).
  destruct (resampling_is_required (map gp_weight xs)); [|rewrite E in T; discriminate].
  destruct T as (f1 & E1 & _ & HR). rewrite E in E1. injection E1 as <-. cbv zeta in HR. set (inds := resample (map gp_weight xs) u) in *.
  set (ts := taken (gp_duplicate rv_copy) xs inds []) in *.
  assert (Y : ys = map (rescaled gp_weight gp_set_weight (total_weight (map gp_weight ts) (dofZ 0))) ts) by (apply objects_refs in HR; apply objects_refs in Oy; congruence).
  assert (NEw : map gp_weight xs <> []) by (destruct xs; [easy|discriminate]).
  assert (B := resample_bound (map gp_weight xs) u NEw). rewrite map_length in B. fold inds in B.
  assert (IN : forall d, (d < length xs)%nat -> draw (map gp_weight xs) 0 0 (u d) = i -> nth_error inds d = Some i).
  { intros d Ld Dd. unfold inds, resample. rewrite nth_error_map, map_length. rewrite (nth_error_nth' (seq 0 (length xs)) 0%nat) by (rewrite seq_length; exact Ld). rewrite seq_nth by exact Ld. cbn [option_map Nat.add]. f_equal. exact Dd. }
  assert (NC : exists z, nth_error ts c = Some z /\ gp_engine z = gp_engine x /\ gp_pose z = gp_pose x).
  { unfold ts. rewrite (taken_nth (gp_duplicate rv_copy) xs inds [] c i x B (IN c ltac:(lia) Dc) Nx). eexists. split; [reflexivity|]. destruct (existsb _ _); split; reflexivity. }
  assert (ND2 : forall d, (c < d < length xs)%nat -> draw (map gp_weight xs) 0 0 (u d) = i -> nth_error ts d = Some (gp_duplicate rv_copy x)).
  { intros d Ld Dd. unfold ts. rewrite (taken_nth (gp_duplicate rv_copy) xs inds [] d i x B (IN d ltac:(lia) Dd) Nx). cbn [app]. replace (existsb (Nat.eqb i) (firstn d inds)) with true; [reflexivity|].
    symmetry. apply existsb_eqb. apply nth_error_In with c. assert (Nc := IN c ltac:(lia) Dc).
    assert (L : (c < length (firstn d inds))%nat) by (rewrite firstn_length; split; [lia|apply Nat.min_glb_lt; [lia|apply nth_error_Some; congruence]] || (rewrite firstn_length; apply Nat.min_glb_lt; [lia|apply nth_error_Some; congruence])).
    rewrite <- (firstn_skipn d inds) in Nc. rewrite nth_error_app1 in Nc by exact L. exact Nc. }
  destruct NC as (z & Nz & Ez & Pz). eexists _, _. subst ys. rewrite !nth_error_map, Nz, (ND2 a La Da), (ND2 b Lb Db). cbn [option_map].
  split; [reflexivity|]. split; [reflexivity|]. split; [reflexivity|]. cbn [gp_engine gp_pose rescaled gp_set_weight]. rewrite <- Ez, <- Pz. auto 6.
Qed.
Print Assumptions C75_copies_have_the_same_random_engine_refuted.
(** ... and with a matcher whose answers from then on ([K]) depend on the scan and the pose only, equal particles draw the same noise and stay
    equal until the next resampling: they never explore different poses *)
Theorem C75_copies_stay_equal_refuted :
  forall (S M SM G RV : Type) (dcos dsin : R -> R) (rv_sample : RV -> G -> pose R * RV * G) (rv_copy : RV -> RV) (rv_zero : RV)
    (sm : SM -> S -> pose R -> M -> outcome (R * pose R * SM)) (adder : M -> pose R -> S -> R -> R -> outcome M) (answer : S -> pose R -> R * pose R) (K : SM -> Prop)
    guess lim seeds m0 k0 n f0 o0 h0 o1 f1 n1 o2 s1 o3 f2 n2 o4 h o5 f3 n3 p q,
  let run := gf_run dcos dsin rv_sample rv_copy rv_zero sm adder in
  (forall k s p m sc d k', K k -> sm k s p m = Ok (sc, d, k') -> (sc, d) = answer s p /\ K k') -> K (gf_sm f2) ->
  (0 < n)%nat -> gf_new rv_sample rv_copy rv_zero guess lim seeds m0 k0 n = Ok f0 -> run o0 f0 h0 = Ok (o1, f1, n1) ->
  run o2 f1 [EScan s1] = Ok (o3, f2, n2) -> pf_ptrs (gf_pf f2) <> pf_ptrs (gf_pf f1) ->
  run o4 f2 h = Ok (o5, f3, n3) -> ~ travelled_far (deltas h) -> twins f2 p q -> twins f3 p q.
Proof.
  intros S M SM G RV dcos dsin rv_sample rv_copy rv_zero sm adder answer K guess lim seeds m0 k0 n f0 o0 h0 o1 f1 n1 o2 s1 o3 f2 n2 o4 h o5 f3 n3 p q run PU HK Hn E0 E1 E2 C E3 NF T.
  destruct (gf_new_inv rv_sample rv_copy rv_zero guess lim seeds m0 k0 n Hn) as (fz & E & I & _). rewrite E0 in E. injection E as <-.
  assert (I1 : gf_inv 0 f1) by (eapply gf_run_inv; [exact I|exact E1]). assert (I2 : gf_inv 0 f2) by (eapply gf_run_inv; [exact I1|exact E2]).
  assert (Z : gf_trav f2 = mkPose 0 0 0). { destruct (scan_travel _ _ _ _ _ _ _ _ _ _ _ _ _ E2) as [[P _]|[_ Z]]; [contradiction|exact Z]. }
  assert (A : is_at (gf_trav f2) 0 0 0) by (rewrite Z; unfold is_at; cbn; lra).
  apply (twins_run dcos dsin rv_sample rv_copy rv_zero sm adder answer K PU h o4 f2 o5 f3 n3 p q 0 0 0 I2 HK A (Rle_refl 0) (Rle_refl 0) (Rle_refl 0) E3); [|exact T].
  intros FF. apply NF. unfold far, travelled_far in *. cbn [px py pth] in FF. rewrite !Rplus_0_l in FF. exact FF.
Qed.
Print Assumptions C75_copies_stay_equal_refuted.

(** equal particles after a resampling do occur: three particles, the matcher trusts its first pose only; afterwards two are equal *)
Example C75_case : exists f0 o o' f1 ns p q o'' f2 ns', gf_new ex_rv ex_id tt tt tt (fun _ => tt) tt 0%nat 3 = Ok f0 /\
  ex_run o f0 [EScan ex_scan] = Ok (o', f1, ns) /\ pf_ptrs (gf_pf f1) <> pf_ptrs (gf_pf f0) /\ p <> q /\ twins f1 p q /\ gf_sm f1 <> 0%nat /\
  (let small := mkTS (mkPose (1 / 2) 0 0) (tt, fun _ : nat => 1 / 2) 1 in ex_run o' f1 [EScan small] = Ok (o'', f2, ns') /\ ~ travelled_far (deltas [EScan small])).
Proof.
  destruct C71_case as (f0 & f1 & E0 & (o & o' & ns & E1) & C & (p & q & x & NE & Ip & Iq & Np & Nq) & HK).
  destruct (gf_new_inv ex_rv ex_id tt tt tt (fun _ => tt) tt 0%nat 3 ltac:(lia)) as (fz & Ez & I0 & _). rewrite E0 in Ez. injection Ez as <-.
  assert (I1 := E1). apply (gf_run_inv cos sin ex_rv ex_id tt ex_sm ex_adder 0) in I1; [|exact I0].
  destruct (run_total cos sin ex_rv ex_id tt ex_sm ex_adder ltac:(intros; unfold ex_sm; eauto) ltac:(intros; unfold ex_adder; eauto) [EScan (mkTS (mkPose (1 / 2) 0 0) (tt, fun _ : nat => 1 / 2) 1)] o' f1 I1) as ([[o3 f2] n2] & E2).
  exists f0, o, o', f1, ns, p, q, o3, f2, n2. split; [exact E0|]. split; [exact E1|]. split; [exact C|]. split; [exact NE|]. split; [exists Ip || (split; [exact Ip|]; split; [exact Iq|]; eauto)|].
  split; [exact HK|]. split; [exact E2|]. unfold travelled_far. cbn [deltas flat_map app total fold_right px py pth ts_delta]. rewrite !Rabs_R0, (Rabs_right (1 / 2)) by lra. lra.
Qed.
Example C75_matcher_case : forall k s p m sc d k', (fun k => k <> 0%nat) k -> ex_sm k s p m = Ok (sc, d, k') -> (sc, d) = (fun _ _ => (0, mkPose 0 0 0)) s p /\ (fun k => k <> 0%nat) k'.
Proof. intros k s p m sc d k' H E. unfold ex_sm in E. destruct (Nat.eqb_spec k 0); [contradiction|]. injection E as <- <- <-. split; [reflexivity|discriminate]. Qed.
(** three particles of weights 1, 0, 0 are replaced by the first and two copies of it *)
Example C75_copies_case : let x w := mkGP w (mkPose 1 2 0) (mkPose 0 0 0) false false tt tt tt (mkPose 0 0 0) (mkPose 1 1 1) 0 : gparticle R unit unit in
  exists f' ys, let f := mkPF [x 1; x 0; x 0] [0; 1; 2]%nat in
  NoDup (pf_ptrs f) /\ objects (pf_heap f) (pf_ptrs f) = Ok [x 1; x 0; x 0] /\
  pf_try_resample gp_weight gp_set_weight (gp_duplicate ex_id) f (fun _ => 1 / 2) = Ok (f', true) /\ objects (pf_heap f') (pf_ptrs f') = Ok ys /\
  draw (map gp_weight [x 1; x 0; x 0]) 0 0 (1 / 2) = 0%nat.
Proof.
  intros x. destruct (ex_resample [x 1; x 0; x 0] (x 1) (x 0) (x 0)) as (f' & E & _ & a & b & HR & _); try reflexivity.
  exists f', [a; b; b]. cbv zeta. split; [repeat constructor; cbn; intuition lia|]. split; [reflexivity|]. split; [exact E|]. split; [apply objects_refs; exact HR|].
  cbn [map gp_weight x draw]. replace (dlt (1 / 2) (dadd 0 1)) with true; [reflexivity|]. symmetry. apply R_lt_true. cbn [dadd ROps]. lra.
Qed.

(** C76.  The single-hypothesis world, any matcher and adder, watched: each scan of a history is matched once, from the pose
    moved by its odometry, and added to the map once, at the corrected pose, with the configured hole width and with the
    quality for localized scans when the correction is more than 1e-7 in a component, with the one for raw scans otherwise. *)
Lemma nonzero_corrected (d : pose R) : delta_nonzero d = true <-> corrected d.
Proof.
  assert (A : forall a : R, are_equal a (dofZ 0) = false <-> 1 / 10000000 < Rabs a).
  { intros a. rewrite <- not_true_iff_false, R_are_equal. cbn [dofZ ROps]. unfold tol. rewrite Rminus_0_r, Rabs_R0.
    assert (H := Rabs_pos a). rewrite (Rmax_left (Rabs a) 0) by lra. unfold Rmax. destruct (Rle_dec 1 (Rabs a)); lra. }
  unfold delta_nonzero, corrected. rewrite !orb_true_iff, !negb_true_iff, !A. tauto.
Qed.
Theorem C76_single_hypothesis_maps_each_scan_once :
  forall (S M SM : Type) (reset : SM -> SM) (sm : SM -> S -> pose R -> M -> outcome (R * pose R * SM)) (adder : M -> pose R -> S -> R -> R -> outcome M)
    (q_localized q_raw margin : R) o p0 m0 k0 log0 history o' w' notes,
  let reset' k := (reset (fst k), snd k) in
  ss_run reset' (watch_sm sm) (watch_adder adder) q_localized q_raw margin o (mkSS p0 (m0, []) (k0, []) log0) history = Ok (o', w', notes) ->
  explained q_localized q_raw margin p0 (scans_of history) (snd (ss_sm w')) (snd (ss_map w')) (ss_pose w').
Proof.
  intros S M SM reset sm adder ql qr mg o p0 m0 k0 log0 history o' w' notes reset' E.
  assert (G : forall h o w o' w' ns, ss_run reset' (watch_sm sm) (watch_adder adder) ql qr mg o w h = Ok (o', w', ns) ->
    exists cs us, snd (ss_sm w') = snd (ss_sm w) ++ cs /\ snd (ss_map w') = snd (ss_map w) ++ us /\ explained ql qr mg (ss_pose w) (scans_of h) cs us (ss_pose w')).
  { clear. unfold ss_run. induction h as [|[id|id|id|s] h IH]; intros o w o' w' ns E; cbn [world_run] in E.
    - injection E as <- <- <-. exists [], []. rewrite !app_nil_r. cbn. auto.
    - exact (IH _ _ _ _ _ E).
    - exact (IH _ _ _ _ _ E).
    - exact (IH _ _ _ _ _ E).
    - apply bind_Ok_inv in E as ([w1 n1] & E1 & E). apply bind_Ok_inv in E as ([[o3 w3] n3] & E2 & E). injection E as <- <- <-.
      apply IH in E2 as (cs & us & A & B & C). unfold handle_sensor_data in E1. cbn [bind] in E1. apply bind_Ok_inv in E1 as (w2 & E3 & E1).
      injection E1 as <- <-. unfold ss_observe in E3. cbn [ss_update ss_pose ss_map ss_sm ss_log] in E3.
      apply bind_Ok_inv in E3 as ([[prob d] k1] & E4 & E3). apply bind_Ok_inv in E3 as (m & E5 & E3). injection E3 as <-. cbn [ss_sm ss_map ss_pose ss_update] in *.
      unfold watch_sm in E4. apply bind_Ok_inv in E4 as ([[sc co] k2] & _ & E4). injection E4 as <- <- <-.
      unfold watch_adder in E5. apply bind_Ok_inv in E5 as (m2 & _ & E5). injection E5 as <-. cbn [snd fst] in A, B.
      eexists (_ :: cs), (_ :: us). split; [rewrite A; unfold reset'; cbn [snd]; rewrite <- app_assoc; reflexivity|]. split; [rewrite B, <- app_assoc; reflexivity|].
      cbn [scans_of flat_map app explained c_start c_corr u_pose u_scan u_margin u_quality]. do 4 (split; [reflexivity|]). split; [|split; [|exact C]].
      + intros H. apply nonzero_corrected in H. rewrite H. reflexivity.
      + intros H. destruct (delta_nonzero co) eqn:Q; [apply nonzero_corrected in Q; contradiction|reflexivity]. }
  apply G in E as (cs & us & A & B & C). rewrite A, B. exact C.
Qed.
Print Assumptions C76_single_hypothesis_maps_each_scan_once.
Example C76_case : exists o' w' ns,
  ss_run (fun k => (fst k, snd k)) (watch_sm (fun (k : unit) (s : unit) p (m : unit) => Ok (1, mkPose 1 0 0, k))) (watch_adder (fun m _ _ _ _ => Ok m)) (9 / 10) (6 / 10) (1 / 2)
    wo_new (mkSS (mkPose 0 0 0) (tt, []) (tt, []) []) [EScan (mkTS (mkPose 2 0 0) tt 1); ESubPose 3; EScan (mkTS (mkPose 0 3 0) tt 1)] = Ok (o', w', ns) /\
  length (snd (ss_map w')) = 2%nat /\ length ns = 1%nat.
Proof. do 3 eexists. split; [reflexivity|]. split; reflexivity. Qed.
