(** C98: the common map of GMapping's particles is what the particles saw. *)
From Coq Require Import Reals ZArith List Bool Lia Lra.
From Flocq Require Import Core.
From Verif.Base Require Import Outcome Num F64Facts.
From Verif.Model Require Import MathUtils Geometry Grid PlainMap LazyMap Cells Sensor ScanAdder Histogram AreaEstimator World ParticleFilter Gmapping Config WholeSlam.
From Verif.Spec Require Import GeometrySpec MapSpec ScanSpec ManyMapsSpec WholeMapSpec GmMapSpec.
From Verif.Proofs Require Import AreaRange HistProofs ParticleProofs GmMapProofs.
From Verif.Props Require Import WholeMapProps.
Import ListNotations.

(** Whatever matcher, noise, weights, resampling, odometry, cell class, estimators and blurring; any of the four map classes: a new
    filter of [n] particles that has handled a history has, scan by scan, added the scan with its quality at the corrected poses of
    some of its particles, once for each of them and in their order.  After every prefix of the history the pose it reports is that
    of one of the particles at the last scan, and every cell of the map it reports is the prototype with all the observations of
    everything that has been added so far, in this order (when all that can be inserted). *)
Theorem C98_map_is_what_the_particles_saw :
  forall (SM G RV : Type) (sm_process : SM -> whole_scan F64 -> pose F64 -> amap F64 -> outcome (F64 * pose F64 * SM))
    (rv_sample : RV -> G -> pose F64 * RV * G) (rv_copy : RV -> RV) (rv_zero : RV) (gcos gsin : F64 -> F64)
    (proto : acell F64) (grow : Z -> Z -> coord -> coord -> Z * Z * coord) (impact : acell F64 -> F64) (bound : nat)
    (shift nan : F64) (dcos dsin dacos : F64 -> F64) (mpi : F64) (datan2 : F64 -> F64 -> F64) (k : adder_config F64)
    (kind : map_kind) (w h B : Z) guess lim seeds m0 sm0 n f0 (o : wobservers) history o' f' notes,
  let run := gf_run gcos gsin rv_sample rv_copy rv_zero (watching_sm sm_process)
    (watching_adder (whole_append proto grow impact bound shift nan dcos dsin dacos mpi datan2 k)) in
  let insert e := insertable shift nan dcos dsin dacos mpi datan2 k 0 (area kind w h B) (en_pose e) (en_scan e) in
  F_fin (ac_scale k) = true -> (0 < F2R64 (ac_scale k) <= bpow radix2 900)%R -> size_ok kind w h B ->
  new_amap proto kind w h = Ok m0 -> (0 < n)%nat -> gf_new rv_sample rv_copy rv_zero guess lim seeds (m0, []) sm0 n = Ok f0 ->
  run o f0 history = Ok (o', f', notes) ->
  exists steps, Forall2 (step_of n) (all_scans history) steps /\
    forall h1 h2, history = h1 ++ h2 -> exists o1 f1 n1 m p, run o f0 h1 = Ok (o1, f1, n1) /\
      let seen := firstn (length (all_scans h1)) steps in
      gf_map f1 = Ok (m, added seen) /\ gf_pose f1 = Ok p /\ (forall before st, seen = before ++ [st] -> In p (st_poses st)) /\
      (Forall insert (added seen) ->
       forall c, readable kind w h c -> amap_get m c = Ok (cell_of shift nan dcos dsin dacos mpi datan2 k 0 proto (added seen) c)).
Proof.
  intros * Fs Hs Hz Hm Hn E0 Er.
  destruct (gf_new_inv rv_sample rv_copy rv_zero guess lim seeds (m0, @nil entry) sm0 n Hn) as (f1 & E & I & L). rewrite E0 in E. apply Ok_inj in E. subst f1.
  assert (EM : gf_maps f0 = [(m0, [])]). { unfold gf_new in E0. apply bind_Ok_inv in E0 as (hh & _ & E0). apply bind_Ok_inv in E0 as (p & _ & E0). apply Ok_inj in E0. rewrite <- E0. reflexivity. }
  assert (J := I). destruct J as (xs & R & _). assert (LX : length xs = n) by (rewrite <- L; clear -R; induction R; cbn; congruence).
  destruct (gm_run proto grow impact bound shift nan dcos dsin dacos mpi datan2 k gcos gsin rv_sample rv_copy rv_zero sm_process m0 n history o f0 o' f' notes [] xs m0 I R LX EM eq_refl) as (steps & F & H);
    [intros s0 st X; destruct s0; discriminate X|exact Er|].
  exists steps. split; [exact F|]. intros h1 h2 Eh. destruct (H h1 h2 Eh) as (o1 & f1 & n1 & E1 & m & p & E2 & E3 & E4 & E5). cbn [app] in *.
  exists o1, f1, n1, m, p. split; [exact E1|]. cbv zeta. split; [exact E2|]. split; [exact E3|]. split; [exact E5|]. intros HI.
  exact (add_all_cells proto grow impact bound shift nan dcos dsin dacos mpi datan2 k kind w h B Fs Hs Hz m0 _ m Hm HI E4).
Qed.
Print Assumptions C98_map_is_what_the_particles_saw.

(** And watching changes nothing: without the lists, the run is that of the program, from any state, however it ends. *)
Theorem C98_watching_changes_nothing :
  forall (SM G RV : Type) (sm_process : SM -> whole_scan F64 -> pose F64 -> amap F64 -> outcome (F64 * pose F64 * SM))
    (rv_sample : RV -> G -> pose F64 * RV * G) (rv_copy : RV -> RV) (rv_zero : RV) (gcos gsin : F64 -> F64)
    (adder : amap F64 -> pose F64 -> whole_scan F64 -> F64 -> F64 -> outcome (amap F64)) o f history,
  gf_run gcos gsin rv_sample rv_copy rv_zero sm_process adder o (unwatched f) history =
  omap (fun r => (fst (fst r), unwatched (snd (fst r)), map unwatched_note (snd r)))
    (gf_run gcos gsin rv_sample rv_copy rv_zero (watching_sm sm_process) (watching_adder adder) o f history).
Proof. intros. apply run_erase. Qed.
Print Assumptions C98_watching_changes_nothing.

(** *** three particles, two scans of two points; the matcher corrects all poses; the draws alternate *)
Definition g_pts (r : Z) : list (scan_point F64) :=
  map (fun p => sp_make_polar (fst p) (snd p) true) [(dofZ r, dlit 1 10); (dlit (2 * r + 1) 2, dlit (-1) 5)].
Definition g_scan (r : Z) : tr_scan F64 (whole_scan F64 * (nat -> F64)) :=
  mkTS (mkPose (dlit 1 10) (dlit 1 20) (dlit 1 30)) ((g_pts r, raw_trig x_cos x_sin), fun _ => dlit 1 3) (dofZ 1).
Definition g_rv (v : bool) (g : nat) : pose F64 * bool * nat := (mkPose (dlit (Z.of_nat g) 100) (dofZ 0) (dofZ 0), negb v, S g).
Definition g_sm (k : nat) (s : whole_scan F64) (p : pose F64) (m : amap F64) : outcome (F64 * pose F64 * nat) := Ok (dlit 1 2, x_corr, S k).
Definition g_proto : acell F64 := CGmapping gm_new.
Definition g_history : list (wevent F64 (whole_scan F64 * (nat -> F64))) := [ESubMap 7; EScan (g_scan 3); ESubPose 8; EScan (g_scan 4)].
Notation g_adder := (whole_append g_proto (fun w h o _ => (w, h, o)) acell_prob 10 (dlit 1 200) x_nan x_cos x_sin x_cos (dlit 314159 100000) x_atan2 x_k).
Notation g_insert := (fun e => insertable (dlit 1 200) x_nan x_cos x_sin x_cos (dlit 314159 100000) x_atan2 x_k 0 (area UnboundedPlainKind 2 2 15) (en_pose e) (en_scan e)).
Notation g_run := (gf_run x_cos x_sin g_rv (fun v => v) false (watching_sm g_sm) (watching_adder g_adder)).
Notation g_new := (gf_new g_rv (fun v => v) false false false (fun i => i) (MUnbounded (pmap_new g_proto 2 2), []) 0%nat 3).
Definition g_beams (p : pose F64) (r : Z) : bool :=
  forallb (fun ip => let pt := snd ip in let a := sp_angle x_atan2 pt in
    beam_check (mkSegment (px p, py p) (dadd (px p) (dmul (sp_range pt) (x_cos (dadd (pth p) a))), dadd (py p) (dmul (sp_range pt) (x_sin (dadd (pth p) a)))))) (numbered 0 (g_pts r)).
Definition g_check : bool :=
  match g_new with
  | Ok f0 => match g_run wo_new f0 g_history with
             | Ok (_, f, notes) => match gf_map f with
                                   | Ok (m, es) => (length es =? 6)%nat && (length notes =? 3)%nat && forallb (fun e => g_beams (en_pose e) 3 && g_beams (en_pose e) 4) es
                                   | _ => false
                                   end
             | _ => false
             end
  | _ => false
  end.
Lemma g_check_ok : g_check = true. Proof. vm_cast_no_check (eq_refl true). Qed.
Lemma g_insertable p r : g_beams p r = true ->
  insertable (dlit 1 200) x_nan x_cos x_sin x_cos (dlit 314159 100000) x_atan2 x_k 0 (area UnboundedPlainKind 2 2 15) p (fst (ts_scan (g_scan r))).
Proof.
  intros H. unfold g_scan. cbn [ts_scan fst]. eapply C95_constant_estimates_are_always_given; [reflexivity|reflexivity|cbn; lia|cbn; lia|].
  intros i pt Hin. cbv zeta. intros _. unfold g_beams in H. rewrite forallb_forall in H. specialize (H _ Hin). cbn [snd] in H. apply beam_check_ok in H as (F1 & F2 & c0 & c1 & E0 & A0 & E1 & A1).
  do 2 (split; [assumption|]). exists c0, c1. cbn [ac_scale x_k]. auto.
Qed.
Example C98_case : exists f0 o' f' notes m es, g_new = Ok f0 /\ g_run wo_new f0 g_history = Ok (o', f', notes) /\ gf_map f' = Ok (m, es) /\ length es = 6%nat /\ Forall g_insert es.
Proof.
  assert (H := g_check_ok). unfold g_check in H. destruct g_new as [f0| | |] eqn:E0; try discriminate. destruct (g_run wo_new f0 g_history) as [[[o' f'] notes]| | |] eqn:E1; try discriminate.
  destruct (gf_map f') as [[m es]| | |] eqn:E2; try discriminate. exists f0, o', f', notes, m, es. do 3 (split; [auto|]). apply andb_prop in H as [H HB]. apply andb_prop in H as [H _]. apply Nat.eqb_eq in H. split; [exact H|].
  destruct x_scale as [S1 S2]. assert (Z1 : size_ok UnboundedPlainKind 2 2 15) by (unfold size_ok; lia).
  destruct (C98_map_is_what_the_particles_saw _ _ _ g_sm g_rv (fun v => v) false x_cos x_sin g_proto (fun w h o _ => (w, h, o)) acell_prob 10 (dlit 1 200) x_nan x_cos x_sin x_cos (dlit 314159 100000) x_atan2 x_k
    UnboundedPlainKind 2 2 15 false false (fun i => i) _ 0%nat 3 f0 wo_new g_history o' f' notes S1 S2 Z1 eq_refl ltac:(lia) E0 E1) as (steps & F & HP).
  destruct (HP g_history [] ltac:(rewrite app_nil_r; reflexivity)) as (o1 & f1 & n1 & m1 & p1 & R1 & M1 & _). rewrite E1 in R1. apply Ok_inj in R1. assert (X : f1 = f') by congruence. subst f1. clear R1 HP.
  rewrite E2 in M1. apply Ok_inj in M1. assert (X : es = added (firstn (length (all_scans g_history)) steps)) by congruence. clear M1.
  assert (L : length (all_scans g_history) = length steps) by (clear -F; induction F; cbn [length]; congruence). rewrite L, firstn_all in X. subst es.
  cbn [g_history all_scans flat_map app] in F. inversion F as [|? s1 ? l1 A1 F1]; subst. inversion F1 as [|? s2 ? l2 A2 F2]; subst. inversion F2; subst. clear F F1 F2.
  rewrite forallb_forall in HB. apply Forall_forall. intros e He. specialize (HB e He). apply andb_prop in HB as [B3 B4]. cbn [added flat_map] in He. rewrite app_nil_r in He.
  destruct A1 as (_ & _ & A1). destruct A2 as (_ & _ & A2). rewrite Forall_forall in A1, A2. apply in_app_or in He as [He|He].
  - destruct (A1 e He) as [-> _]. apply g_insertable. exact B3.
  - destruct (A2 e He) as [-> _]. apply g_insertable. exact B4.
Qed.
