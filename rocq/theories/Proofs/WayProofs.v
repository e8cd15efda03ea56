(** When a GMapping filter resamples, in any arithmetic in which longer ways are not shorter; binary64 is one. *)
From Coq Require Import Reals ZArith List Lia Lra Bool.
From Flocq Require Import Core IEEE754.BinarySingleNaN IEEE754.Binary IEEE754.Bits.
From Verif.Base Require Import Outcome Num F64Facts.
From Verif.Model Require Import MathUtils Geometry Sensor Histogram World ParticleFilter Gmapping.
From Verif.Spec Require Import WorldSpec ParticleSpec WaySpec.
From Verif.Proofs Require Import ParticleProofs WorldProofs NormFloatProofs TbmFloatProofs.
Import ListNotations.

Section Travel.
  Context {D S M SM G RV : Type} {ops : DOps D} (dcos dsin : D -> D) (rv_sample : RV -> G -> pose D * RV * G) (rv_copy : RV -> RV) (rv_zero : RV)
    (sm : SM -> S -> pose D -> M -> outcome (D * pose D * SM)) (adder : M -> pose D -> S -> D -> D -> outcome M).
  Local Notation run := (gf_run dcos dsin rv_sample rv_copy rv_zero sm adder).
  Local Notation ptrs f := (pf_ptrs (gf_pf f)).
  Notation near t := (dle (delta_sq_dist t) (dlit 1 2) && dle (pth t) (dlit 1 5))%bool.
  Notation go := (fun w d => pose_add w (delta_abs d)).
  Notation zero := (mkPose (dofZ 0) (dofZ 0) (dofZ 0) : pose D).

  Lemma way_go ds : way ds = fold_left go ds zero.
  Proof. reflexivity. Qed.
  Lemma scan_travel_gen o f s o' f' ns : run o f [EScan s] = Ok (o', f', ns) -> let t := pose_add (gf_trav f) (delta_abs (ts_delta s)) in
    (ptrs f' = ptrs f /\ gf_trav f' = t) \/ (near t = false /\ gf_trav f' = zero).
  Proof.
    unfold gf_run. cbn [world_run]. intros E. apply bind_Ok_inv in E as ([w n] & E & E'). injection E' as _ <- _. unfold handle_sensor_data in E.
    apply bind_Ok_inv in E as (f1 & E1 & E). apply bind_Ok_inv in E as (f2 & E2 & E). apply bind_Ok_inv in E as (p & _ & E). apply bind_Ok_inv in E as (m & _ & E). injection E as <- _.
    unfold gf_update in E1. apply bind_Ok_inv in E1 as (h1 & _ & E1). injection E1 as <-. unfold gf_observe in E2. cbn [gf_trav gf_pf gf_maps gf_sm pf_ptrs pf_heap] in E2.
    apply bind_Ok_inv in E2 as ([[maps sm'] h] & _ & E2). apply bind_Ok_inv in E2 as (p1 & En & E2).
    unfold normalize_weights in En. apply bind_Ok_inv in En as (xs & _ & En). apply bind_Ok_inv in En as (h2 & _ & En). injection En as <-.
    unfold gf_try_resample in E2. cbn [gf_trav gf_pf gf_maps gf_sm] in E2. set (t := pose_add (gf_trav f) (delta_abs (ts_delta s))) in *.
    destruct (near t) eqn:Q.
    - injection E2 as <-. left. auto.
    - apply bind_Ok_inv in E2 as ([p2 r] & Er & E2). destruct r; cbn [negb] in E2.
      + apply bind_Ok_inv in E2 as (p3 & _ & E2). injection E2 as <-. right. split; [reflexivity|reflexivity].
      + injection E2 as <-. left. split; [|reflexivity]. cbn [gf_pf].
        unfold pf_try_resample in Er. apply bind_Ok_inv in Er as (ys & _ & Er). destruct (negb _); [injection Er as <-; reflexivity|].
        apply bind_Ok_inv in Er as ([h3 q] & _ & Er). apply bind_Ok_inv in Er as (f3 & _ & Er). discriminate Er.
  Qed.
  (** the travel is the way of the last part of the odometry *)
  Lemma run_suffix h : forall o f o' f' ns, run o f h = Ok (o', f', ns) ->
    gf_trav f' = fold_left go (odometry h) (gf_trav f) \/ exists ds1 ds2, odometry h = ds1 ++ ds2 /\ gf_trav f' = way ds2.
  Proof.
    induction h as [|e h IH]; intros o f o' f' ns E.
    - unfold gf_run in E. cbn [world_run] in E. injection E as _ <- _. left. reflexivity.
    - change (e :: h) with ([e] ++ h) in E. unfold gf_run in E. apply world_run_app in E as (o1 & f1 & n1 & n2 & E1 & E2 & _).
      destruct e as [id|id|id|s]; try (cbn [world_run] in E1; injection E1 as <- <- <-; apply (IH _ _ _ _ _ E2)).
      apply scan_travel_gen in E1. cbv zeta in E1. cbn [odometry flat_map app fold_left]. fold (odometry h).
      destruct (IH _ _ _ _ _ E2) as [K|(ds1 & ds2 & K1 & K2)].
      + destruct E1 as [[_ T]|[_ T]]; rewrite T in K; [left; exact K|]. right. exists [ts_delta s], (odometry h). split; [reflexivity|exact K].
      + right. exists (ts_delta s :: ds1), ds2. rewrite K1. split; [reflexivity|exact K2].
  Qed.
  Lemma odometry_snoc (h : list (wevent D (S * (nat -> D)))) s : odometry (h ++ [EScan s]) = odometry h ++ [ts_delta s].
  Proof. unfold odometry. rewrite flat_map_app. reflexivity. Qed.
  Lemma change_far_gen o f h s o1 f1 n1 o2 f2 n2 o3 : gf_trav f = zero -> run o f h = Ok (o1, f1, n1) -> run o3 f1 [EScan s] = Ok (o2, f2, n2) -> ptrs f2 <> ptrs f1 ->
    exists ds1 ds2, odometry (h ++ [EScan s]) = ds1 ++ ds2 /\ short ds2 = false.
  Proof.
    intros Z E1 E2 C. destruct (scan_travel_gen _ _ _ _ _ _ E2) as [[P _]|[F _]]; [contradiction|]. rewrite odometry_snoc.
    apply run_suffix in E1. assert (K : exists ds1 ds2, odometry h = ds1 ++ ds2 /\ gf_trav f1 = way ds2) by (destruct E1 as [E1|E1]; [exists [], (odometry h); rewrite Z in E1; auto|exact E1]).
    destruct K as (ds1 & ds2 & K1 & K2). exists ds1, (ds2 ++ [ts_delta s]). split; [rewrite K1, <- app_assoc; reflexivity|].
    unfold short. rewrite way_go, fold_left_app, <- way_go, <- K2. exact F.
  Qed.
  Lemma scan_due_gen o f s o' f' ns : run o f [EScan s] = Ok (o', f', ns) -> near (pose_add (gf_trav f) (delta_abs (ts_delta s))) = false ->
    exists p xs, pf_ptrs p = ptrs f /\ objects (pf_heap p) (pf_ptrs p) = Ok xs /\
    if resampling_is_required (map gp_weight xs)
    then exists p', pf_try_resample gp_weight gp_set_weight (gp_duplicate rv_copy) p (snd (ts_scan s)) = Ok (p', true) /\ ptrs f' = pf_ptrs p'
    else gf_pf f' = p.
  Proof.
    unfold gf_run. cbn [world_run]. intros E Q. apply bind_Ok_inv in E as ([w n] & E & E'). injection E' as _ <- _. unfold handle_sensor_data in E.
    apply bind_Ok_inv in E as (f1 & E1 & E). apply bind_Ok_inv in E as (f2 & E2 & E). apply bind_Ok_inv in E as (p & _ & E). apply bind_Ok_inv in E as (m & _ & E). injection E as <- _.
    unfold gf_update in E1. apply bind_Ok_inv in E1 as (h1 & _ & E1). injection E1 as <-. unfold gf_observe in E2. cbn [gf_trav gf_pf gf_maps gf_sm pf_ptrs pf_heap] in E2.
    apply bind_Ok_inv in E2 as ([[maps sm'] h] & _ & E2). apply bind_Ok_inv in E2 as (p1 & En & E2).
    unfold normalize_weights in En. apply bind_Ok_inv in En as (xs & _ & En). apply bind_Ok_inv in En as (h2 & _ & En). injection En as <-. cbn [pf_ptrs] in E2.
    unfold gf_try_resample in E2. cbn [gf_trav gf_pf gf_maps gf_sm] in E2. set (t := pose_add (gf_trav f) (delta_abs (ts_delta s))) in *.
    rewrite Q in E2.
    apply bind_Ok_inv in E2 as ([p2 r] & Er & E2). assert (Er' := Er). unfold pf_try_resample in Er. apply bind_Ok_inv in Er as (ys & Ey & Er).
    exists (mkPF h2 (ptrs f)), ys. split; [reflexivity|]. split; [exact Ey|].
    destruct (resampling_is_required (map gp_weight ys)); cbn [negb] in Er.
    - apply bind_Ok_inv in Er as ([h3 q] & _ & Er). apply bind_Ok_inv in Er as (f3 & _ & Er). injection Er as -> <-. cbn [negb] in E2. apply bind_Ok_inv in E2 as (p3 & Em & E2). injection E2 as <-.
      exists p2. split; [exact Er'|]. cbn [gf_pf]. unfold gf_ensure_master in Em. apply bind_Ok_inv in Em as (zs & _ & Em). destruct (existsb _ _); [injection Em as <-; reflexivity|].
      apply bind_Ok_inv in Em as (k & _ & Em). injection Em as <-. reflexivity.
    - injection Er as <- <-. cbn [negb] in E2. injection E2 as <-. reflexivity.
  Qed.

  (** parts of a short way are short *)
  Hypothesis growing : forall ds1 ds2 : list (pose D), short (ds1 ++ ds2) = true -> short ds1 = true /\ short ds2 = true.
  Lemma run_near_gen h : forall ds o f o' f' ns, gf_trav f = way ds -> run o f h = Ok (o', f', ns) -> short (ds ++ odometry h) = true ->
    gf_trav f' = way (ds ++ odometry h) /\ ptrs f' = ptrs f.
  Proof using growing.
    induction h as [|e h IH]; intros ds o f o' f' ns T E N.
    - unfold gf_run in E. cbn [world_run] in E. injection E as _ <- _. cbn [odometry flat_map] in *. rewrite app_nil_r. auto.
    - change (e :: h) with ([e] ++ h) in E. unfold gf_run in E. apply world_run_app in E as (o1 & f1 & n1 & n2 & E1 & E2 & _).
      destruct e as [id|id|id|s]; try (cbn [world_run] in E1; injection E1 as <- <- <-; apply (IH _ _ _ _ _ _ T E2 N)).
      cbn [odometry flat_map app] in N |- *. fold (odometry h) in N |- *. replace (ds ++ ts_delta s :: odometry h) with ((ds ++ [ts_delta s]) ++ odometry h) in N |- * by (rewrite <- app_assoc; reflexivity).
      apply scan_travel_gen in E1. cbv zeta in E1. rewrite T in E1. assert (W : pose_add (way ds) (delta_abs (ts_delta s)) = way (ds ++ [ts_delta s])) by (rewrite !way_go, fold_left_app; reflexivity).
      rewrite W in E1. destruct E1 as [[P T1]|[F _]].
      + destruct (IH _ _ _ _ _ _ T1 E2 N) as [K1 K2]. split; [exact K1|congruence].
      + exfalso. apply growing in N as [N _]. unfold short in N. unfold delta_sq_dist in F. congruence.
  Qed.
  Lemma first_far_gen o f h o1 f1 n1 o2 s o3 f2 n2 : gf_trav f = zero -> run o f h = Ok (o1, f1, n1) -> run o2 f1 [EScan s] = Ok (o3, f2, n2) ->
    short (odometry h) = true -> short (odometry (h ++ [EScan s])) = false ->
    ptrs f1 = ptrs f /\ near (pose_add (gf_trav f1) (delta_abs (ts_delta s))) = false.
  Proof using growing.
    intros Z E1 E2 N F. destruct (run_near_gen h [] _ _ _ _ _ Z E1 N) as [T P]. split; [exact P|]. rewrite T. cbn [app].
    rewrite odometry_snoc in F. unfold short in F. rewrite way_go, fold_left_app in F. exact F.
  Qed.
  Lemma change_far_whole o f h s o1 f1 n1 o2 f2 n2 o3 : gf_trav f = zero -> run o f h = Ok (o1, f1, n1) -> run o3 f1 [EScan s] = Ok (o2, f2, n2) -> ptrs f2 <> ptrs f1 ->
    short (odometry (h ++ [EScan s])) = false.
  Proof using growing.
    intros Z E1 E2 C. destruct (change_far_gen _ _ _ _ _ _ _ _ _ _ _ Z E1 E2 C) as (ds1 & ds2 & E & F). rewrite E. apply not_true_is_false. intros N. apply growing in N as [_ N]. congruence.
  Qed.
End Travel.
