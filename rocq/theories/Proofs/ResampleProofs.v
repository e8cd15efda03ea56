(** When a GMapping filter resamples: the travel accumulated since the last resampling. *)
From Coq Require Import Reals ZArith List Lia Lra Bool.
From Verif.Base Require Import Outcome Num OrdLaws.
From Verif.Model Require Import MathUtils Geometry Sensor Histogram World ParticleFilter Gmapping.
From Verif.Spec Require Import WorldSpec ParticleSpec TravelSpec.
From Verif.Proofs Require Import ParticleProofs WorldProofs.
Import ListNotations.
Local Open Scope R_scope.

Section Travel.
  Context {S M SM G RV : Type} (dcos dsin : R -> R) (rv_sample : RV -> G -> pose R * RV * G) (rv_copy : RV -> RV) (rv_zero : RV)
    (sm : SM -> S -> pose R -> M -> outcome (R * pose R * SM)) (adder : M -> pose R -> S -> R -> R -> outcome M).
  Local Notation run := (gf_run dcos dsin rv_sample rv_copy rv_zero sm adder).
  Local Notation ptrs f := (pf_ptrs (gf_pf f)).
  Definition far (t : pose R) : Prop := 1 / 2 < px t * px t + py t * py t \/ 1 / 5 < pth t.
  Lemma not_far (t : pose R) : (dle (delta_sq_dist t) (dlit 1 2) && dle (pth t) (dlit 1 5))%bool = true <-> ~ far t.
  Proof.
    unfold delta_sq_dist, far, dlit. cbn [dle dadd dmul ddiv dofZ ROps]. rewrite andb_true_iff. unfold R_le.
    destruct (Rle_dec (px t * px t + py t * py t) (1 / 2)), (Rle_dec (pth t) (1 / 5)).
    - split; [intros _ [?|?]; lra|auto].
    - split; [intros [_ ?]; discriminate|intros N; exfalso; apply N; lra].
    - split; [intros [? _]; discriminate|intros N; exfalso; apply N; lra].
    - split; [intros [? _]; discriminate|intros N; exfalso; apply N; lra].
  Qed.
  (** one scan: the pointers stay and the travel grows, or the robot was far and the travel starts again *)
  Lemma scan_travel o f s o' f' ns : run o f [EScan s] = Ok (o', f', ns) -> let t := pose_add (gf_trav f) (delta_abs (ts_delta s)) in
    (ptrs f' = ptrs f /\ gf_trav f' = t) \/ (far t /\ gf_trav f' = mkPose 0 0 0).
  Proof.
    unfold gf_run. cbn [world_run]. intros E. apply bind_Ok_inv in E as ([w n] & E & E'). injection E' as _ <- _. unfold handle_sensor_data in E.
    apply bind_Ok_inv in E as (f1 & E1 & E). apply bind_Ok_inv in E as (f2 & E2 & E). apply bind_Ok_inv in E as (p & _ & E). apply bind_Ok_inv in E as (m & _ & E). injection E as <- _.
    unfold gf_update in E1. apply bind_Ok_inv in E1 as (h1 & _ & E1). injection E1 as <-. unfold gf_observe in E2. cbn [gf_trav gf_pf gf_maps gf_sm pf_ptrs pf_heap] in E2.
    apply bind_Ok_inv in E2 as ([[maps sm'] h] & _ & E2). apply bind_Ok_inv in E2 as (p1 & En & E2).
    unfold normalize_weights in En. apply bind_Ok_inv in En as (xs & _ & En). apply bind_Ok_inv in En as (h2 & _ & En). injection En as <-.
    unfold gf_try_resample in E2. cbn [gf_trav gf_pf gf_maps gf_sm] in E2. set (t := pose_add (gf_trav f) (delta_abs (ts_delta s))) in *.
    destruct (dle (delta_sq_dist t) (dlit 1 2) && dle (pth t) (dlit 1 5))%bool eqn:Q.
    - injection E2 as <-. left. auto.
    - apply bind_Ok_inv in E2 as ([p2 r] & Er & E2). destruct r; cbn [negb] in E2.
      + apply bind_Ok_inv in E2 as (p3 & _ & E2). injection E2 as <-. right. split; [|reflexivity].
        destruct (Rlt_dec (1 / 2) (px t * px t + py t * py t)) as [?|A]; [left; assumption|]. destruct (Rlt_dec (1 / 5) (pth t)) as [?|B]; [right; assumption|].
        exfalso. assert (T : ~ far t) by (unfold far; tauto). apply not_far in T. congruence.
      + injection E2 as <-. left. split; [|reflexivity]. cbn [gf_pf].
        unfold pf_try_resample in Er. apply bind_Ok_inv in Er as (ys & _ & Er). destruct (negb _); [injection Er as <-; reflexivity|].
        apply bind_Ok_inv in Er as ([h3 q] & _ & Er). apply bind_Ok_inv in Er as (f3 & _ & Er). discriminate Er.
  Qed.
  Lemma total_pos f ds : 0 <= total f ds.
  Proof. induction ds as [|d ds IH]; cbn; [lra|]. assert (H := Rabs_pos (f d)). unfold total in IH. lra. Qed.
  Definition within (t : pose R) (x y th : R) : Prop := 0 <= px t <= x /\ 0 <= py t <= y /\ 0 <= pth t <= th.
  Lemma run_travel h : forall o f o' f' ns x y th, within (gf_trav f) x y th -> run o f h = Ok (o', f', ns) ->
    within (gf_trav f') (x + total (@px R) (deltas h)) (y + total (@py R) (deltas h)) (th + total (@pth R) (deltas h)).
  Proof.
    induction h as [|e h IH]; intros o f o' f' ns x y th W E.
    - unfold gf_run in E. cbn [world_run] in E. injection E as _ <- _. cbn. unfold within in *. lra.
    - change (e :: h) with ([e] ++ h) in E. unfold gf_run in E. apply world_run_app in E as (o1 & f1 & n1 & n2 & E1 & E2 & _).
      destruct e as [id|id|id|s]; try (cbn [world_run] in E1; injection E1 as <- <- <-; apply (IH _ _ _ _ _ _ _ _ W E2)).
      assert (T := scan_travel _ _ _ _ _ _ E1). cbv zeta in T.
      assert (W1 : within (gf_trav f1) (x + Rabs (px (ts_delta s))) (y + Rabs (py (ts_delta s))) (th + Rabs (pth (ts_delta s)))).
      { assert (A := Rabs_pos (px (ts_delta s))). assert (B := Rabs_pos (py (ts_delta s))). assert (C := Rabs_pos (pth (ts_delta s))).
        destruct T as [[_ ->]|[_ ->]]; unfold within, pose_add, delta_abs in *; cbn [px py pth dadd dabs ROps] in *; lra. }
      apply (IH _ _ _ _ _ _ _ _ W1) in E2. cbn [deltas flat_map app total fold_right]. fold (deltas h). unfold within, total in *. lra.
  Qed.
  Lemma change_far o f h s o1 f1 n1 o2 f2 n2 o3 : gf_trav f = mkPose 0 0 0 -> run o f h = Ok (o1, f1, n1) -> run o3 f1 [EScan s] = Ok (o2, f2, n2) -> ptrs f2 <> ptrs f1 ->
    travelled_far (deltas (h ++ [EScan s])).
  Proof.
    intros Z E1 E2 C. set (ds := deltas (h ++ [EScan s])). unfold travelled_far. assert (W : within (gf_trav f) 0 0 0) by (rewrite Z; unfold within; cbn; lra). apply (run_travel _ _ _ _ _ _ _ _ _ W) in E1.
    destruct (scan_travel _ _ _ _ _ _ E2) as [[P _]|[F _]]; [contradiction|].
    assert (A := Rabs_pos (px (ts_delta s))). assert (B := Rabs_pos (py (ts_delta s))). assert (D := Rabs_pos (pth (ts_delta s))).
    assert (Q : forall g, total g ds = total g (deltas h) + Rabs (g (ts_delta s))).
    { intros g. unfold ds, deltas. rewrite flat_map_app. fold (deltas h). cbn [flat_map app]. unfold total. rewrite fold_right_app. cbn [fold_right].
      generalize (deltas h). induction l as [|d l IH]; cbn [fold_right]; lra. }
    rewrite !Q. unfold far, within, pose_add, delta_abs in *. cbn [px py pth dadd dabs ROps] in *. destruct F as [F|F]; [left|right; lra].
    assert (X := total_pos (@px R) (deltas h)). assert (Y := total_pos (@py R) (deltas h)). nra.
  Qed.
  (** a scan far enough resamples exactly when the weights are uneven *)
  Lemma scan_due o f s o' f' ns : run o f [EScan s] = Ok (o', f', ns) -> far (pose_add (gf_trav f) (delta_abs (ts_delta s))) ->
    exists p xs, pf_ptrs p = ptrs f /\ objects (pf_heap p) (pf_ptrs p) = Ok xs /\
    if resampling_is_required (map gp_weight xs)
    then exists p', pf_try_resample gp_weight gp_set_weight (gp_duplicate rv_copy) p (snd (ts_scan s)) = Ok (p', true) /\ ptrs f' = pf_ptrs p'
    else gf_pf f' = p.
  Proof.
    unfold gf_run. cbn [world_run]. intros E F. apply bind_Ok_inv in E as ([w n] & E & E'). injection E' as _ <- _. unfold handle_sensor_data in E.
    apply bind_Ok_inv in E as (f1 & E1 & E). apply bind_Ok_inv in E as (f2 & E2 & E). apply bind_Ok_inv in E as (p & _ & E). apply bind_Ok_inv in E as (m & _ & E). injection E as <- _.
    unfold gf_update in E1. apply bind_Ok_inv in E1 as (h1 & _ & E1). injection E1 as <-. unfold gf_observe in E2. cbn [gf_trav gf_pf gf_maps gf_sm pf_ptrs pf_heap] in E2.
    apply bind_Ok_inv in E2 as ([[maps sm'] h] & _ & E2). apply bind_Ok_inv in E2 as (p1 & En & E2).
    unfold normalize_weights in En. apply bind_Ok_inv in En as (xs & _ & En). apply bind_Ok_inv in En as (h2 & _ & En). injection En as <-. cbn [pf_ptrs] in E2.
    unfold gf_try_resample in E2. cbn [gf_trav gf_pf gf_maps gf_sm] in E2. set (t := pose_add (gf_trav f) (delta_abs (ts_delta s))) in *.
    destruct (dle (delta_sq_dist t) (dlit 1 2) && dle (pth t) (dlit 1 5))%bool eqn:Q; [apply not_far in Q; contradiction|].
    apply bind_Ok_inv in E2 as ([p2 r] & Er & E2). assert (Er' := Er). unfold pf_try_resample in Er. apply bind_Ok_inv in Er as (ys & Ey & Er).
    exists (mkPF h2 (ptrs f)), ys. split; [reflexivity|]. split; [exact Ey|].
    destruct (resampling_is_required (map gp_weight ys)); cbn [negb] in Er.
    - apply bind_Ok_inv in Er as ([h3 q] & _ & Er). apply bind_Ok_inv in Er as (f3 & _ & Er). injection Er as -> <-. cbn [negb] in E2. apply bind_Ok_inv in E2 as (p3 & Em & E2). injection E2 as <-.
      exists p2. split; [exact Er'|]. cbn [gf_pf]. unfold gf_ensure_master in Em. apply bind_Ok_inv in Em as (zs & _ & Em). destruct (existsb _ _); [injection Em as <-; reflexivity|].
      apply bind_Ok_inv in Em as (k & _ & Em). injection Em as <-. reflexivity.
    - injection Er as <- <-. cbn [negb] in E2. injection E2 as <-. reflexivity.
  Qed.
  (** while the robot is not far nothing is replaced and the travel adds up *)
  Definition is_at (t : pose R) (x y th : R) : Prop := px t = x /\ py t = y /\ pth t = th.
  Lemma run_near h : forall o f o' f' ns x y th, is_at (gf_trav f) x y th -> 0 <= x -> 0 <= y -> 0 <= th -> run o f h = Ok (o', f', ns) ->
    ~ far (mkPose (x + total (@px R) (deltas h)) (y + total (@py R) (deltas h)) (th + total (@pth R) (deltas h))) ->
    is_at (gf_trav f') (x + total (@px R) (deltas h)) (y + total (@py R) (deltas h)) (th + total (@pth R) (deltas h)) /\ ptrs f' = ptrs f.
  Proof.
    induction h as [|e h IH]; intros o f o' f' ns x y th W X Y Th E N.
    - unfold gf_run in E. cbn [world_run] in E. injection E as _ <- _. cbn. unfold is_at in *. split; [lra|reflexivity].
    - change (e :: h) with ([e] ++ h) in E. unfold gf_run in E. apply world_run_app in E as (o1 & f1 & n1 & n2 & E1 & E2 & _).
      destruct e as [id|id|id|s]; try (cbn [world_run] in E1; injection E1 as <- <- <-; apply (IH _ _ _ _ _ _ _ _ W X Y Th E2 N)).
      assert (T := scan_travel _ _ _ _ _ _ E1). cbv zeta in T. cbn [deltas flat_map app total fold_right] in N |- *. fold (deltas h) in N |- *.
      assert (A := Rabs_pos (px (ts_delta s))). assert (B := Rabs_pos (py (ts_delta s))). assert (C := Rabs_pos (pth (ts_delta s))).
      assert (TX := total_pos (@px R) (deltas h)). assert (TY := total_pos (@py R) (deltas h)). assert (TT := total_pos (@pth R) (deltas h)).
      destruct W as (WX & WY & WT). unfold total in TX, TY, TT. destruct T as [[P W1]|[F _]].
      + assert (W2 : is_at (gf_trav f1) (x + Rabs (px (ts_delta s))) (y + Rabs (py (ts_delta s))) (th + Rabs (pth (ts_delta s)))).
        { rewrite W1. unfold is_at, pose_add, delta_abs. cbn [px py pth dadd dabs ROps]. lra. }
        apply (IH _ _ _ _ _ _ _ _ W2) in E2; [|lra..|].
        * rewrite P in E2. unfold is_at, total in *. split; [lra|apply E2].
        * intros F. apply N. unfold far, total in *. cbn [px py pth] in *. rewrite <- !Rplus_assoc. exact F.
      + exfalso. apply N. unfold far, pose_add, delta_abs in *. cbn [px py pth dadd dabs ROps] in *. rewrite WX, WY, WT in F. destruct F as [F|F]; [left; nra|right; lra].
  Qed.
  Lemma first_far_due o f h o1 f1 n1 o2 s o3 f2 n2 : gf_trav f = mkPose 0 0 0 -> run o f h = Ok (o1, f1, n1) -> run o2 f1 [EScan s] = Ok (o3, f2, n2) ->
    ~ travelled_far (deltas h) -> travelled_far (deltas (h ++ [EScan s])) ->
    ptrs f1 = ptrs f /\ far (pose_add (gf_trav f1) (delta_abs (ts_delta s))).
  Proof.
    intros Z E1 E2 N F.
    assert (W : is_at (gf_trav f) 0 0 0) by (rewrite Z; unfold is_at; cbn; lra).
    destruct (run_near _ _ _ _ _ _ _ _ _ W (Rle_refl 0) (Rle_refl 0) (Rle_refl 0) E1) as [(A & B & C) P].
    { intros FF. apply N. unfold far, travelled_far in *. cbn [px py pth] in FF. rewrite !Rplus_0_l in FF. exact FF. }
    split; [exact P|]. rewrite Rplus_0_l in A, B, C.
    assert (Q : forall g, total g (deltas (h ++ [EScan s])) = total g (deltas h) + Rabs (g (ts_delta s))).
    { intros g. unfold deltas. rewrite flat_map_app. fold (deltas h). cbn [flat_map app]. unfold total. rewrite fold_right_app. cbn [fold_right].
      generalize (deltas h). induction l as [|d l IH]; cbn [fold_right]; lra. }
    unfold travelled_far in F. rewrite !Q in F. unfold far, pose_add, delta_abs. cbn [px py pth dadd dabs ROps]. rewrite A, B, C. exact F.
  Qed.
End Travel.
