(** A world whose scan matcher does nothing. *)
From Coq Require Import ZArith List Reals Lra Bool.
From Flocq Require Import Core IEEE754.BinarySingleNaN IEEE754.Binary IEEE754.Bits.
From Flocq Require Import Plus_error.
From Verif.Base Require Import Outcome Num F64Facts.
From Verif.Model Require Import MathUtils Geometry Sensor World NoAction.
From Verif.Spec Require Import WorldSpec TrackSpec.
Import ListNotations.
Local Open Scope outcome_scope.

Lemma ok_inj_local A (x y : A) : Ok x = Ok y -> x = y.
Proof. congruence. Qed.

Section Generic.
  Context {D S M : Type} {ops : DOps D}.
  Variables (adder : M -> pose D -> S -> D -> D -> outcome M) (ql qr mg : D) (good : D -> Prop).
  Hypothesis good_add : forall x y, good x -> good (dadd x y).
  Hypothesis good_zero : forall x, good x -> dadd x (dofZ 0%Z) = x.
  Hypothesis zero_eq : are_equal (dofZ 0%Z : D) (dofZ 0%Z) = true.
  Notation good_pose p := (good (px p) /\ good (py p) /\ good (pth p)).
  Notation run := (ss_run no_action_reset no_action_process adder ql qr mg).

  Lemma still_pose (p : pose D) : good_pose p -> pose_add p delta_zero = p.
  Proof using good_zero.
    destruct p as [x y t]. cbn [px py pth]. intros (A & B & C). unfold pose_add, delta_zero. cbn [px py pth]. now rewrite !good_zero.
  Qed.
  Lemma still_false : delta_nonzero (delta_zero : pose D) = false.
  Proof using zero_eq. unfold delta_nonzero, delta_zero. cbn [px py pth]. now rewrite zero_eq. Qed.

  Lemma idle_observe (w : ss_world D M unit) (s : tr_scan D S) : good_pose (ss_pose w) ->
    ss_observe no_action_reset no_action_process adder ql qr mg w s =
    (m <- adder (ss_map w) (ss_pose w) (ts_scan s) qr mg ;; Ok (mkSS (ss_pose w) m (ss_sm w) (ss_log w ++ [delta_zero]))).
  Proof using good_zero zero_eq.
    intros G. unfold ss_observe, no_action_process, no_action_reset. cbn [bind]. rewrite still_false. unfold ss_update. cbn [ss_pose ss_map ss_sm ss_log].
    rewrite (still_pose _ G). destruct w as [p m sm l]; cbn [ss_pose ss_map ss_sm ss_log] in *. reflexivity.
  Qed.
  Lemma good_moved (p d : pose D) : good_pose p -> good_pose (pose_add p d).
  Proof using good_add. intros (A & B & C). cbn [pose_add px py pth]. auto. Qed.

  Lemma idle_run h : forall o (w : ss_world D M unit), good_pose (ss_pose w) ->
    match run o w h with
    | Ok (_, w', _) => drawn adder qr mg (ss_map w) (track (ss_pose w) h) = Ok (ss_map w') /\
        ss_pose w' = fold_left pose_add (scan_deltas h) (ss_pose w)
    | Abort => drawn adder qr mg (ss_map w) (track (ss_pose w) h) = Abort
    | UB => drawn adder qr mg (ss_map w) (track (ss_pose w) h) = UB
    | OutOfFuel => drawn adder qr mg (ss_map w) (track (ss_pose w) h) = OutOfFuel
    end.
  Proof using good_add good_zero zero_eq.
    unfold ss_run. induction h as [|[id|id|id|s] h IH]; intros o w G; cbn [world_run track]; try (apply IH; exact G).
    - cbn. auto.
    - unfold handle_sensor_data at 1. cbn [bind]. assert (G' : good_pose (ss_pose (ss_update w (ts_delta s)))) by (apply good_moved, G).
      rewrite (idle_observe (ss_update w (ts_delta s)) s G'). unfold ss_update. cbn [ss_pose ss_map ss_sm ss_log drawn].
      destruct (adder (ss_map w) (pose_add (ss_pose w) (ts_delta s)) (ts_scan s) qr mg) as [m| | |] eqn:E; cbn [bind]; try reflexivity.
      specialize (IH o (mkSS (pose_add (ss_pose w) (ts_delta s)) m (ss_sm w) (ss_log w ++ [delta_zero])) G').
      unfold ss_update in IH. cbn [ss_pose ss_map ss_sm ss_log] in IH.
      match type of IH with match ?r with _ => _ end => destruct r as [[[o3 w3] n3]| | |] end; cbn [bind]; auto.
  Qed.

  (** what the subscribers are told *)
  Lemma idle_notes h : forall o (w : ss_world D M unit) o' w' notes, good_pose (ss_pose w) -> run o w h = Ok (o', w', notes) ->
    forall id q, In (NPose id q) notes -> In q (map fst (track (ss_pose w) h)).
  Proof using good_add good_zero zero_eq.
    unfold ss_run. induction h as [|[i|i|i|s] h IH]; intros o w o' w' notes G E id q; cbn [world_run track] in *; try (eapply IH; eauto; fail).
    - apply ok_inj_local in E. injection E as _ _ <-. intros [].
    - unfold handle_sensor_data at 1 in E. cbn [bind] in E. assert (G' : good_pose (ss_pose (ss_update w (ts_delta s)))) by (apply good_moved, G).
      rewrite (idle_observe (ss_update w (ts_delta s)) s G') in E. unfold ss_update in E. cbn [ss_pose ss_map ss_sm ss_log] in E.
      destruct (adder (ss_map w) (pose_add (ss_pose w) (ts_delta s)) (ts_scan s) qr mg) as [m| | |] eqn:EA; cbn [bind] in E; try discriminate.
      apply bind_Ok_inv in E as ([[o3 w3] n3] & E3 & E). apply ok_inj_local in E. injection E as _ _ <-.
      cbn [map fst]. intros H. apply in_app_or in H as [H|H].
      + left. cbn [ss_pose ss_map] in H. apply in_app_or in H as [H|H].
        * unfold notify_with_pose in H. apply in_flat_map in H as (k & _ & H). destruct (locks o k); [|easy]. destruct H as [H|[]]. congruence.
        * unfold notify_with_map in H. apply in_flat_map in H as (k & _ & H). destruct (locks o k); [|easy]. destruct H as [H|[]]. discriminate.
      + right. specialize (IH _ _ _ _ _ (G' : good_pose (ss_pose (mkSS (pose_add (ss_pose w) (ts_delta s)) m (ss_sm w) (ss_log w ++ [delta_zero])))) E3 id q H). exact IH.
  Qed.
End Generic.

Lemma F_plus_zero (x : F64) : not_minus_zero x -> dadd x (dofZ 0%Z) = x.
Proof.
  intros N. destruct x as [s|s|s pl H|s m e H]; try reflexivity.
  - destruct s; [now elim N|reflexivity].
Qed.
Lemma F_plus_not_minus_zero (x y : F64) : not_minus_zero x -> not_minus_zero (dadd x y).
Proof.
  intros N E.
  assert (FX : F_fin x = true /\ F_fin y = true).
  { destruct x as [s|s|s pl H|s m e H], y as [s'|s'|s' pl' H'|s' m' e' H']; try (split; reflexivity);
      exfalso; cbn in E; try discriminate E; destruct s, s'; discriminate E. }
  destruct FX as [Fx Fy]. cbn [dadd FOps] in E. unfold b64_plus in E.
  assert (C := Bplus_correct 53 1024 eq_refl eq_refl binop_nan_pl64 mode_NE x y Fx Fy).
  destruct (Rlt_bool _ _) eqn:L in C.
  - destruct C as (C1 & _ & C3).
    assert (Z0 : round radix2 (SpecFloat.fexp 53 1024) (round_mode mode_NE) (B2R 53 1024 x + B2R 53 1024 y) = 0%R).
    { rewrite <- C1. rewrite E. reflexivity. }
    assert (S0 : Bsign 53 1024 (Bplus 53 1024 eq_refl eq_refl binop_nan_pl64 mode_NE x y) = true) by (rewrite E; reflexivity).
    rewrite S0 in C3. clear S0 C1 L.
    assert (Sum0 : (B2R 53 1024 x + B2R 53 1024 y = 0)%R).
    { destruct (Req_dec (B2R 53 1024 x + B2R 53 1024 y) 0) as [H|H]; [exact H|exfalso].
      revert Z0. change (SpecFloat.fexp 53 1024) with (FLT_exp (-1074) 53).
      assert (P53 : Prec_gt_0 53) by reflexivity.
      apply (round_plus_neq_0 radix2 (FLT_exp (-1074) 53) (round_mode mode_NE)); [exact (generic_format_B2R 53 1024 x)|exact (generic_format_B2R 53 1024 y)|exact H]. }
    rewrite Sum0, Rcompare_Eq in C3 by reflexivity.
    symmetry in C3. apply andb_true_iff in C3 as [Sx Sy].
    clear E Z0. destruct x as [s|s|s pl H|s m e H]; try discriminate Fx.
    + cbn in Sx. subst s. now elim N.
    + cbn in Sx. subst s.
      assert (P : (B2R 53 1024 (B754_finite 53 1024 true m e H) < 0)%R) by (cbn [B2R]; apply F2R_lt_0; reflexivity).
      assert (P' : (B2R 53 1024 y <= 0)%R).
      { destruct y as [s'|s'|s' pl' H'|s' m' e' H']; try discriminate Fy; [cbn; lra|]. cbn in Sy. subst s'. cbn [B2R]. apply F2R_le_0. discriminate. }
      lra.
  - destruct C as [C _]. rewrite E in C. cbn in C. destruct (Bsign 53 1024 x); discriminate C.
Qed.
