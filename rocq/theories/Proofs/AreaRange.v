(** Area occupancy estimator over IEEE binary64: ranges of the answers (C59). *)
From Coq Require Import Reals ZArith List Bool Lra Lia.
From Flocq Require Import Core IEEE754.BinarySingleNaN IEEE754.Binary IEEE754.Bits.
From Verif.Base Require Import Outcome Num F64Facts.
From Verif.Model Require Import MathUtils Geometry Cells AreaEstimator.
From Verif.Proofs Require Import CompareProofs.
Import ListNotations.
Local Open Scope R_scope.

Lemma F_between_fin (x y : F64) : F_fin y = true -> dle (dofZ 0 : F64) x = true -> dle x y = true ->
  F_fin x = true /\ 0 <= F2R64 x <= F2R64 y.
Proof.
  intros Fy L U. assert (F0 : F_fin (dofZ 0 : F64) = true) by reflexivity.
  assert (Fx : F_fin x = true).
  { destruct x as [s|s|s pl h|s m e h]; try reflexivity.
    - destruct s; [discriminate L|]. destruct y as [s'|s'|s' pl h|s' m e h]; try discriminate Fy; discriminate U.
    - discriminate L. }
  split; [exact Fx|]. split; [exact (proj1 (F_le_fin _ _ F0 Fx) L)|exact (proj1 (F_le_fin _ _ Fx Fy) U)].
Qed.

Lemma Ok_inj {A} (x y : A) : Ok x = Ok y -> x = y.
Proof. congruence. Qed.
Lemma Some_inj {A} (x y : A) : Ok (Some x) = Ok (Some y) -> x = y.
Proof. congruence. Qed.
Section Range.
  Variable e : aoe F64.
  Variable c : rect F64.
  Notation T := (rect_area c).
  Hypothesis FT : F_fin T = true.
  Hypothesis PT : 0 < F2R64 T.

  Lemma F_half : F_fin (dhalf : F64) = true /\ F2R64 (dhalf : F64) = / 2.
  Proof using Type.
    unfold dhalf. destruct (F_dlit_correct 1 2 ltac:(cbn; lia) ltac:(cbn; lia)) as [E F]; [apply no_ovf_1; lra|].
    split; [exact F|]. rewrite E. replace (IZR 1 / IZR 2) with (/ 2) by lra. apply rnd_id, fmt_half.
  Qed.
  Lemma chunk_range beam occ l a : compute_chunk_area beam c occ l = Ok a -> F_fin a = true /\ 0 <= F2R64 a <= F2R64 T.
  Proof using FT PT.
    unfold compute_chunk_area. destruct l as [|i [|j [|k l]]]; try discriminate.
    - intros Q. apply Ok_inj in Q; subst. destruct (F_ofZ_correct 2 ltac:(cbn; lia)) as [E2 F2].
      assert (B : 0 <= F2R64 T / F2R64 (dofZ 2) <= F2R64 T) by (rewrite E2; lra).
      destruct (F_div_correct T (dofZ 2) FT) as [E F]; [rewrite E2; lra|apply (no_ovf_le (F2R64 T)); [apply F_fmt| |]|].
      + eapply Rle_lt_trans; [apply Rle_abs|apply F_abs_lt].
      + rewrite Rabs_pos_eq; lra.
      + split; [exact F|]. rewrite E. apply rnd_between; [apply fmt_0|apply F_fmt|exact B].
    - set (area := if xorb _ _ then _ else _). cbv zeta. fold area.
      destruct (dle (dofZ 0) area && dle area T) eqn:A; [|discriminate]. cbn [assert_ bind].
      apply andb_true_iff in A as [A1 A2]. destruct (F_between_fin area T FT A1 A2) as [Fa Ba].
      intros Q. apply Ok_inj in Q; subst. destruct (occ && _); [|auto].
      assert (B : 0 <= F2R64 T - F2R64 area <= F2R64 T) by lra.
      destruct (F_sub_correct T area FT Fa) as [E F].
      + apply (no_ovf_le (F2R64 T)); [apply F_fmt| |rewrite Rabs_pos_eq; lra]. eapply Rle_lt_trans; [apply Rle_abs|apply F_abs_lt].
      + split; [exact F|]. rewrite E. apply rnd_between; [apply fmt_0|apply F_fmt|exact B].
  Qed.
  Lemma rate_range (a : F64) : F_fin a = true -> 0 <= F2R64 a <= F2R64 T -> F_fin (ddiv a T) = true /\ 0 <= F2R64 (ddiv a T) <= 1.
  Proof using FT PT.
    intros Fa Ba. assert (B : 0 <= F2R64 a / F2R64 T <= 1).
    { split; [apply Rmult_le_pos; [lra|left; apply Rinv_0_lt_compat; lra]|]. apply Rmult_le_reg_r with (F2R64 T); [lra|].
      unfold Rdiv. rewrite Rmult_assoc, Rinv_l by lra. lra. }
    destruct (F_div_correct a T Fa) as [E F]; [lra|apply no_ovf_1; lra|].
    split; [exact F|]. rewrite E. apply rnd_between; [apply fmt_0|apply fmt_1|exact B].
  Qed.

  Definition empty_form (o : occup F64) : Prop :=
    prob_occ o = prob_occ (ae_empty e) /\
    (est_quality o = ae_unknown e \/
     (F_fin (est_quality o) = true /\ 0 <= F2R64 (est_quality o) <= F2R64 (est_quality (ae_empty e)))).
  Definition occupied_form (o : occup F64) : Prop :=
    est_quality o = est_quality (ae_occ e) /\
    F_fin (prob_occ o) = true /\ F2R64 (prob_occ (ae_empty e)) <= F2R64 (prob_occ o) <= 1.

  Hypothesis FP : F_fin (prob_occ (ae_empty e)) = true.
  Hypothesis BP : 0 <= F2R64 (prob_occ (ae_empty e)) <= 1.
  Hypothesis FQ : F_fin (est_quality (ae_empty e)) = true.
  Hypothesis BQ : 0 <= F2R64 (est_quality (ae_empty e)) <= 1.

  Lemma estimate_occ a : F_fin a = true -> 0 <= F2R64 a <= F2R64 T -> occupied_form (estimate_chunk e a T true).
  Proof using FT PT FP BP.
    intros Fa Ba. destruct (rate_range a Fa Ba) as [Fr Br]. unfold estimate_chunk, occupied_form. cbn [prob_occ est_quality].
    split; [reflexivity|]. destruct (F_dmax_fin _ _ Fr FP) as [Fm Em]. split; [exact Fm|]. rewrite Em.
    split; [apply Rmax_r|apply Rmax_lub; lra].
  Qed.
  Lemma estimate_empty a : F_fin a = true -> 0 <= F2R64 a <= F2R64 T -> empty_form (estimate_chunk e a T false).
  Proof using FT PT FQ BQ.
    intros Fa Ba. destruct (rate_range a Fa Ba) as [Fr Br]. unfold estimate_chunk, empty_form. cbn [prob_occ est_quality].
    split; [reflexivity|]. right.
    assert (K : forall r : F64, F_fin r = true -> 0 <= F2R64 r <= 1 ->
       F_fin (dmul (est_quality (ae_empty e)) r) = true /\ 0 <= F2R64 (dmul (est_quality (ae_empty e)) r) <= F2R64 (est_quality (ae_empty e))).
    { intros r Fr' Br'. assert (B : 0 <= F2R64 (est_quality (ae_empty e)) * F2R64 r <= F2R64 (est_quality (ae_empty e))) by nra.
      destruct (F_mul_correct _ r FQ Fr') as [E F]; [apply no_ovf_1; lra|]. split; [exact F|]. rewrite E.
      apply rnd_between; [apply fmt_0|apply F_fmt|exact B]. }
    destruct (dlt dhalf (ddiv a T)) eqn:L; apply K; auto.
    - destruct F_1 as [F1 E1]. destruct (F_sub_correct (dofZ 1) (ddiv a T) F1 Fr) as [E F]; [rewrite E1; apply no_ovf_1; lra|]. exact F.
    - destruct F_1 as [F1 E1]. destruct (F_sub_correct (dofZ 1) (ddiv a T) F1 Fr) as [E F]; [rewrite E1; apply no_ovf_1; lra|]. rewrite E, E1.
      apply rnd_between; [apply fmt_0|apply fmt_1|lra].
  Qed.

  Lemma pierced_range beam occ o : estimate_pierced e beam c occ = Ok o ->
    (occ = false -> empty_form o) /\ (occupied_form o \/ empty_form o).
  Proof using FT PT FP BP FQ BQ.
    unfold estimate_pierced. destruct (find_intersections beam c occ) as [l| | |]; try discriminate. cbn [bind].
    assert (G : forall occ' l' o, (' chunk <- compute_chunk_area beam c occ' l' ;; Ok (estimate_chunk e chunk T occ'))%out = Ok o ->
              (occ' = false -> empty_form o) /\ (occupied_form o \/ empty_form o)).
    { intros occ' l' o'. destruct (compute_chunk_area beam c occ' l') as [a| | |] eqn:E; try discriminate. cbn [bind]. intros Q. apply Ok_inj in Q; subst.
      destruct (chunk_range beam occ' l' a E) as [Fa Ba]. destruct occ'.
      - split; [discriminate|left; apply estimate_occ; auto].
      - assert (X := estimate_empty a Fa Ba). split; auto. }
    destruct l as [|i [|j l]]; try apply G.
    destruct (negb occ) eqn:N.
    - intros Q. apply Ok_inj in Q; subst. assert (X : empty_form (mkOcc (prob_occ (ae_empty e)) (ae_unknown e))) by (split; [reflexivity|left; reflexivity]).
      split; auto.
    - apply negb_false_iff in N. subst occ. destruct (segment_intersections c beam) as [rl| | |]; try discriminate. cbn [bind].
      destruct rl as [|a [|b [|d rl]]]; try discriminate.
      + intros Q. apply Ok_inj in Q; subst. split; [discriminate|left]. apply estimate_occ; auto. lra.
      + intros Q. apply G in Q as [Q _]. split; [discriminate|right; auto].
  Qed.

  Theorem estimate_range sh beam occ o : aoe_estimate e sh beam c occ = Ok (Some o) ->
    (occ = false -> empty_form o) /\ (occupied_form o \/ empty_form o).
  Proof using FT PT FP BP FQ BQ.
    unfold aoe_estimate. destruct (ensure_not_on_edge sh beam c) as [bm| | |]; try discriminate. cbn [bind].
    destruct (classify_segment bm c) as [p| | |]; try discriminate. cbn [bind].
    assert (U : empty_form (mkOcc (prob_occ (ae_empty e)) (ae_unknown e))) by (split; [reflexivity|left; reflexivity]).
    assert (P : forall occ', (' o <- estimate_pierced e bm c occ' ;; Ok (Some o))%out = Ok (Some o) -> (occ' = false -> empty_form o) /\ (occupied_form o \/ empty_form o)).
    { intros occ'. destruct (estimate_pierced e bm c occ') as [o'| | |] eqn:E; try discriminate. cbn [bind]. intros Q. apply Some_inj in Q; subst. eapply pierced_range; eauto. }
    destruct p; try discriminate; destruct occ; try discriminate; try apply P.
    intros Q. apply Some_inj in Q; subst. auto.
  Qed.
End Range.
