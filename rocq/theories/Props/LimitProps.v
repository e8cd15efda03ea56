(** C100: when GMapping matches a particle's scan. *)
From Coq Require Import Reals ZArith List Lia Lra Bool.
From Verif.Base Require Import Outcome Num OrdLaws.
From Verif.Model Require Import MathUtils Geometry Sensor Histogram World ParticleFilter Gmapping RandomVars.
From Verif.Spec Require Import WorldSpec ParticleSpec TravelSpec ParticleScanSpec LimitSpec.
From Verif.Proofs Require Import HistProofs ParticleProofs WorldProofs ResampleProofs ParticleScanProofs ParticleIdleProofs LimitProofs.
Import ListNotations.
Local Open Scope R_scope.

(** any engine, any standard normal values, uniform values within their interval; any scan matcher and scan adder; the noise is arbitrary,
    the limits are those of the configuration *)
Section Limits.
  Context {S M SM G : Type} (uniform : R -> R -> G -> R * G) (polar : G -> R * R * G)
    (sm : SM -> S -> pose R -> M -> outcome (R * pose R * SM)) (adder : M -> pose R -> S -> R -> R -> outcome M) (guess : rv3 R) (min_xy max_xy min_th max_th : R).
  Local Notation sample := (rv3_sample uniform polar).
  Local Notation limits := (next_sm_delta_rv min_xy max_xy min_th max_th).
  Local Notation new := (gf_new sample rv3_copy master_rv guess limits).
  Local Notation run := (gf_run cos sin sample rv3_copy master_rv sm adder).
  Local Notation since := (since sample rv3_copy master_rv sm adder guess limits).
  Local Notation asked := (asked (S := S)).
  Hypothesis U : forall a b g, a <= b -> a <= fst (uniform a b g) <= b.

  Definition in_box (p : pose R) : Prop := min_xy <= px p <= max_xy /\ min_xy <= py p <= max_xy /\ min_th <= pth p <= max_th.
  Definition unif (z : rv3 R) : Prop := z = mkRV3 (Unif min_xy max_xy) (Unif min_xy max_xy) (Unif min_th max_th).
  Definition zero1 (z : rv1 R) : Prop := match z with Gauss m s _ => m = 0 /\ s = 0 | _ => False end.
  Definition zero3 (z : rv3 R) : Prop := zero1 (rvx z) /\ zero1 (rvy z) /\ zero1 (rvth z).
  Lemma unif_sample z g : min_xy <= max_xy -> min_th <= max_th -> unif z -> in_box (fst (fst (sample z g))) /\ unif (snd (fst (sample z g))).
  Proof.
    intros B1 B2 ->. unfold rv3_sample, in_box. cbn [rvx rvy rvth rv1_sample].
    assert (U1 := U min_xy max_xy g B1). destruct (uniform min_xy max_xy g) as [x g1]. assert (U2 := U min_xy max_xy g1 B1). destruct (uniform min_xy max_xy g1) as [y g2].
    assert (U3 := U min_th max_th g2 B2). destruct (uniform min_th max_th g2) as [t g3]. cbn [fst snd px py pth] in *. split; [lra|reflexivity].
  Qed.
  Lemma zero1_sample z g : zero1 z -> fst (fst (rv1_sample uniform polar z g)) = 0 /\ zero1 (snd (fst (rv1_sample uniform polar z g))).
  Proof. destruct z as [m s [v|]|]; [intros [-> ->]|intros [-> ->]|intros []]; unfold rv1_sample; [|destruct (polar g) as [[z1 z2] g1]]; cbn; split; auto; ring. Qed.
  Lemma zero3_sample z g : zero3 z -> fst (fst (sample z g)) = mkPose 0 0 0 /\ zero3 (snd (fst (sample z g))).
  Proof.
    intros (A & B & C). unfold rv3_sample. assert (A1 := zero1_sample _ g A). destruct (rv1_sample uniform polar (rvx z) g) as [[x rx] g1].
    assert (B1 := zero1_sample _ g1 B). destruct (rv1_sample uniform polar (rvy z) g1) as [[y ry] g2]. assert (C1 := zero1_sample _ g2 C). destruct (rv1_sample uniform polar (rvth z) g2) as [[t rt] g3].
    cbn [fst snd] in *. destruct A1 as [-> A1], B1 as [-> B1], C1 as [-> C1]. split; [reflexivity|]. split; [|split]; assumption.
  Qed.
  Lemma zero3_copy z : zero3 z -> zero3 (rv3_copy z).
  Proof. intros (A & B & C). split; [|split]; cbn; [destruct (rvx z)|destruct (rvy z)|destruct (rvth z)]; auto. Qed.
  Lemma unif_copy z : unif z -> unif (rv3_copy z).
  Proof. intros ->. reflexivity. Qed.
  Lemma zero3_master : zero3 master_rv.
  Proof. split; [|split]; cbn; auto. Qed.

  (** every particle of every filter has a way since its last matching, and a descent *)
  Theorem C100_every_particle_has_a_way : forall seeds m0 k0 n f0 o h o' f notes p, min_xy <= max_xy -> min_th <= max_th ->
    new seeds m0 k0 n = Ok f0 -> run o f0 h = Ok (o', f, notes) -> In p (pf_ptrs (gf_pf f)) -> exists ds m, since f p ds m.
  Proof.
    intros seeds m0 k0 n f0 o h o' f notes p B1 B2 E0 E I.
    exact (every_particle sample rv3_copy master_rv sm adder guess limits in_box unif zero3 (fun z g => unif_sample z g B1 B2) unif_copy eq_refl zero3_sample zero3_copy zero3_master seeds m0 k0 n f0 E0 h o o' f notes E p I).
  Qed.
  (** a particle that is matched, and is no (descendant of a) former master, went at least the minimum or turned by at least the minimum *)
  Theorem C100_not_matched_before_the_minimum : forall f s p ds, 0 <= min_xy <= max_xy -> 0 <= min_th <= max_th ->
    since f p ds false -> asked f s p -> min_xy <= driven (ds ++ [ts_delta s]) \/ min_th <= turned (ds ++ [ts_delta s]).
  Proof.
    intros f s p ds B1 B2 H A.
    destruct (next_scan sample rv3_copy master_rv sm adder guess limits in_box unif zero3 (fun z g => unif_sample z g (proj2 B1) (proj2 B2)) unif_copy eq_refl zero3_sample zero3_copy zero3_master f s p ds false H)
      as (x & Nx & AE & (W1 & W2 & W3 & W4 & W5) & [(X & Y & T)|(C & _)]); [|discriminate]. apply AE in A.
    change (gp_next x) with (gp_next (gp_update_robot_pose cos sin (ts_delta s) x)) in X, Y, T. set (y := gp_update_robot_pose cos sin (ts_delta s) x) in *. clearbody y.
    set (L := driven _) in *. set (t := turned _) in *. assert (Lp : 0 <= L) by apply driven_pos. assert (Tp : 0 <= t) by apply turned_pos. clearbody L t.
    destruct (Rle_lt_dec min_xy L) as [C1|C1]; [now left|]. destruct (Rle_lt_dec min_th t) as [C2|C2]; [now right|]. elim A.
    unfold short_way, squared_length. cbn [dlt dadd dmul dabs ROps]. rewrite !R_lt_true. split; [nra|]. rewrite W5, Rabs_right by lra. lra.
  Qed.
  (** full statement refuted below: a particle that went the configured maximum (or turned by it) is matched.  What holds: at the latest
      when it went twice the maximum, or turned by the maximum *)
  Theorem C100_matched_after_twice_the_maximum_partial : forall f s p ds m, 0 <= min_xy <= max_xy -> 0 <= min_th <= max_th ->
    since f p ds m -> 2 * max_xy <= driven (ds ++ [ts_delta s]) \/ max_th <= turned (ds ++ [ts_delta s]) -> asked f s p.
  Proof.
    intros f s p ds m B1 B2 H A.
    destruct (next_scan sample rv3_copy master_rv sm adder guess limits in_box unif zero3 (fun z g => unif_sample z g (proj2 B1) (proj2 B2)) unif_copy eq_refl zero3_sample zero3_copy zero3_master f s p ds m H)
      as (x & Nx & AE & (W1 & W2 & W3 & W4 & W5) & N). apply AE.
    change (gp_next x) with (gp_next (gp_update_robot_pose cos sin (ts_delta s) x)) in N. set (y := gp_update_robot_pose cos sin (ts_delta s) x) in *. clearbody y.
    set (L := driven _) in *. set (t := turned _) in *. assert (Lp : 0 <= L) by apply driven_pos. assert (Tp : 0 <= t) by apply turned_pos. clearbody L t.
    unfold short_way, squared_length. cbn [dlt dadd dmul dabs ROps]. rewrite !R_lt_true. intros [C1 C2]. rewrite W5, Rabs_right in C2 by lra.
    assert (NB : px (gp_next y) * px (gp_next y) + py (gp_next y) * py (gp_next y) <= 2 * (max_xy * max_xy) /\ pth (gp_next y) <= max_th).
    { destruct N as [(X & Y & T)|(_ & ->)]; [|cbn; nra]. split; [nra|lra]. }
    destruct A as [A|A]; [|lra]. set (u := px (gp_since y)) in *. set (v := py (gp_since y)) in *.
    assert (Q1 : (u + v) * (u + v) < (2 * max_xy) * (2 * max_xy)) by (assert (0 <= (u - v) * (u - v)) by apply Rle_0_sqr; lra).
    assert (Q2 : (2 * max_xy) * (2 * max_xy) <= (u + v) * (u + v)) by (apply Rmult_le_compat; lra). lra.
  Qed.
  (** in particular the master's limits do not matter: a particle with a master among its ancestors is matched no later *)

  (** refuted: whatever the limits, a particle may go a quarter more than the maximum without being matched *)
  Theorem C100_matched_after_the_maximum_refuted : forall (seeds : nat -> G) (m0 : M) (k0 : SM) (s0 : S) (q : R), 0 <= min_xy <= max_xy -> 0 < max_xy -> 0 <= min_th <= max_th -> 0 < max_th ->
    (forall a b g, fst (uniform a b g) = b) ->
    exists f0 s p, new seeds m0 k0 2 = Ok f0 /\ since f0 p [] false /\ In p (pf_ptrs (gf_pf f0)) /\ max_xy < driven [ts_delta s] /\ ts_scan s = (s0, fun _ => q) /\ ~ asked f0 s p.
  Proof.
    intros seeds m0 k0 s0 q B1 P1 B2 P2 UM.
    set (x0 := gp_create sample rv3_copy guess limits 0 (seeds 0%nat)).
    set (x1 := gp_create sample rv3_copy guess limits 0 (seeds 1%nat)).
    set (f0 := mkGF (mkPF [gp_sample (gp_set_weight (1 / 2) x0); gp_mark_master master_rv (gp_sample (gp_set_weight (1 / 2) x1))] [0; 1]%nat) delta_zero [m0] k0).
    exists f0, (mkTS (mkPose (5 / 4 * max_xy) 0 0) (s0, fun _ => q) 1), 0%nat.
    assert (E : new seeds m0 k0 2 = Ok f0).
    { assert (W : forall w : R, dlt w w = false) by (intros w; apply R_lt_false; lra).
      assert (W0 : gp_weight (gp_sample (gp_set_weight (1 / 2) x0)) = 1 / 2) by reflexivity. assert (W1 : gp_weight (gp_sample (gp_set_weight (1 / 2) x1)) = 1 / 2) by reflexivity.
      unfold gf_new, pf_new. cbn [pf_heap pf_ptrs seq pf_create]. change (gp_create sample rv3_copy guess limits 0 (seeds 0%nat)) with x0. change (gp_create sample rv3_copy guess limits 0 (seeds 1%nat)) with x1.
      cbn [ddiv dofZ ROps Z.of_nat Pos.of_succ_nat Pos.succ]. clearbody x0 x1. cbn [gf_each deref nth_error bind upd firstn skipn app]. unfold heaviest_ptr. cbn [pf_heap pf_ptrs objects deref nth_error bind map]. rewrite W0, W1. cbn [heaviest].
      rewrite W. cbn [nth_error bind upd firstn skipn app]. reflexivity. }
    split; [exact E|]. split; [|split; [now left|]].
    { assert (SN := since_new sample rv3_copy master_rv sm adder guess limits seeds m0 k0 2 _ 0%nat E (or_introl eq_refl)). exact SN. }
    split; [|split; [reflexivity|]].
    { unfold driven. cbn [fold_right ts_delta px py]. replace (5 / 4 * max_xy * (5 / 4 * max_xy) + 0 * 0) with ((5 / 4 * max_xy) * (5 / 4 * max_xy)) by ring. rewrite sqrt_square by lra. lra. }
    intros (x & Nx & A). cbn [gf_pf pf_heap nth_error] in Nx. injection Nx as <-. apply A. clear A E f0.
    assert (X0 : gp_next x0 = mkPose max_xy max_xy max_th /\ gp_since x0 = mkPose 0 0 0 /\ gp_pose x0 = mkPose 0 0 0 /\ gp_raw x0 = mkPose 0 0 0).
    { unfold x0, gp_create, gp_reset_sm_delta. cbn [gp_lim gp_engine]. unfold rv3_sample. cbn [rvx rvy rvth rv3_copy rv1_clone rv1_sample next_sm_delta_rv].
      assert (U1 := UM min_xy max_xy (seeds 0%nat)). destruct (uniform min_xy max_xy (seeds 0%nat)) as [x g1]. assert (U2 := UM min_xy max_xy g1). destruct (uniform min_xy max_xy g1) as [y g2].
      assert (U3 := UM min_th max_th g2). destruct (uniform min_th max_th g2) as [t g3]. cbn in *. subst. auto. }
    clearbody x0. destruct X0 as (X1 & X2 & X3 & X4). unfold short_way, squared_length, gp_update_robot_pose. cbv zeta. cbn [gp_since gp_next gp_move gp_mark_master gp_sample gp_set_weight gp_pose gp_raw ts_delta].
    rewrite X1, X2, X3, X4. unfold pose_sub, pose_add, delta_abs. cbn [px py pth dlt dadd dsub dmul dabs ROps]. rewrite !R_lt_true. replace (0 - 0) with 0 by ring. rewrite cos_0, sin_0.
    replace (1 * (5 / 4 * max_xy) - 0 * 0) with (5 / 4 * max_xy) by ring. replace (0 * (5 / 4 * max_xy) + 1 * 0) with 0 by ring. rewrite Rabs_R0, (Rabs_right (5 / 4 * max_xy)) by lra. rewrite Rplus_0_l, !Rplus_0_l, Rabs_R0. split; [nra|lra].
  Qed.
End Limits.
Print Assumptions C100_every_particle_has_a_way.
Print Assumptions C100_not_matched_before_the_minimum.
Print Assumptions C100_matched_after_twice_the_maximum_partial.
Print Assumptions C100_matched_after_the_maximum_refuted.

(** the default limits 0.6 .. 0.8 and 0.3 .. 0.4 with draws at the minimum: a particle that is no master is matched after 0.9 m *)
Definition ex_uniform (a b : R) (g : unit) : R * unit := (a, tt).
Definition ex_polar (g : unit) : R * R * unit := (1, -1, tt).
Example C100_case : (forall a b g, a <= b -> a <= fst (ex_uniform a b g) <= b) /\
  exists f0 : gfilter R unit unit unit (rv3 R), let sample := rv3_sample ex_uniform ex_polar in let guess := pose_guess_rv 0 (1 / 10) 0 (3 / 100) in let limits := next_sm_delta_rv (6 / 10) (8 / 10) (3 / 10) (4 / 10) in
  gf_new sample rv3_copy master_rv guess limits (fun _ => tt) tt tt 2 = Ok f0 /\
  since sample rv3_copy master_rv (fun k _ p _ => Ok (1, mkPose 0 0 0, k)) (fun m (_ : pose R) (_ : unit) _ _ => Ok m) guess limits f0 0%nat [] false /\
  asked (S := unit) f0 (mkTS (mkPose (9 / 10) 0 0) (tt, fun _ => 1 / 2) 1) 0%nat.
Proof.
  split; [intros; unfold ex_uniform; cbn; lra|].
  set (x0 := gp_create (rv3_sample ex_uniform ex_polar) rv3_copy (pose_guess_rv 0 (1 / 10) 0 (3 / 100)) (next_sm_delta_rv (6 / 10) (8 / 10) (3 / 10) (4 / 10)) 0 tt).
  set (f0 := mkGF (mkPF [gp_sample (gp_set_weight (1 / 2) x0); gp_mark_master master_rv (gp_sample (gp_set_weight (1 / 2) x0))] [0; 1]%nat) (mkPose 0 0 0) [tt] tt : gfilter R unit unit unit (rv3 R)).
  exists f0. cbv zeta.
  assert (E : gf_new (rv3_sample ex_uniform ex_polar) rv3_copy master_rv (pose_guess_rv 0 (1 / 10) 0 (3 / 100)) (next_sm_delta_rv (6 / 10) (8 / 10) (3 / 10) (4 / 10)) (fun _ => tt) tt tt 2 = Ok f0).
  { assert (W : forall w : R, dlt w w = false) by (intros w; apply R_lt_false; lra).
    assert (W0 : gp_weight (gp_sample (gp_set_weight (1 / 2) x0)) = 1 / 2) by reflexivity.
    unfold gf_new, pf_new. cbn [pf_heap pf_ptrs seq pf_create]. fold x0.
    cbn [ddiv dofZ ROps Z.of_nat Pos.of_succ_nat Pos.succ]. clearbody x0. cbn [gf_each deref nth_error bind upd firstn skipn app]. unfold heaviest_ptr. cbn [pf_heap pf_ptrs objects deref nth_error bind map]. rewrite W0. cbn [heaviest].
    rewrite W. cbn [nth_error bind upd firstn skipn app]. reflexivity. }
  split; [exact E|]. split; [exact (since_new _ _ _ _ _ _ _ _ _ _ 2 _ 0%nat E (or_introl eq_refl))|].
  exists (gp_sample (gp_set_weight (1 / 2) x0)). split; [reflexivity|]. unfold short_way. cbn. intros [C _]. apply R_lt_true in C. replace (0 - 0) with 0 in C by ring. rewrite cos_0, sin_0 in C.
  replace (1 * (9 / 10) - 0 * 0) with (9 / 10) in C by ring. replace (0 * (9 / 10) + 1 * 0) with 0 in C by ring. rewrite Rabs_R0, (Rabs_right (9 / 10)) in C by lra. lra.
Qed.
