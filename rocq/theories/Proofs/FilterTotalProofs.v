(** GMapping never fails but by its scan matcher or its scan adder, in any arithmetic. *)
From Coq Require Import ZArith List Lia Bool.
From Verif.Base Require Import Outcome Num.
From Verif.Model Require Import MathUtils Geometry Sensor Histogram World ParticleFilter Gmapping.
From Verif.Spec Require Import WorldSpec ParticleSpec.
From Verif.Proofs Require Import ParticleProofs.
Import ListNotations.
Local Open Scope outcome_scope.

Section Total.
  Context {D S M SM G RV : Type} {ops : DOps D} (dcos dsin : D -> D) (rv_sample : RV -> G -> pose D * RV * G) (rv_copy : RV -> RV) (rv_zero : RV)
    (sm : SM -> S -> pose D -> M -> outcome (D * pose D * SM)) (adder : M -> pose D -> S -> D -> D -> outcome M).
  Hypothesis sm_total : forall k s p m, exists r, sm k s p m = Ok r.
  Hypothesis adder_total : forall m p s q mg, exists m', adder m p s q mg = Ok m'.
  Local Notation gp := (gparticle D G RV).
  Lemma observe_total maps k (x : gp) s : (gp_map x < length maps)%nat -> exists r, gp_observe rv_sample sm adder maps k x s = Ok r.
  Proof.
    intros B. unfold gp_observe. destruct (gp_skips x); [eauto|]. cbv zeta. set (x1 := if gp_first x then x else _).
    assert (P1 : gp_map x1 = gp_map x) by (unfold x1; destruct (gp_first x); [reflexivity|]; destruct (rv_sample (gp_guess x) (gp_engine x)) as [[n gu] g]; reflexivity). clearbody x1. rewrite P1.
    destruct (nth_error maps (gp_map x)) as [m|] eqn:N; [|apply nth_error_None in N; lia].
    destruct (sm_total k (ts_scan s) (gp_pose x1) m) as ([[sc d] k1] & ->). cbn [bind]. destruct (_ || _)%bool; [|cbn [bind]; eauto].
    destruct (adder_total m (gp_pose (gp_move x1 d)) (ts_scan s) (ts_quality s) (dofZ 0)) as (m' & ->). cbn [bind]. eauto.
  Qed.
  Lemma each_total s ptrs : forall maps k h (xs : list gp), refs h ptrs xs -> NoDup ptrs -> Forall (fun x => gp_map x < length maps)%nat xs -> exists r, gf_observe_each rv_sample sm adder maps k h ptrs s = Ok r.
  Proof.
    induction ptrs as [|p ptrs IH]; intros maps k h xs F ND FM; cbn [gf_observe_each]; [eauto|].
    inversion F as [|? x ? l N F']; subst. inversion ND as [|? ? Hn ND']; subst. inversion FM as [|? ? Hx FM']; subst. unfold deref. rewrite N. cbn [bind].
    destruct (observe_total maps k x s Hx) as ([[maps1 k1] y] & E). rewrite E. cbn [bind]. apply gp_observe_keeps in E as [_ L].
    apply (IH _ _ _ l); [|exact ND'|rewrite L; exact FM']. apply refs_upd_other; [exact F'|exact Hn|]. apply nth_error_Some. congruence.
  Qed.
  Lemma run_total h : forall o f, gf_inv 0 (f : gfilter D M SM G RV) -> exists r, gf_run dcos dsin rv_sample rv_copy rv_zero sm adder o f h = Ok r.
  Proof.
    induction h as [|[id|id|id|s] h IH]; intros o f I; [unfold gf_run; cbn [world_run]; eauto|exact (IH (subscribe_pose o id) f I)|exact (IH (subscribe_map o id) f I)|exact (IH (destroy_observer o id) f I)|].
    destruct (gf_update_inv dcos dsin 0 f (ts_delta s) I) as (f1 & E1 & I1). assert (I1' := I1). destruct I1 as (xs & HR & ND & NE & M1 & HM & HL).
    set (s1 := mkTS (ts_delta s) (fst (ts_scan s)) (ts_quality s)).
    assert (O : exists f2, gf_observe rv_sample rv_copy rv_zero sm adder f1 s1 (snd (ts_scan s)) = Ok f2).
    { unfold gf_observe. destruct (each_total s1 _ (gf_maps f1) (gf_sm f1) _ xs HR ND) as ([[maps k] hh] & Eb); [eapply Forall_impl; [|exact HM]; cbv beta; intros a ->; exact HL|]. rewrite Eb. cbn [bind].
      apply gf_observe_each_spec with (xs := xs) in Eb as (L1 & (ys & R1 & K) & _); [|exact HR|exact ND]. apply masters_keeps in K as (K1 & K2 & K3).
      destruct (normalize_spec gp_weight gp_set_weight (mkPF hh (pf_ptrs (gf_pf f1))) ys R1 ND) as (p & En & Ep & _ & R2). rewrite En. cbn [bind]. cbn [pf_ptrs] in Ep. set (zs := map _ ys) in R2.
      assert (Z3 : zs <> []) by (unfold zs; destruct ys; [destruct xs; [easy|discriminate]|discriminate]). assert (ND2 : NoDup (pf_ptrs p)) by (rewrite Ep; exact ND).
      unfold gf_try_resample. cbn [gf_trav gf_pf gf_maps gf_sm]. destruct (_ && _)%bool; [eauto|].
      assert (T := try_resample_spec gp_weight gp_set_weight (gp_duplicate rv_copy) p zs (snd (ts_scan s)) R2 ND2 Z3).
      destruct (resampling_is_required (map gp_weight zs)); [|rewrite T; cbn [bind negb]; eauto].
      destruct T as (p2 & -> & ND3 & R3). cbn [bind negb]. unfold gf_ensure_master. rewrite (proj2 (objects_refs _ _ _) R3). cbn [bind]. destruct (existsb _ _); [cbn [bind]; eauto|].
      assert (NEw : map gp_weight zs <> []) by (destruct zs; [easy|discriminate]). assert (B := resample_bound (map gp_weight zs) (snd (ts_scan s)) NEw). rewrite map_length in B.
      destruct (heaviest_ptr_ok gp_weight p2 _ R3) as (i & q & v & -> & _); [|cbn [bind]; eauto].
      intros H. apply (f_equal (@length gp)) in H. rewrite map_length, taken_length, resample_length, map_length in H by exact B. now destruct zs. }
    destruct O as (f2 & E2). assert (I2 : gf_inv 0 f2) by (eapply gf_observe_inv; [exact I1'|exact E2]). destruct (IH o f2 I2) as ([[o' f3] ns] & E3).
    unfold gf_run. cbn [world_run]. unfold handle_sensor_data. rewrite E1. cbn [bind]. fold s1. rewrite E2. cbn [bind].
    destruct I2 as (zs & R2 & _ & NE2 & _ & HM2 & HL2). destruct (heaviest_ptr_ok gp_weight (gf_pf f2) zs R2 NE2) as (i & q & v & Eq & _ & _ & Nv & Nq).
    assert (Mv : gp_map v = 0%nat) by (rewrite Forall_forall in HM2; apply HM2; eapply nth_error_In; eauto).
    assert (Mm : exists m, nth_error (gf_maps f2) 0 = Some m) by (destruct (gf_maps f2); [cbn in HL2; lia|eexists; reflexivity]). destruct Mm as [m Mm].
    unfold gf_pose at 1, gf_map at 1. rewrite Eq. cbn [bind]. unfold deref. rewrite Nq. cbn [bind]. rewrite Mv, Mm. cbn [bind]. unfold gf_run in E3. rewrite E3. cbn [bind]. eauto.
  Qed.
End Total.
