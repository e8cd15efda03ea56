(** Whatever failure a GMapping run shows is one of its scan matcher or its scan adder. *)
From Coq Require Import ZArith List Lia Bool.
From Verif.Base Require Import Outcome Num.
From Verif.Model Require Import MathUtils Geometry Sensor Histogram World ParticleFilter Gmapping.
From Verif.Spec Require Import WorldSpec ParticleSpec FailureSpec.
From Verif.Proofs Require Import ParticleProofs.
Import ListNotations.
Local Open Scope outcome_scope.

Section Blame.
  Context {D S M SM G RV : Type} {ops : DOps D} (dcos dsin : D -> D) (rv_sample : RV -> G -> pose D * RV * G) (rv_copy : RV -> RV) (rv_zero : RV)
    (sm : SM -> S -> pose D -> M -> outcome (D * pose D * SM)) (adder : M -> pose D -> S -> D -> D -> outcome M).
  Definition blamed (e : failure) : Prop :=
    (exists k s p m, failure_of (sm k s p m) = Some e) \/ (exists m p s q mg, failure_of (adder m p s q mg) = Some e).
  Definition fair {A} (r : outcome A) : Prop := forall e, failure_of r = Some e -> blamed e.
  Lemma fair_Ok {A} (x : A) : fair (Ok x).
  Proof. intros e H. discriminate H. Qed.
  Lemma fair_bind {A B} (r : outcome A) (f : A -> outcome B) : fair r -> (forall x, r = Ok x -> fair (f x)) -> fair (bind r f).
  Proof. intros H K. destruct r as [x| | |]; cbn [bind]; [exact (K x eq_refl)|exact H..]. Qed.
  Lemma fair_sm k s p m : fair (sm k s p m).
  Proof. intros e H. left. eauto. Qed.
  Lemma fair_adder m p s q mg : fair (adder m p s q mg).
  Proof. intros e H. right. exists m, p, s, q, mg. exact H. Qed.
  Local Notation gp := (gparticle D G RV).
  Lemma observe_fair maps k (x : gp) s : (gp_map x < length maps)%nat -> fair (gp_observe rv_sample sm adder maps k x s).
  Proof.
    intros B. unfold gp_observe. destruct (gp_skips x); [apply fair_Ok|]. cbv zeta. set (x1 := if gp_first x then x else _).
    assert (P1 : gp_map x1 = gp_map x) by (unfold x1; destruct (gp_first x); [reflexivity|]; destruct (rv_sample (gp_guess x) (gp_engine x)) as [[n gu] g]; reflexivity). clearbody x1. rewrite P1.
    destruct (nth_error maps (gp_map x)) as [m|] eqn:N; [|apply nth_error_None in N; lia].
    apply fair_bind; [apply fair_sm|]. intros [[sc d] k1] _. apply fair_bind.
    - destruct (_ || _)%bool; [|apply fair_Ok]. apply fair_bind; [apply fair_adder|]. intros m' _. apply fair_Ok.
    - intros [maps2 p2] _. apply fair_Ok.
  Qed.
  Lemma each_fair s ptrs : forall maps k h (xs : list gp), refs h ptrs xs -> NoDup ptrs -> Forall (fun x => gp_map x < length maps)%nat xs -> fair (gf_observe_each rv_sample sm adder maps k h ptrs s).
  Proof.
    induction ptrs as [|p ptrs IH]; intros maps k h xs F ND FM; cbn [gf_observe_each]; [apply fair_Ok|].
    inversion F as [|? x ? l N F']; subst. inversion ND as [|? ? Hn ND']; subst. inversion FM as [|? ? Hx FM']; subst. unfold deref. rewrite N. cbn [bind].
    apply fair_bind; [now apply observe_fair|]. intros [[maps1 k1] y] E. apply gp_observe_keeps in E as [_ L].
    apply (IH _ _ _ l); [|exact ND'|rewrite L; exact FM']. apply refs_upd_other; [exact F'|exact Hn|]. apply nth_error_Some. congruence.
  Qed.
  Lemma gf_observe_fair (f1 : gfilter D M SM G RV) s samples : gf_inv 0 f1 -> fair (gf_observe rv_sample rv_copy rv_zero sm adder f1 s samples).
  Proof.
    intros (xs & HR & ND & NE & M1 & HM & HL). unfold gf_observe. apply fair_bind.
    - apply each_fair with (xs := xs); [exact HR|exact ND|]. eapply Forall_impl; [|exact HM]; cbv beta; intros a ->; exact HL.
    - intros [[maps k] hh] Eb.
      apply gf_observe_each_spec with (xs := xs) in Eb as (L1 & (ys & R1 & K) & _); [|exact HR|exact ND]. apply masters_keeps in K as (K1 & K2 & K3).
      destruct (normalize_spec gp_weight gp_set_weight (mkPF hh (pf_ptrs (gf_pf f1))) ys R1 ND) as (p & En & Ep & _ & R2). rewrite En. cbn [bind]. cbn [pf_ptrs] in Ep. set (zs := map _ ys) in R2.
      assert (Z3 : zs <> []) by (unfold zs; destruct ys; [destruct xs; [easy|discriminate]|discriminate]). assert (ND2 : NoDup (pf_ptrs p)) by (rewrite Ep; exact ND).
      unfold gf_try_resample. cbn [gf_trav gf_pf gf_maps gf_sm]. destruct (_ && _)%bool; [apply fair_Ok|].
      assert (T := try_resample_spec gp_weight gp_set_weight (gp_duplicate rv_copy) p zs samples R2 ND2 Z3).
      destruct (resampling_is_required (map gp_weight zs)); [|rewrite T; cbn [bind negb]; apply fair_Ok].
      destruct T as (p2 & -> & ND3 & R3). cbn [bind negb]. unfold gf_ensure_master. rewrite (proj2 (objects_refs _ _ _) R3). cbn [bind]. destruct (existsb _ _); [cbn [bind]; apply fair_Ok|].
      assert (NEw : map gp_weight zs <> []) by (destruct zs; [easy|discriminate]). assert (B := resample_bound (map gp_weight zs) samples NEw). rewrite map_length in B.
      destruct (heaviest_ptr_ok gp_weight p2 _ R3) as (i & q & v & -> & _); [|cbn [bind]; apply fair_Ok].
      intros H. apply (f_equal (@length gp)) in H. rewrite map_length, taken_length, resample_length, map_length in H by exact B. now destruct zs.
  Qed.
  Lemma run_fair h : forall o (f : gfilter D M SM G RV), gf_inv 0 f -> fair (gf_run dcos dsin rv_sample rv_copy rv_zero sm adder o f h).
  Proof.
    induction h as [|[id|id|id|s] h IH]; intros o f I; [unfold gf_run; cbn [world_run]; apply fair_Ok|exact (IH (subscribe_pose o id) f I)|exact (IH (subscribe_map o id) f I)|exact (IH (destroy_observer o id) f I)|].
    destruct (gf_update_inv dcos dsin 0 f (ts_delta s) I) as (f1 & E1 & I1).
    set (s1 := mkTS (ts_delta s) (fst (ts_scan s)) (ts_quality s)).
    unfold gf_run. cbn [world_run]. unfold handle_sensor_data. rewrite E1. cbn [bind]. fold s1.
    apply fair_bind; [apply fair_bind; [now apply gf_observe_fair|]; intros f2 E2|intros [f2 n2] E2].
    - assert (I2 : gf_inv 0 f2) by (eapply gf_observe_inv; [exact I1|exact E2]).
      destruct I2 as (zs & R2 & _ & NE2 & _ & HM2 & HL2). destruct (heaviest_ptr_ok gp_weight (gf_pf f2) zs R2 NE2) as (i & q & v & Eq & _ & _ & Nv & Nq).
      assert (Mv : gp_map v = 0%nat) by (rewrite Forall_forall in HM2; apply HM2; eapply nth_error_In; eauto).
      assert (Mm : exists m, nth_error (gf_maps f2) 0 = Some m) by (destruct (gf_maps f2); [cbn in HL2; lia|eexists; reflexivity]). destruct Mm as [m Mm].
      unfold gf_pose at 1, gf_map at 1. rewrite Eq. cbn [bind]. unfold deref. rewrite Nq. cbn [bind]. rewrite Mv, Mm. cbn [bind]. apply fair_Ok.
    - apply bind_Ok_inv in E2 as (f3 & E3 & E2). apply bind_Ok_inv in E2 as (q & _ & E2). apply bind_Ok_inv in E2 as (m & _ & E2). injection E2 as <- _.
      assert (I2 : gf_inv 0 f3) by (eapply gf_observe_inv; [exact I1|exact E3]).
      apply fair_bind; [exact (IH o f3 I2)|]. intros [[o' f4] n4] _. apply fair_Ok.
  Qed.
End Blame.
