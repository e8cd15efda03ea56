(** GMapping with the scan matcher that does nothing. *)
From Coq Require Import Reals ZArith List Lia Lra Bool.
From Verif.Base Require Import Outcome Num OrdLaws.
From Verif.Model Require Import MathUtils Geometry Sensor Histogram World ParticleFilter Gmapping NoAction.
From Verif.Spec Require Import WorldSpec ParticleSpec TravelSpec ParticleScanSpec TrackSpec.
From Verif.Proofs Require Import HistProofs ParticleProofs WorldProofs ResampleProofs ParticleScanProofs ParticleIdleProofs.
Import ListNotations.
Local Open Scope R_scope.
Local Open Scope outcome_scope.

Lemma F2_len {A B} (Q : A -> B -> Prop) l l' : Forall2 Q l l' -> length l = length l'.
Proof. induction 1; cbn; congruence. Qed.
Lemma heaviest_last (c : R) ws : forall i b, Forall (fun w => w = c) ws ->
  heaviest ws i (Some (b, c)) = Some (match ws with [] => b | _ => (i + length ws - 1)%nat end).
Proof.
  induction ws as [|w ws IH]; intros i b F; cbn [heaviest]; [reflexivity|]. inversion F; subst.
  assert (L : dlt c c = false) by (cbn [dlt ROps]; apply R_lt_false; lra). rewrite L, IH by assumption.
  cbn [length]. destruct ws; cbn [length]; f_equal; lia.
Qed.
Lemma heaviest_last0 (c : R) ws : ws <> [] -> Forall (fun w => w = c) ws -> heaviest ws 0 None = Some (length ws - 1)%nat.
Proof.
  destruct ws as [|w ws]; [easy|]. intros _ F. inversion F; subst. cbn [heaviest]. rewrite (heaviest_last c) by assumption. cbn [length]. destruct ws; cbn [length]; f_equal; lia.
Qed.
Lemma refs_app_inv {P} (h : list P) xs x ptrs : refs h ptrs (xs ++ [x]) -> exists ps p, ptrs = ps ++ [p] /\ refs h ps xs /\ nth_error h p = Some x.
Proof.
  intros F. apply Forall2_app_inv_r in F as (a & b & Fa & Fb & ->). inversion Fb as [|p ? q ? Hp Hb]; subst. inversion Hb; subst. eauto.
Qed.
Lemma heaviest_ptr_last {G RV : Type} (c : R) (f : pf (gparticle R G RV)) xs x : refs (pf_heap f) (pf_ptrs f) (xs ++ [x]) ->
  Forall (fun y => gp_weight y = c) (xs ++ [x]) -> exists p, heaviest_ptr gp_weight f = Ok p /\ nth_error (pf_heap f) p = Some x /\ nth_error (pf_ptrs f) (length xs) = Some p.
Proof.
  intros HR F. unfold heaviest_ptr. rewrite (proj2 (objects_refs _ _ _) HR). cbn [bind].
  rewrite (heaviest_last0 c); [|destruct xs; discriminate|now apply Forall_map]. rewrite map_length, app_length. cbn [length].
  replace (length xs + 1 - 1)%nat with (length xs) by lia.
  destruct (refs_app_inv _ _ _ _ HR) as (ps & p & E & R1 & Np). rewrite E.
  assert (L : length ps = length xs) by (eapply F2_len; exact R1).
  exists p. rewrite <- L, nth_error_app2, Nat.sub_diag by lia. cbn [nth_error]. auto.
Qed.

Section Recorder.
  Context {S M G RV : Type} (rv_sample : RV -> G -> pose R * RV * G) (rv_copy : RV -> RV) (rv_zero : RV)
    (adder : M -> pose R -> S -> R -> R -> outcome M).
  Local Notation gp := (gparticle R G RV).
  Local Notation run := (gf_run cos sin rv_sample rv_copy rv_zero no_action_process adder).
  Variable Z : RV -> Prop.
  Hypothesis Z0 : Z rv_zero.
  Hypothesis ZS : forall z g, Z z -> fst (fst (rv_sample z g)) = mkPose 0 0 0 /\ Z (snd (fst (rv_sample z g))).
  (** a particle that follows the odometry *)
  Definition follows (t : pose R) (x : gp) : Prop := gp_pose x = t /\ gp_raw x = t /\ Z (gp_guess x) /\ Z (gp_lim x).
  Lemma follows_update t d x : follows t x -> follows (pose_add t d) (gp_update_robot_pose cos sin d x).
  Proof.
    intros (P & Q & A & B). unfold gp_update_robot_pose. cbv zeta. rewrite P, Q. unfold pose_sub. cbn [pth dsub ROps]. replace (pth t - pth t) with 0 by ring. rewrite cos_0, sin_0.
    unfold follows. cbn [gp_pose gp_raw gp_guess gp_lim gp_move px py pth]. rewrite ?P, ?Q. split; [|auto].
    unfold pose_add. cbn [px py pth dadd dmul dsub ROps]. f_equal; ring.
  Qed.
  Lemma still (p : pose R) : pose_add p (mkPose 0 0 0) = p.
  Proof. destruct p as [a b c]. unfold pose_add. cbn [px py pth dadd ROps]. f_equal; ring. Qed.
  Lemma still' (p : pose R) : pose_add p delta_zero = p.
  Proof. destruct p as [a b c]. unfold pose_add, delta_zero. cbn [px py pth dadd dofZ ROps]. f_equal; ring. Qed.
  Definition steps (x y : gp) : Prop := gp_weight y = gp_weight x /\ forall t, follows t x -> follows t y.
  Lemma observe_steps maps k x s maps' k' y : gp_observe rv_sample no_action_process adder maps k x s = Ok (maps', k', y) -> steps x y.
  Proof using ZS.
    unfold gp_observe. destruct (gp_skips x); [intros E; injection E as <- <- <-; split; auto|].
    cbv zeta. set (x1 := if gp_first x then x else _). intros E.
    assert (P1 : gp_weight x1 = gp_weight x /\ forall t, follows t x -> follows t x1).
    { unfold x1. destruct (gp_first x) eqn:Q; [auto|]. assert (V := ZS (gp_guess x) (gp_engine x)). destruct (rv_sample (gp_guess x) (gp_engine x)) as [[n gu] g]. cbn [fst snd] in V.
      split; [reflexivity|]. intros t (A & B & C & D). destruct (V C) as [-> V2]. unfold follows. cbn [gp_move gp_pose gp_raw gp_guess gp_lim]. rewrite still. auto. }
    destruct P1 as (P1 & P2). clearbody x1. destruct (nth_error maps (gp_map x1)) as [m|]; [|discriminate].
    unfold no_action_process in E. cbn [bind] in E. apply bind_Ok_inv in E as ([maps1 p1] & E2 & E).
    assert (P4 : gp_weight p1 = gp_weight x1 /\ gp_pose p1 = gp_pose x1 /\ gp_raw p1 = gp_raw x1 /\ gp_guess p1 = gp_guess x1 /\ gp_lim p1 = gp_lim x1).
    { destruct (_ || _)%bool in E2; [apply bind_Ok_inv in E2 as (m1 & _ & E2)|]; injection E2 as <- <-; cbn [gp_move gp_weight gp_pose gp_raw gp_guess gp_lim]; rewrite still'; auto. }
    destruct P4 as (P4 & P5 & P6 & P7 & P8). unfold gp_reset_sm_delta, gp_set_weight in E. cbn [gp_lim gp_engine gp_weight gp_pose gp_raw gp_master gp_first gp_guess gp_map] in E.
    assert (V := ZS (gp_lim p1) (gp_engine p1)). destruct (rv_sample _ _) as [[nx lm] g] in E, V. cbn [fst snd] in V. injection E as _ _ <-.
    split; [cbn [gp_weight]; rewrite P4, P1; cbn [dmul dofZ ROps]; ring|].
    intros t H. apply P2 in H as (A & B & C & D). unfold follows. cbn [gp_pose gp_raw gp_guess gp_lim]. rewrite P5, P6, P7. rewrite P8 in V. destruct (V D). auto.
  Qed.
  Lemma each_steps s ptrs : forall maps k h (xs : list gp) maps' k' h', refs h ptrs xs -> NoDup ptrs ->
    gf_observe_each rv_sample no_action_process adder maps k h ptrs s = Ok (maps', k', h') ->
    (exists ys, refs h' ptrs ys /\ Forall2 steps xs ys) /\ (forall q, ~ In q ptrs -> nth_error h' q = nth_error h q).
  Proof using ZS.
    induction ptrs as [|p ptrs IH]; intros maps sm h xs maps' sm' h' F ND E; cbn [gf_observe_each] in E.
    - injection E as <- <- <-. inversion F; subst. split; [exists []; split; constructor|auto].
    - inversion F as [|? x ? l N F']; subst. unfold deref in E. rewrite N in E. cbn [bind] in E. inversion ND as [|? ? Hn ND']; subst.
      apply bind_Ok_inv in E as ([[maps1 sm1] x1] & E1 & E). apply observe_steps in E1.
      assert (B : (p < length h)%nat) by (apply nth_error_Some; congruence).
      destruct (IH maps1 sm1 (upd h p (fun _ => x1)) l maps' sm' h') as ((ys & R & K') & O); [now apply refs_upd_other|exact ND'|exact E|].
      split.
      + exists (x1 :: ys). split; [|now constructor]. constructor; [|exact R]. rewrite O by exact Hn.
        rewrite upd_nth, Nat.eqb_refl, N by exact B. reflexivity.
      + intros q Hq. rewrite O by (intros H; apply Hq; now right). rewrite upd_nth by exact B.
        destruct (Nat.eqb_spec q p) as [->|]; [elim Hq; now left|reflexivity].
  Qed.

  Definition rinv (n : nat) (t : pose R) (f : gfilter R M unit G RV) : Prop :=
    exists xs x, refs (pf_heap (gf_pf f)) (pf_ptrs (gf_pf f)) (xs ++ [x]) /\ NoDup (pf_ptrs (gf_pf f)) /\ (length xs + 1)%nat = n /\
      Forall (fun y => gp_weight y = 1 / INR n) (xs ++ [x]) /\ follows t x.
  Lemma rinv_pose n t f : rinv n t f -> gf_pose f = Ok t.
  Proof.
    intros (xs & x & R1 & _ & _ & W & (P & _)). unfold gf_pose.
    destruct (heaviest_ptr_last _ _ _ _ R1 W) as (p & -> & N & _). cbn [bind]. unfold deref. rewrite N. cbn [bind]. now rewrite P.
  Qed.
  Lemma rinv_update n t f d f' : rinv n t f -> gf_update cos sin f d = Ok f' -> rinv n (pose_add t d) f' /\ pf_ptrs (gf_pf f') = pf_ptrs (gf_pf f).
  Proof.
    intros (xs & x & R1 & ND & L & W & F) E. unfold gf_update in E.
    destruct (gf_each_spec (gp_update_robot_pose cos sin d) _ _ _ R1 ND) as (h1 & Eh & R2 & _). rewrite Eh in E. cbn [bind] in E. injection E as <-.
    split; [|reflexivity]. exists (map (gp_update_robot_pose cos sin d) xs), (gp_update_robot_pose cos sin d x). cbn [gf_pf pf_heap pf_ptrs].
    rewrite map_app in R2. cbn [map] in R2. split; [exact R2|]. split; [exact ND|]. rewrite map_length. split; [exact L|]. split; [|now apply follows_update].
    change [gp_update_robot_pose cos sin d x] with (map (gp_update_robot_pose cos sin d) [x]). rewrite <- map_app. apply Forall_map. eapply Forall_impl; [|exact W]. intros a <-. reflexivity.
  Qed.
  Lemma rinv_observe n t f s samples f' : rinv n t f -> gf_observe rv_sample rv_copy rv_zero no_action_process adder f s samples = Ok f' ->
    rinv n t f' /\ pf_ptrs (gf_pf f') = pf_ptrs (gf_pf f).
  Proof using ZS.
    intros (xs & x & R1 & ND & L & W & F) E. unfold gf_observe in E.
    apply bind_Ok_inv in E as ([[maps k] h1] & E1 & E). destruct (each_steps _ _ _ _ _ _ _ _ _ R1 ND E1) as ((ys & R2 & FS) & _).
    apply Forall2_app_inv_l in FS as (ys1 & ys2 & FS1 & FS2 & ->). inversion FS2 as [|? y ? l Hy Hl]; subst. inversion Hl; subst.
    assert (LY : length ys1 = length xs) by (symmetry; eapply F2_len; exact FS1).
    set (n := (length xs + 1)%nat) in *.
    assert (P : 0 < INR n) by (apply lt_0_INR; unfold n; lia).
    assert (W1 : Forall (fun y => gp_weight y = 1 / INR n) (ys1 ++ [y])).
    { apply Forall_app in W as [Wa Wb]. apply Forall_app. split.
      - clearbody n. clear - Wa FS1. revert Wa. induction FS1 as [|a b l l' Hab FS IH]; intros Wa; [constructor|]. inversion Wa as [|? ? Wh Wt]; subst. constructor; [rewrite (proj1 Hab); exact Wh|exact (IH Wt)].
      - inversion Wb; subst. constructor; [|constructor]. rewrite (proj1 Hy). assumption. }
    set (zs := ys1 ++ [y]) in *. assert (LZ : length zs = n) by (unfold zs, n; rewrite app_length; cbn [length]; lia).
    assert (TW : total_weight (map gp_weight zs) (dofZ 0%Z) = 1).
    { rewrite total_weight_R, (Rsum_const _ (1 / INR n)) by (now apply Forall_map). rewrite map_length, LZ. cbn [dofZ ROps]. field. lra. }
    destruct (normalize_spec gp_weight gp_set_weight (mkPF h1 (pf_ptrs (gf_pf f))) zs R2 ND) as (p & En & Ep & _ & Rn). rewrite En in E. cbn [bind] in E. rewrite TW in Rn. cbn [pf_ptrs] in Ep.
    set (g := fun x0 : gp => gp_set_weight (ddiv (gp_weight x0) 1) x0) in *.
    assert (W2 : Forall (fun y => gp_weight y = 1 / INR n) (map g zs)).
    { apply Forall_map. eapply Forall_impl; [|exact W1]. intros a Ha. unfold g. cbn [gp_set_weight gp_weight ddiv ROps]. rewrite Ha. lra. }
    assert (H : f' = mkGF p (gf_trav f) maps k).
    { unfold gf_try_resample in E. cbn [gf_trav gf_pf gf_maps gf_sm] in E. destruct (_ && _)%bool in E; [congruence|].
      unfold pf_try_resample in E. rewrite (proj2 (objects_refs _ _ _) Rn) in E. cbn [bind] in E. rewrite (even_weights _ n) in E.
      - cbn [negb bind] in E. congruence.
      - unfold n. lia.
      - now rewrite !map_length.
      - apply Forall_map. exact W2. }
    subst f'. cbn [gf_pf]. split; [|exact Ep]. exists (map g ys1), (g y). cbn [gf_pf]. unfold zs in Rn, W2. rewrite map_app in Rn, W2. cbn [map] in Rn, W2.
    split; [exact Rn|]. split; [rewrite Ep; exact ND|]. rewrite map_length, LY. split; [reflexivity|]. split; [exact W2|].
    destruct Hy as [_ Hy]. destruct (Hy t F) as (A & B & C & D). unfold follows, g. cbn. auto.
  Qed.
  Lemma rinv_run n h : forall o f t o' f' ns, rinv n t f -> run o f h = Ok (o', f', ns) ->
    rinv n (fold_left pose_add (scan_deltas h) t) f' /\ pf_ptrs (gf_pf f') = pf_ptrs (gf_pf f) /\
    (forall id q, In (NPose id q) ns -> In q (map fst (track t h))).
  Proof using ZS.
    unfold gf_run. induction h as [|[id|id|id|s] h IH]; intros o f t o' f' ns I E; cbn [world_run track] in *; try (eapply IH; eauto; fail).
    - injection E as <- <- <-. split; [exact I|]. split; [reflexivity|]. intros id q [].
    - apply bind_Ok_inv in E as ([f3 n3] & E1 & E). apply bind_Ok_inv in E as ([[o1 f4] n4] & E2 & E). injection E as <- <- <-.
      unfold handle_sensor_data in E1. apply bind_Ok_inv in E1 as (f1 & Eu & E1). apply bind_Ok_inv in E1 as (f2 & Eo & E1).
      apply bind_Ok_inv in E1 as (q0 & Eq & E1). apply bind_Ok_inv in E1 as (m0 & _ & E1). injection E1 as <- <-.
      destruct (rinv_update _ _ _ _ _ I Eu) as [I1 P1]. destruct (rinv_observe _ _ _ _ _ _ I1 Eo) as [I2 P2].
      destruct (IH _ _ _ _ _ _ I2 E2) as (I3 & P3 & N3). rewrite (rinv_pose _ _ _ I2) in Eq. injection Eq as <-.
      split; [exact I3|]. split; [congruence|]. intros id q H. cbn [map fst]. apply in_app_or in H as [H|H]; [left|right; eauto].
      apply in_app_or in H as [H|H].
      + unfold notify_with_pose in H. apply in_flat_map in H as (k & _ & H). destruct (locks o k); [|easy]. destruct H as [H|[]]. congruence.
      + unfold notify_with_map in H. apply in_flat_map in H as (k & _ & H). destruct (locks o k); [|easy]. destruct H as [H|[]]. discriminate.
  Qed.
  Lemma upd_last {A} (l : list A) x f : upd (l ++ [x]) (length l) f = l ++ [f x].
  Proof.
    unfold upd. rewrite nth_error_app2, Nat.sub_diag by lia. cbn [nth_error]. rewrite firstn_app, Nat.sub_diag, firstn_all. cbn [firstn]. rewrite app_nil_r.
    rewrite skipn_all2 by (rewrite app_length; cbn; lia). reflexivity.
  Qed.
  Lemma rinv_new guess lim seeds (m0 : M) n f0 : (0 < n)%nat -> gf_new rv_sample rv_copy rv_zero guess lim seeds m0 tt n = Ok f0 -> rinv n (mkPose 0 0 0) f0.
  Proof using Z0.
    intros Hn. unfold gf_new. set (cr := fun i => gp_create rv_sample rv_copy guess lim 0 (seeds i)). cbv zeta.
    unfold pf_new. cbn [pf_heap pf_ptrs]. set (w := ddiv _ _).
    assert (W : w = 1 / INR n) by (unfold w; cbn [ddiv dofZ ROps]; rewrite <- INR_IZR_INZ; reflexivity). clearbody w.
    set (xs := map (fun i => gp_set_weight w (cr i)) (seq 0 n)).
    assert (R : refs (pf_create gp_set_weight cr n 0 w) (seq 0 n) xs).
    { unfold refs, xs. clear - cr. assert (GG : forall l, Forall (fun i => (i < n)%nat) l -> Forall2 (fun p x => nth_error (pf_create gp_set_weight cr n 0 w) p = Some x) l (map (fun i => gp_set_weight w (cr i)) l)).
      { intros l H. induction H as [|i l Hi H IH]; cbn [map]; constructor; [|exact IH]. rewrite pf_create_nth by exact Hi. reflexivity. }
      apply GG. apply Forall_forall. intros i Hi. apply in_seq in Hi. lia. }
    assert (ND := seq_NoDup n 0).
    destruct (gf_each_spec (gp_sample (G := G)) _ _ _ R ND) as (h & Eg & R' & _). rewrite Eg. cbn [bind].
    set (ys := map gp_sample xs) in R'.
    assert (LY : length ys = n) by (unfold ys, xs; now rewrite !map_length, seq_length).
    assert (Q : Forall (fun y : gp => gp_weight y = 1 / INR n /\ gp_pose y = mkPose 0 0 0 /\ gp_raw y = mkPose 0 0 0) ys).
    { unfold ys, xs. rewrite map_map. apply Forall_map. apply Forall_forall. intros j _. unfold cr, gp_create, gp_reset_sm_delta. cbn [gp_lim gp_engine].
      destruct (rv_sample _ _) as [[nx lm] g]. cbn. rewrite W. auto. }
    destruct (exists_last (l := ys)) as (l & z & EY). { intros H. rewrite H in LY. cbn in LY. lia. }
    rewrite EY in *. rewrite app_length in LY. cbn [length] in LY.
    assert (Wt : Forall (fun y : gp => gp_weight y = 1 / INR n) (l ++ [z])) by (eapply Forall_impl; [|exact Q]; intros a Ha; apply Ha).
    destruct (heaviest_ptr_last (1 / INR n) (mkPF h (seq 0 n)) l z R' Wt) as (p & Ep & Nz & Np). rewrite Ep. cbn [bind]. intros E. injection E as <-.
    exists l, (gp_mark_master rv_zero z). cbn [gf_pf pf_heap pf_ptrs] in *. rewrite <- (upd_last l z (gp_mark_master rv_zero)).
    split; [now apply refs_upd_at|]. split; [exact ND|]. split; [exact LY|]. rewrite upd_last.
    apply Forall_app in Wt as [Wa Wb]. apply Forall_app in Q as [_ Qz]. inversion Qz as [|? ? (Q1 & Q2 & Q3) _]; subst. split.
    - apply Forall_app. split; [exact Wa|]. constructor; [exact Q1|constructor].
    - unfold follows. cbn. auto.
  Qed.
End Recorder.
