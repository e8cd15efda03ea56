(** C22-C28: scan matchers. *)
From Coq Require Import ZArith List Bool Lia Reals Lra FinFun.
From Flocq Require Import Core.
From Verif.Base Require Import Outcome Num F64Facts OrdLaws.
From Verif.Model Require Import MathUtils Geometry PlainMap Sensor Matchers.
From Verif.Spec Require Import MatchSpec ClimbFloatSpec.
From Verif.Proofs Require Import MatcherProofs BruteForceProofs ClimbProofs FixedHcProofs ClimbFloatProofs.
Import ListNotations.
Local Open Scope Z_scope.
Local Open Scope outcome_scope.

(** ** C22 *)
(** for every enumerator, scoring function (also one that returns NaN), set of observers and initial pose *)
Theorem C22_best_tested_pose : forall (D : Type) (ops : DOps D) (laws : OrdLaws ops) (E : Type) (en : enumerator D E)
    (score : pose D -> D) (obs : observers) fuel e init r,
  process_scan en score obs fuel e init = Ok r ->
  mr_delta r = pose_sub (mr_best r) init /\ mr_prob r = score (mr_best r) /\
  hd_error (mr_tested r) = Some init /\
  dlt (mr_prob r) (score init) = false /\
  (forall p, In p (mr_tested r) -> dlt (mr_prob r) (score p) = false) /\
  exists before after, mr_tested r = before ++ mr_best r :: after /\
    forall p, In p before -> dle (mr_prob r) (score p) = false.
Proof.
  intros D ops laws E en score obs fuel e init r H. apply process_scan_spec in H.
  destruct H as (Hd & Hp & (l1 & l2 & El & H1 & H2) & new & evs & Et & _). rewrite Hp.
  split; [exact Hd|]. split; [reflexivity|]. split; [rewrite Et; reflexivity|].
  split; [apply H2; rewrite Et; left; reflexivity|]. split; [exact H2|]. eauto.
Qed.
Print Assumptions C22_best_tested_pose.

(** the three arithmetics the theorem applies to *)
Check (C22_best_tested_pose F64 FOps F_OrdLaws).
Check (C22_best_tested_pose R ROps R_OrdLaws).

(** in exact arithmetic the correction leads exactly to the best pose *)
Theorem C22_correction_reaches_best_pose : forall (E : Type) (en : enumerator R E) (score : pose R -> R) obs fuel e init r,
  process_scan en score obs fuel e init = Ok r ->
  pose_add init (mr_delta r) = mr_best r /\ mr_prob r = score (pose_add init (mr_delta r)) /\
  (score init <= mr_prob r)%R.
Proof.
  intros E en score obs fuel e init r H. apply (C22_best_tested_pose R ROps R_OrdLaws) in H. destruct H as (Hd & Hp & _ & Hi & _).
  assert (A : pose_add init (mr_delta r) = mr_best r).
  { rewrite Hd. unfold pose_add, pose_sub. destruct (mr_best r), init. cbn. f_equal; lra. }
  rewrite A. split; [reflexivity|]. split; [exact Hp|]. apply R_lt_false in Hi. exact Hi.
Qed.
Print Assumptions C22_correction_reaches_best_pose.

(** ** C23 *)
Theorem C23_observer_protocol : forall (D : Type) (ops : DOps D) (laws : OrdLaws ops) (E : Type) (en : enumerator D E)
    (score : pose D -> D) (obs : observers) fuel e init r o,
  process_scan en score obs fuel e init = Ok r ->
  NoDup (map fst obs) -> In (o, true) obs ->
  exists evs, received o (mr_out r) =
      EvStart init :: EvTest init (score init) :: EvUpdate init (score init) :: evs ++ [EvEnd (mr_delta r) (mr_prob r)] /\
    protocol (score init) evs (mr_prob r) /\
    mr_tested r = init :: map fst (tests_of evs) /\
    (forall p s, In (p, s) (tests_of evs) -> s = score p) /\
    increasing (score init :: updates_of evs).
Proof.
  intros D ops laws E en score obs fuel e init r o H ND Ho. apply process_scan_spec in H.
  destruct H as (_ & _ & _ & new & evs & Et & Eo & HP & HT). exists evs. rewrite Eo.
  rewrite !received_app, !received_notify_live, received_deliver by auto. split; [reflexivity|]. split; [exact HP|].
  rewrite HT, map_map, map_id. split; [exact Et|]. split.
  - intros p s Hin. apply in_map_iff in Hin. destruct Hin as (q & Eq & _). congruence.
  - eapply protocol_increasing; eauto.
Qed.
Print Assumptions C23_observer_protocol.

(** an observer that was destroyed, unsubscribed or never registered is not called *)
Theorem C23_others_not_called : forall (D : Type) (ops : DOps D) (laws : OrdLaws ops) (E : Type) (en : enumerator D E)
    (score : pose D -> D) (obs : observers) fuel e init r o,
  process_scan en score obs fuel e init = Ok r -> ~ In (o, true) obs -> received o (mr_out r) = [].
Proof.
  intros D ops laws E en score obs fuel e init r o H Ho. apply process_scan_spec in H.
  destruct H as (_ & _ & _ & new & evs & Et & Eo & HP & HT). rewrite Eo.
  rewrite !received_app, !received_notify_absent, received_deliver_absent by auto. reflexivity.
Qed.
Print Assumptions C23_others_not_called.

(** registration: after [subscribe] an observer is registered once, after [unsubscribe] not at all, the others stay *)
Theorem C23_subscription : forall (obs : observers) (o : Z),
  NoDup (map fst obs) -> ~ In o (map fst obs) ->
  (NoDup (map fst (subscribe obs o)) /\ In (o, true) (subscribe obs o)) /\
  (forall o' b, ~ In (o', b) (unsubscribe (subscribe obs o) o) \/ o' <> o) /\
  (forall o', o' <> o -> (In (o', true) (unsubscribe (subscribe obs o) o) <-> In (o', true) obs)).
Proof.
  intros obs o ND Ho. unfold subscribe, unsubscribe. split; [split|split].
  - rewrite map_app. cbn. clear - ND Ho. induction obs as [|[i a] obs IH]; cbn in *; [constructor; [intros []|constructor]|].
    inversion ND; subst. constructor; [|apply IH; tauto]. rewrite in_app_iff. intros [H|[H|[]]]; [contradiction|]. subst. tauto.
  - apply in_or_app. right. left. reflexivity.
  - intros o' b. destruct (Z.eq_dec o' o) as [->|]; [left|right; auto]. intros H. apply filter_In in H. destruct H as [_ H].
    cbn in H. rewrite Z.eqb_refl, andb_false_r in H. discriminate.
  - intros o' Hne. rewrite filter_In, in_app_iff. cbn. destruct (Z.eqb_spec o' o) as [E|]; [congruence|]. cbn. split.
    + intros [[H|[H|[]]] _]; [exact H|congruence].
    + auto.
Qed.
Print Assumptions C23_subscription.

(** ** C24 *)
Lemma in_axis_until from to step o : (0 < step)%R ->
  (In o (map (fun k => (from + INR k * step)%R) (seq 0 (S (axis_steps from to step)))) <->
   exists i : nat, o = (from + INR i * step)%R /\ (i = 0%nat \/ from + (INR i - 1) * step < to)%R).
Proof.
  intros Hs. rewrite in_map_iff. split; intros (i & E & H); exists i; (split; [congruence|]).
  - apply in_seq in H. destruct (Nat.eq_dec i 0) as [->|N]; [left; reflexivity|right]. unfold axis_steps in H.
    assert (L : (Z.of_nat i - 1 < Zceil ((to - from) / step))%Z) by lia.
    assert (L2 : (IZR (Z.of_nat i - 1) < (to - from) / step)%R).
    { apply Rnot_le_lt. intros C. apply Zceil_glb in C. lia. }
    rewrite minus_IZR, <- INR_IZR_INZ in L2. apply (Rmult_lt_compat_r step) in L2; [|exact Hs].
    unfold Rdiv in L2. rewrite Rmult_assoc, Rinv_l in L2 by lra. lra.
  - apply in_seq. split; [lia|]. cbn [Nat.add]. destruct H as [->|H]; [lia|]. apply Nat.lt_succ_r. unfold axis_steps.
    assert (L2 : (IZR (Z.of_nat i - 1) < (to - from) / step)%R).
    { rewrite minus_IZR, <- INR_IZR_INZ. apply (Rmult_lt_reg_r step); [exact Hs|].
      unfold Rdiv. rewrite Rmult_assoc, Rinv_l by lra. lra. }
    assert (Z.of_nat i - 1 < Zceil ((to - from) / step))%Z; [|lia].
    apply lt_IZR. eapply Rlt_le_trans; [exact L2|apply Zceil_ub].
Qed.

Lemma in_axis_while from to step o : (0 < step)%R ->
  (In o (map (fun k => (from + INR k * step)%R) (seq 0 (axis_count from to step))) <->
   exists i : nat, o = (from + INR i * step)%R /\ (o <= to)%R).
Proof.
  intros Hs. rewrite in_map_iff. split; intros (i & E & H); exists i; (split; [congruence|]).
  - apply in_seq in H. unfold axis_count in H. assert (L : (Z.of_nat i <= Zfloor ((to - from) / step))%Z) by lia.
    apply IZR_le in L. rewrite <- INR_IZR_INZ in L. pose proof (Zfloor_lb ((to - from) / step)) as F.
    assert (L2 : (INR i <= (to - from) / step)%R) by lra. apply (Rmult_le_compat_r step) in L2; [|lra].
    unfold Rdiv in L2. rewrite Rmult_assoc, Rinv_l in L2 by lra. subst o. lra.
  - apply in_seq. split; [lia|]. cbn [Nat.add]. unfold axis_count.
    assert (L2 : (IZR (Z.of_nat i) <= (to - from) / step)%R).
    { rewrite <- INR_IZR_INZ. apply (Rmult_le_reg_r step); [exact Hs|]. unfold Rdiv. rewrite Rmult_assoc, Rinv_l by lra. subst o. lra. }
    apply Zfloor_lub in L2. lia.
Qed.

Lemma NoDup_axis from step n : (0 < step)%R -> NoDup (map (fun k => (from + INR k * step)%R) (seq 0 n)).
Proof.
  intros Hs. apply Injective_map_NoDup; [|apply seq_NoDup]. intros a b H. apply INR_eq.
  apply Rmult_eq_reg_r with step; lra.
Qed.

Lemma NoDup_offsets xs ys ts : NoDup xs -> NoDup ys -> NoDup ts -> NoDup (offsets (D := R) xs ys ts).
Proof.
  intros Nx Ny Nt.
  assert (G : forall (A B C : Type) (f : A -> list B) (g : B -> C) (h : A -> C) l, NoDup l -> (forall a, In a l -> NoDup (f a)) ->
    (forall a b, In b (f a) -> g b = h a) -> (forall a a', h a = h a' -> a = a') -> NoDup (flat_map f l)).
  { intros A B C f g h l N Hf Hg Hh. induction N as [|a l Ha N IH]; cbn; [constructor|].
    assert (N1 : NoDup (f a)) by (apply Hf; now left). assert (N2 : NoDup (flat_map f l)) by (apply IH; intros; apply Hf; now right).
    assert (Dis : forall b, In b (f a) -> ~ In b (flat_map f l)).
    { intros b H1 H2. apply in_flat_map in H2. destruct H2 as (a' & Ha' & H2). apply Hg in H1, H2.
      rewrite H1 in H2. apply Hh in H2. subst. contradiction. }
    clear - N1 N2 Dis. induction N1 as [|b l' Hb N1 IH]; cbn; [exact N2|]. constructor.
    - rewrite in_app_iff. intros [H|H]; [contradiction|]. apply (Dis b); [now left|exact H].
    - apply IH. intros b' H. apply Dis. now right. }
  apply (G R (pose R) R _ pth (fun t => t)); auto.
  - intros t _. apply (G R (pose R) R _ py (fun y => y)); auto.
    + intros y _. apply Injective_map_NoDup; [|exact Nx]. intros a b H. congruence.
    + intros a b H. apply in_map_iff in H. destruct H as (? & <- & _). reflexivity.
  - intros a b H. apply in_flat_map in H. destruct H as (y & _ & H). apply in_map_iff in H. destruct H as (? & <- & _). reflexivity.
Qed.

(** Exact arithmetic, positive steps: a fresh matcher tests the initial pose and then every offset of the grid around it
    exactly once, and stops.  The grid is [from + i*step]: rotations up to [to]; x and y until the first value that
    reaches [to], which may exceed it by less than one step. *)
Theorem C24_brute_force_grid : forall (cfg : bf_cfg R) (score : pose R -> R) (obs : observers) (init : pose R),
  (0 < step_x cfg)%R -> (0 < step_y cfg)%R -> (0 < step_t cfg)%R ->
  exists enough r offs,
    (forall fuel, (enough <= fuel)%nat -> process_scan (bf_enum cfg) score obs fuel (bf_new cfg) init = Ok r) /\
    bf_has_next cfg (mr_enum r) = false /\
    mr_tested r = init :: map (pose_add init) offs /\
    NoDup offs /\
    forall o, In o offs <-> exists i j k : nat,
      o = mkPose (from_x cfg + INR i * step_x cfg)%R (from_y cfg + INR j * step_y cfg)%R (from_t cfg + INR k * step_t cfg)%R /\
      (i = 0%nat \/ from_x cfg + (INR i - 1) * step_x cfg < to_x cfg)%R /\
      (j = 0%nat \/ from_y cfg + (INR j - 1) * step_y cfg < to_y cfg)%R /\
      (from_t cfg + INR k * step_t cfg <= to_t cfg)%R.
Proof.
  intros cfg score obs init Hx Hy Ht.
  pose proof (steps_until_R _ (to_x cfg) Hx _ (from_x cfg) eq_refl) as Sx.
  pose proof (steps_until_R _ (to_y cfg) Hy _ (from_y cfg) eq_refl) as Sy.
  pose proof (steps_while_R _ (to_t cfg) Ht _ (from_t cfg) eq_refl) as St.
  match type of Sx with steps_until _ _ _ ?l => set (xs := l) in * end.
  match type of Sy with steps_until _ _ _ ?l => set (ys := l) in * end.
  match type of St with steps_while _ _ _ ?l => set (ts := l) in * end.
  set (offs := offsets xs ys ts).
  destruct (bf_process cfg score obs xs ys ts (bf_new cfg) init (length offs) Sx Sy St (Nat.le_refl _)) as (r & HR & HT & _ & HN).
  exists (length offs), r, offs. split; [|split; [exact HN|split; [exact HT|split]]].
  - intros fuel Hf. destruct (bf_process cfg score obs xs ys ts (bf_new cfg) init fuel Sx Sy St Hf) as (r' & HR' & _).
    rewrite HR'. f_equal. clear - HR HR' Hf. rewrite process_scan_run in HR, HR'.
    apply bind_Ok_inv in HR. destruct HR as (st & HL & HR). apply bind_Ok_inv in HR'. destruct HR' as (st' & HL' & HR').
    destruct (run_loop_runs _ _ _ _ _ _ HL) as (n & Ln & Rn & Sn).
    rewrite (runs_finish _ _ _ _ _ _ fuel Rn Sn ltac:(lia)) in HL'. injection HL' as <-.
    destruct st as [[[[? ?] ?] ?] ?]. congruence.
  - apply NoDup_offsets; apply NoDup_axis; assumption.
  - intros o. unfold offs, offsets. rewrite in_flat_map. split.
    + intros (t & Hin & H). apply in_flat_map in H. destruct H as (y & Hiny & H). apply in_map_iff in H. destruct H as (x & <- & Hinx).
      apply (in_axis_until _ _ _ _ Hx) in Hinx. apply (in_axis_until _ _ _ _ Hy) in Hiny. apply (in_axis_while _ _ _ _ Ht) in Hin.
      destruct Hinx as (i & -> & Hi), Hiny as (j & -> & Hj), Hin as (k & -> & Hk). exists i, j, k. auto.
    + intros (i & j & k & -> & Hi & Hj & Hk). eexists. split; [apply (in_axis_while _ _ _ _ Ht); exists k; split; [reflexivity|exact Hk]|].
      apply in_flat_map. eexists. split; [apply (in_axis_until _ _ _ _ Hy); exists j; split; [reflexivity|exact Hj]|].
      apply in_map_iff. eexists. split; [reflexivity|]. apply (in_axis_until _ _ _ _ Hx). exists i. auto.
Qed.
Print Assumptions C24_brute_force_grid.

(** In any arithmetic (also binary64): whenever repeated addition of the steps reaches the limits, the poses tested are
    the products of the three sequences of repeated additions, x changing fastest. *)
Theorem C24_brute_force_sequence : forall (D : Type) (ops : DOps D) (cfg : bf_cfg D) score obs (init : pose D) xs ys ts,
  steps_until (step_x cfg) (to_x cfg) (from_x cfg) xs -> steps_until (step_y cfg) (to_y cfg) (from_y cfg) ys ->
  steps_while (step_t cfg) (to_t cfg) (from_t cfg) ts ->
  forall fuel, (length (offsets xs ys ts) <= fuel)%nat ->
  exists r, process_scan (bf_enum cfg) score obs fuel (bf_new cfg) init = Ok r /\
    mr_tested r = init :: shifted init (offsets xs ys ts) /\ bf_has_next cfg (mr_enum r) = false.
Proof.
  intros D ops cfg score obs init xs ys ts Hx Hy Ht fuel Hf.
  destruct (bf_process cfg score obs xs ys ts (bf_new cfg) init fuel Hx Hy Ht Hf) as (r & HR & HT & _ & HN). eauto.
Qed.
Print Assumptions C24_brute_force_sequence.

(** the positivity of the steps is needed and not checked: with a rotation step that is not positive matching never ends *)
Theorem C24_nonpositive_rotation_step_never_ends : forall (cfg : bf_cfg R) score obs init fuel,
  (from_t cfg <= to_t cfg)%R -> (step_t cfg <= 0)%R ->
  process_scan (bf_enum cfg) score obs fuel (bf_new cfg) init = OutOfFuel.
Proof.
  intros cfg score obs init fuel H0 Hs. unfold process_scan.
  rewrite (pe_loop_diverges score obs (bf_enum cfg) (fun s => (bf_t s <= to_t cfg)%R)); [reflexivity| | |].
  - intros e He. cbn. apply R_le_true. exact He.
  - intros e p ok He. cbn. unfold bf_feedback. cbn. destruct (R_lt _ _); [exact He|]. destruct (R_lt _ _); cbn; [exact He|]. lra.
  - exact H0.
Qed.
Print Assumptions C24_nonpositive_rotation_step_never_ends.

Example C24_hypotheses_met : exists cfg : bf_cfg R,
  (0 < step_x cfg /\ 0 < step_y cfg /\ 0 < step_t cfg /\ from_x cfg < to_x cfg /\ from_y cfg < to_y cfg /\ from_t cfg < to_t cfg)%R.
Proof. exists (mkBfCfg (-1) 1 (1/10) (-1) 1 (1/10) (-1) 1 (1/10))%R. cbn. repeat split; lra. Qed.

(** ** C25: the matcher remembers the first scan *)
(** the enumerator state after processing scans at the given initial poses *)
Fixpoint after_history {D : Type} {ops : DOps D} (cfg : bf_cfg D) (score : pose D -> D) (obs : observers) (fuel : nat)
    (s : bf_state D) (inits : list (pose D)) : outcome (bf_state D) :=
  match inits with
  | [] => Ok s
  | i :: inits => r <- process_scan (bf_enum cfg) score obs fuel s i ;; after_history cfg score obs fuel (mr_enum r) inits
  end.

(** what does hold: all later searches are around the initial pose of the very first scan *)
Theorem C25_search_stays_at_first_pose_partial : forall (D : Type) (ops : DOps D) (cfg : bf_cfg D) score obs first later init xs ys ts,
  steps_until (step_x cfg) (to_x cfg) (from_x cfg) xs -> steps_until (step_y cfg) (to_y cfg) (from_y cfg) ys ->
  steps_while (step_t cfg) (to_t cfg) (from_t cfg) ts -> ts <> [] ->
  forall fuel, (length (offsets xs ys ts) <= fuel)%nat ->
  exists s r, after_history cfg score obs fuel (bf_new cfg) (first :: later) = Ok s /\
    process_scan (bf_enum cfg) score obs fuel s init = Ok r /\
    mr_tested r = init :: shifted first (offsets xs ys ts).
Proof.
  intros D ops cfg score obs first later init xs ys ts Hx Hy Ht Nt fuel Hf.
  assert (G : forall later s, bf_base s = Some first -> exists s', after_history cfg score obs fuel s later = Ok s' /\ bf_base s' = Some first).
  { clear later. induction later as [|i later IH]; intros s Hs; [exists s; auto|]. cbn [after_history].
    destruct (bf_process cfg score obs xs ys ts s i fuel Hx Hy Ht Hf) as (r & -> & _ & HB & _). rewrite Hs in HB. cbn [bind].
    apply IH. auto. }
  cbn [after_history]. destruct (bf_process cfg score obs xs ys ts (bf_new cfg) first fuel Hx Hy Ht Hf) as (r & -> & _ & HB & _).
  cbn [bind]. destruct (G later (mr_enum r) (HB Nt)) as (s' & Hs' & Hb).
  destruct (bf_process cfg score obs xs ys ts s' init fuel Hx Hy Ht Hf) as (r' & HR & HT & _ & _). rewrite Hb in HT. eauto.
Qed.
Print Assumptions C25_search_stays_at_first_pose_partial.

(** so the claim is false: a reused matcher tests other poses than a fresh one *)
Theorem C25_reused_matcher_refuted : exists (cfg : bf_cfg R) (score : pose R -> R) (first init : pose R) fuel s r1 r2,
  bf_cfg_ok cfg = true /\
  after_history cfg score [] fuel (bf_new cfg) [first] = Ok s /\
  process_scan (bf_enum cfg) score [] fuel s init = Ok r1 /\
  process_scan (bf_enum cfg) score [] fuel (bf_new cfg) init = Ok r2 /\
  mr_tested r1 <> mr_tested r2.
Proof.
  set (cfg := (mkBfCfg 0 0 1 0 0 1 0 0 1)%R).
  set (p0 := (mkPose 0 0 0)%R). set (p1 := (mkPose 5 0 0)%R).
  assert (Hx : steps_until (step_x cfg) (to_x cfg) (from_x cfg) [0%R]) by (apply su_last; cbn; apply R_lt_false; lra).
  assert (Hy : steps_until (step_y cfg) (to_y cfg) (from_y cfg) [0%R]) by (apply su_last; cbn; apply R_lt_false; lra).
  assert (Ht : steps_while (step_t cfg) (to_t cfg) (from_t cfg) [0%R]).
  { apply sw_more; [cbn; apply R_le_true; lra|]. apply sw_end. cbn. apply R_le_false. lra. }
  destruct (C25_search_stays_at_first_pose_partial R ROps cfg (fun _ => 0%R) [] p0 [] p1 _ _ _ Hx Hy Ht ltac:(discriminate) 1%nat (Nat.le_refl _)) as (s & r1 & H1 & H2 & H3).
  destruct (C24_brute_force_sequence R ROps cfg (fun _ => 0%R) [] p1 _ _ _ Hx Hy Ht 1%nat (Nat.le_refl _)) as (r2 & H4 & H5 & _).
  exists cfg, (fun _ => 0%R), p0, p1, 1%nat, s, r1, r2. split.
  { unfold bf_cfg_ok. cbn. assert (E : R_le 0 0 = true) by (apply R_le_true; lra). rewrite E. reflexivity. }
  split; [exact H1|]. split; [exact H2|]. split; [exact H4|]. rewrite H3, H5. cbn. intros C. injection C as C. lra.
Qed.
Print Assumptions C25_reused_matcher_refuted.

(** ** C26 *)
(** exact arithmetic: the poses tested are whole rounds of six one-coordinate moves from the best pose at the start of the
    round, the steps halved after each failed round, until [max] rounds have failed, and then one more pose *)
Theorem C26_round_structure : forall (score : pose R -> R) obs (max : nat) tr rot (e : frl R) init fuel r,
  0 < Z.of_nat max < 2 ^ 32 -> fr_max e = Z.of_nat max -> fr_base_tr e = tr -> fr_base_rot e = rot ->
  process_scan frl_enum score obs fuel e init = Ok r ->
  exists rest, mr_tested r = init :: rest /\ climb score (halved_moves tr rot) max 0 init rest.
Proof.
  intros score obs max tr rot e init fuel r Hm H1 H2 H3 H. rewrite process_scan_run in H.
  apply bind_Ok_inv in H. destruct H as (st & HL & H). destruct (run_loop_runs _ _ _ _ _ _ HL) as (n & _ & Rn & Sn).
  cbn [e_reset frl_enum] in Rn. rewrite (reset_ready tr rot max e H1 H2 H3) in Rn.
  destruct (climb_runs score obs tr rot max ltac:(lia) n 0 (Rst tr rot max 0) init _ _ st ltac:(lia) ltac:(intros ?; reflexivity)
              ltac:(unfold frl_has_next; apply Z.ltb_lt; cbn; lia) Rn Sn) as (rest & HT & HC).
  exists rest. destruct st as [[[[e' b'] p'] t'] o']. injection H as <-. cbn in *. split; [exact HT|].
  clear - HC. assert (G : forall f b l, climb score (nbrs tr rot) max f b l -> climb score (halved_moves tr rot) max f b l).
  { intros f b l H. induction H as [b p H|f b l Hf H IH].
    - apply cl_stop. rewrite <- nbrs_R. exact H.
    - rewrite !nbrs_R in *. apply cl_round; auto. }
  apply G. exact HC.
Qed.
Print Assumptions C26_round_structure.

(** binary64: the same rounds, whatever the scores; as long as the poses and the steps stay between 2^-900 and 2^1000 and
    at most 100 failed rounds are allowed, the steps are halved without any error, the moved coordinate is rounded once and
    the other two coordinates keep their values *)
Theorem C26_round_structure_in_binary64 : forall (score : pose F64 -> F64) obs (max : nat) (tr rot : F64) (e : frl F64) init fuel r,
  (0 < max <= 100)%nat -> fr_max e = Z.of_nat max -> fr_base_tr e = tr -> fr_base_rot e = rot ->
  F_fin tr = true -> F_fin rot = true ->
  (bpow radix2 (-900) <= Rabs (F2R64 tr) <= bpow radix2 1000)%R -> (bpow radix2 (-900) <= Rabs (F2R64 rot) <= bpow radix2 1000)%R ->
  process_scan frl_enum score obs fuel e init = Ok r ->
  exists (moves : nat -> pose F64 -> list (pose F64)) rest,
    mr_tested r = init :: rest /\ climb score moves max 0 init rest /\
    forall f b v, (f <= max)%nat -> stands_at b v ->
      (Rabs (px v) <= bpow radix2 1000)%R -> (Rabs (py v) <= bpow radix2 1000)%R -> (Rabs (pth v) <= bpow radix2 1000)%R ->
      Forall2 stands_at (moves f b) (rounded_moves (F2R64 tr) (F2R64 rot) f v).
Proof.
  intros score obs max tr rot e init fuel r Hm H1 H2 H3 Ft Fr Bt Br H. rewrite process_scan_run in H.
  apply bind_Ok_inv in H. destruct H as (st & HL & H). destruct (run_loop_runs _ _ _ _ _ _ HL) as (n & _ & Rn & Sn).
  cbn [e_reset frl_enum] in Rn. rewrite (reset_ready tr rot max e H1 H2 H3) in Rn.
  destruct (climb_runs score obs tr rot max ltac:(lia) n 0 (Rst tr rot max 0) init _ _ st ltac:(lia) ltac:(intros ?; reflexivity)
              ltac:(unfold frl_has_next; apply Z.ltb_lt; cbn [fr_failed fr_max Rst]; lia) Rn Sn) as (rest & HT & HC).
  exists (nbrs tr rot), rest. destruct st as [[[[e' b'] p'] t'] o'].
  assert (E : mr_tested r = t').
  { assert (G : forall a b : match_result F64 (frl F64), Ok a = Ok b -> a = b) by (intros a b X; congruence).
    apply G in H. rewrite <- H. reflexivity. }
  split; [rewrite E; exact HT|]. split; [exact HC|].
  intros f b v Lf Sb B1 B2 B3. apply nbrs_F; auto. lia.
Qed.
Print Assumptions C26_round_structure_in_binary64.

(** tr = rot = 1 and the default of six failed rounds meet the conditions *)
Example C26_binary64_hypotheses_met :
  (0 < 6 <= 100)%nat /\ F_fin (dofZ 1) = true /\ (bpow radix2 (-900) <= Rabs (F2R64 (dofZ 1)) <= bpow radix2 1000)%R /\
  stands_at (mkPose (dofZ 1) (dofZ 1) (dofZ 0)) (mkPose 1%R 1%R 0%R).
Proof.
  destruct (F_ofZ_correct 1 ltac:(lia)) as [One Fone]. destruct (F_ofZ_correct 0 ltac:(lia)) as [Zer Fzer].
  split; [lia|]. split; [exact Fone|]. split.
  - rewrite One. rewrite Rabs_R1. change 1%R with (bpow radix2 0). split; apply bpow_le; lia.
  - unfold stands_at; cbn [px py pth]. repeat split; assumption.
Qed.

(** the search ends for every scoring function on binary64 (values: NaN and infinities included) *)
Theorem C26_terminates : forall (score : pose F64 -> F64) obs (e : frl F64) init,
  0 <= fr_max e < 2 ^ 32 ->
  exists enough r, forall fuel, (enough <= fuel)%nat -> process_scan frl_enum score obs fuel e init = Ok r.
Proof.
  intros score obs e init Hm. set (max := Z.to_nat (fr_max e)).
  assert (exists n st', runs frl_enum score obs (frl_reset e, init, score init, [init],
                      notify obs [EvStart init] ++ notify obs [EvTest init (score init); EvUpdate init (score init)]) n st' /\
                      e_has_next frl_enum (st_e st') = false) as (n & st' & Rn & Sn).
  { destruct (Z.eq_dec (fr_max e) 0) as [E0|N0].
    - exists 0%nat. eexists. split; [constructor|]. cbn. unfold frl_has_next, frl_reset. cbn. apply Z.ltb_ge. lia.
    - rewrite (reset_ready (fr_base_tr e) (fr_base_rot e) max e); [|unfold max; lia|reflexivity|reflexivity].
      eapply (climb_terminates score obs _ _ max ltac:(unfold max; lia) init) with (m := max) (f := 0%nat); try lia.
      + assert (A := F64_acc (score init)). remember (score init) as v eqn:Ev. revert init Ev.
        induction A as [v _ IH]. intros init ->. constructor. intros y Hy. eapply IH; [exact Hy|reflexivity].
      + intros ?. reflexivity.
      + unfold frl_has_next. apply Z.ltb_lt. cbn. unfold max. lia. }
  destruct st' as [[[[e' b'] p'] t'] o'].
  eexists n, _. intros fuel Hf. rewrite process_scan_run. cbn [e_reset frl_enum].
  rewrite (runs_finish _ _ _ _ _ _ fuel Rn Sn Hf). cbn [bind]. reflexivity.
Qed.
Print Assumptions C26_terminates.

(** in any arithmetic: without an improvement there are exactly six tests per failed round and one more *)
Theorem C26_no_improvement : forall (D : Type) (ops : DOps D) (laws : OrdLaws ops) (score : pose D -> D) obs (e : frl D) init,
  0 < fr_max e < 2 ^ 32 -> (forall p, dlt (score init) (score p) = false) ->
  exists r, process_scan frl_enum score obs (6 * Z.to_nat (fr_max e) + 1) e init = Ok r /\
    length (mr_tested r) = (1 + 6 * Z.to_nat (fr_max e) + 1)%nat /\ mr_best r = init /\ mr_prob r = score init.
Proof.
  intros D ops laws score obs e init Hm Hno. set (max := Z.to_nat (fr_max e)).
  destruct (climb_terminates score obs (fr_base_tr e) (fr_base_rot e) max ltac:(unfold max; lia) init
    ltac:(constructor; intros y Hy; rewrite Hno in Hy; discriminate) max 0 (frl_reset e) [init]
    (notify obs [EvStart init] ++ notify obs [EvTest init (score init); EvUpdate init (score init)]) ltac:(lia) ltac:(lia)) as (n & st & Rn & Sn).
  { rewrite (reset_ready (fr_base_tr e) (fr_base_rot e) max e); [|unfold max; lia|reflexivity|reflexivity]. intros ?. reflexivity. }
  { unfold frl_has_next. apply Z.ltb_lt. cbn. lia. }
  destruct (climb_runs score obs (fr_base_tr e) (fr_base_rot e) max ltac:(unfold max; lia) n 0 (frl_reset e) init [init]
    (notify obs [EvStart init] ++ notify obs [EvTest init (score init); EvUpdate init (score init)]) st ltac:(lia)) as (rest & HT & HC); auto.
  { rewrite (reset_ready (fr_base_tr e) (fr_base_rot e) max e); [|unfold max; lia|reflexivity|reflexivity]. intros ?. reflexivity. }
  { unfold frl_has_next. apply Z.ltb_lt. cbn. lia. }
  assert (L := climb_no_improvement score _ _ max 0 init rest HC Hno).
  assert (LT : forall a k b, runs frl_enum score obs a k b -> length (st_tested b) = (k + length (st_tested a))%nat).
  { clear. intros a k b H. induction H as [|a k b _ _ IH]; [reflexivity|]. rewrite IH.
    destruct a as [[[[? best] prob] ?] ?]. unfold pe_step. destruct (e_next _ _ _) as [p e1].
    destruct (dlt prob (score p)); cbn; rewrite app_length; cbn; lia. }
  assert (En : n = (6 * max + 1)%nat).
  { specialize (LT _ _ _ Rn). rewrite HT in LT. cbn [st_tested] in LT. rewrite app_length in LT. cbn in LT. lia. }
  destruct st as [[[[e' b'] p'] t'] o'].
  assert (HR : process_scan frl_enum score obs (6 * max + 1) e init =
    Ok (mkMatch (pose_sub b' init) p' e' t' b' (o' ++ notify obs [EvEnd (pose_sub b' init) p']))).
  { rewrite process_scan_run. cbn [e_reset frl_enum]. rewrite (runs_finish _ _ _ _ _ _ (6 * max + 1) Rn Sn ltac:(lia)). reflexivity. }
  eexists. split; [exact HR|]. cbn [st_tested] in HT. cbn [mr_tested mr_best mr_prob]. rewrite HT. cbn [app length]. split; [lia|].
  assert (forall a k b, runs frl_enum score obs a k b -> (let '(_, bb, pp, _, _) := a in bb = init /\ pp = score init) ->
     (let '(_, bb, pp, _, _) := b in bb = init /\ pp = score init)) as G.
  { clear - Hno. intros a k b H. induction H as [|a k b _ _ IH]; [auto|]. intros Ha. apply IH.
    destruct a as [[[[? best] prob] ?] ?]. destruct Ha as [-> ->]. unfold pe_step. destruct (e_next _ _ _) as [p e1]. rewrite Hno. auto. }
  exact (G _ _ _ Rn (conj eq_refl eq_refl)).
Qed.
Print Assumptions C26_no_improvement.

Example C26_hypotheses_met : fr_max (frl_new 6 (1/10)%R (1/10)%R) = 6 /\
  exists score : pose F64 -> F64, (forall p, dlt (score (mkPose (dofZ 0) (dofZ 0) (dofZ 0))) (score p) = false).
Proof. split; [reflexivity|]. exists (fun _ => dofZ 0). intros _. apply lt_irrefl_. Qed.

(** ** C27 *)
(** For every random stream (any generator type and sampling function), scoring function and budgets: the run ends, tests
    at most [max_poses] poses besides the initial one, stops as soon as the counted failures reach [max_failed] (never
    later than after [max_failed] consecutive failures), and stops only for one of the two reasons. *)
Theorem C27_monte_carlo_budgets : forall (D : Type) (ops : DOps D) (G : Type) (sample : D -> D -> G -> pose D * G)
    (score : pose D -> D) obs (e : gauss D G) init,
  0 <= gs_max_failed e < 2 ^ 32 -> 0 <= gs_max_poses e < 2 ^ 32 ->
  exists r new,
    (forall fuel, (Z.to_nat (gs_max_poses e) <= fuel)%nat -> process_scan (gauss_enum sample) score obs fuel e init = Ok r) /\
    mr_tested r = init :: new /\
    Z.of_nat (length new) <= gs_max_poses e /\
    (Z.of_nat (length new) = gs_max_poses e \/
     mc_failures (gs_max_failed e) (verdicts score (score init) new) = gs_max_failed e) /\
    (forall a b, new = a ++ b -> b <> [] -> mc_failures (gs_max_failed e) (verdicts score (score init) a) < gs_max_failed e) /\
    (forall l1 l2 k, verdicts score (score init) new = l1 ++ repeat false k ++ l2 -> Z.of_nat k <= gs_max_failed e).
Proof.
  intros D ops G sample score obs e init Hf Hp. set (mf := gs_max_failed e) in *. set (mp := gs_max_poses e) in *.
  destruct (mc_runs sample score obs mf mp (score init) Hf Hp (Z.to_nat mp) []
    (gauss_reset e, init, score init, [init], notify obs [EvStart init] ++ notify obs [EvTest init (score init); EvUpdate init (score init)]))
    as (n & st & more & HR & Hle & Hs & HT & HL & HI & HP).
  { cbn. repeat split; auto; lia. }
  { cbn. lia. }
  destruct st as [[[[e' b'] p'] t'] o'].
  eexists _, more. split; [|split].
  - intros fuel Hfuel. rewrite process_scan_run. cbn [e_reset gauss_enum].
    rewrite (runs_finish _ _ _ _ _ _ fuel HR Hs ltac:(lia)). cbn [bind]. reflexivity.
  - cbn [mr_tested]. cbn [st_tested] in HT. exact HT.
  - cbn [mc_inv app] in HI. destruct HI as (H1 & H2 & H3 & H4 & H5 & H6 & H7).
    cbn [st_e e_has_next gauss_enum] in Hs. unfold gauss_has_next in Hs. rewrite H1, H2 in Hs.
    split; [lia|]. split; [|split].
    + apply andb_false_iff in Hs. rewrite !Z.ltb_ge in Hs. rewrite <- H4, <- H3. lia.
    + intros a b E N. exact (proj1 (HP a b E N)).
    + intros l1 l2 k E.
      assert (LV : forall b l, length (verdicts score b l) = length l).
      { clear. intros b l. revert b. induction l as [|p l IH]; intros b; [reflexivity|]. cbn. now rewrite IH. }
      assert (Split : exists a b, more = a ++ b /\ verdicts score (score init) a = l1 ++ repeat false k /\ length b = length l2).
      { exists (firstn (length (l1 ++ repeat false k)) more), (skipn (length (l1 ++ repeat false k)) more).
        split; [symmetry; apply firstn_skipn|].
        assert (LL : length (firstn (length (l1 ++ repeat false k)) more) = length (l1 ++ repeat false k)).
        { rewrite firstn_length. apply Nat.min_l. rewrite <- (LV (score init) more), E, !app_length. lia. }
        rewrite <- (firstn_skipn (length (l1 ++ repeat false k)) more) in E. rewrite verdicts_app, app_assoc in E.
        assert (E' : forall (A : Type) (a b c d : list A), a ++ b = c ++ d -> length a = length c -> a = c /\ b = d).
        { clear. intros A a. induction a as [|x a IH]; intros b [|y c] d H L; cbn in *; try discriminate; auto.
          injection H as -> H. destruct (IH _ _ _ H ltac:(lia)) as [-> ->]. auto. }
        destruct (E' _ _ _ _ _ E) as [E1 E2]; [rewrite LV; exact LL|]. split; [exact E1|]. rewrite <- E2, LV. reflexivity. }
      destruct Split as (a & b & Eab & Ea & Lb).
      pose proof (mc_failures_run mf l1 k) as K. rewrite <- Ea in K.
      destruct b as [|q b].
      * rewrite app_nil_r in Eab. subst a. rewrite <- H4 in K. lia.
      * destruct (HP a (q :: b) Eab ltac:(discriminate)) as [K2 _]. cbn [app] in K2. lia.
Qed.
Print Assumptions C27_monte_carlo_budgets.

(** where the poses come from: each is the best pose tested so far moved by a fresh sample; the dispersions start at the
    configured values and are halved exactly at the successes that come after a third of the failure budget was used *)
Theorem C27_monte_carlo_samples : forall (D : Type) (ops : DOps D) (G : Type) (sample : D -> D -> G -> pose D * G)
    (score : pose D -> D) obs (e : gauss D G) init fuel r,
  0 <= gs_max_failed e < 2 ^ 32 ->
  process_scan (gauss_enum sample) score obs fuel e init = Ok r ->
  exists new, mr_tested r = init :: new /\
    drawn sample score (gs_max_failed e) (gs_base_tr e) (gs_base_rot e) init (gs_gen e) [] new.
Proof.
  intros D ops G sample score obs e init fuel r Hf H. rewrite process_scan_run in H.
  apply bind_Ok_inv in H. destruct H as (st & HL & H). destruct (run_loop_runs _ _ _ _ _ _ HL) as (n & _ & Rn & Sn).
  destruct (drawn_runs sample score obs (gs_max_failed e) (gs_base_tr e) (gs_base_rot e) init Hf _ _ _ Rn []) as (more & HT & HD).
  - cbn. auto 8.
  - exists more. destruct st as [[[[e' b'] p'] t'] o']. injection H as <-. cbn [mr_tested]. cbn [st_tested] in HT.
    split; [exact HT|exact HD].
Qed.
Print Assumptions C27_monte_carlo_samples.

Example C27_hypotheses_met : exists e : gauss F64 Z, gs_max_failed e = 20 /\ gs_max_poses e = 100 /\
  e = gauss_new 7 (dlit 1 5) (dlit 1 10) 20 100.
Proof. eexists. split; [|split]; [| |reflexivity]; reflexivity. Qed.

(** ** C28 *)
(** exact arithmetic, any scoring function: ends, the reported probability is that of the corrected pose and is not less
    than that of the initial pose *)
Theorem C28_exact : forall (score : pose R -> R) (deg : R) shrinks init, (0 <= deg)%R -> 0 <= shrinks < 2 ^ 32 ->
  exists delta prob best sh', (forall fuel, 2 ^ 32 <= Z.of_nat fuel -> hf_process score deg fuel shrinks init = Ok (delta, prob, best, sh')) /\
    pose_add init delta = best /\ prob = score best /\ (score init <= prob)%R.
Proof.
  intros score deg sh init Hd Hs.
  set (I := fun (b : pose R) (p : R) => p = score b /\ (score init <= p)%R).
  assert (P : forall fuel, 2 ^ 32 - sh <= Z.of_nat fuel -> exists best prob sh', hf_process score deg fuel sh init = Ok (pose_sub best init, prob, best, sh') /\ I best prob /\ 0 <= sh' < 2 ^ 32).
  { intros fuel Hf. apply hf_process_spec; auto.
    - apply line_ok_R. cbn. lra.
    - apply line_ok_R. exact Hd.
    - apply line_ok_R. cbn. lra.
    - cbn. apply R_le_true. lra.
    - intros b p q [-> H] Hlt. cbn in Hlt. apply R_lt_true in Hlt. split; [reflexivity|lra].
    - intros b p q [-> H] Hle. cbn [dle dsub dofZ ROps] in *. apply R_le_false in Hle. clear - H Hle. split; lra.
    - split; [reflexivity|lra]. }
  assert (MONO : forall fuel k sh b p res, hf_loop score deg fuel sh b p = Ok res -> (fuel <= k)%nat -> hf_loop score deg k sh b p = Ok res).
  { clear. induction fuel as [|fuel IH]; intros k sh b p res H Hk; cbn [hf_loop] in H.
    - destruct (0 <? sh) eqn:E; [discriminate|]. destruct k; cbn; rewrite E; exact H.
    - destruct k as [|k]; [lia|]. cbn [hf_loop]. destruct (0 <? sh); [|exact H].
      destruct (hf_direction score deg b p) as [[a dd] diff]. apply bind_Ok_inv in H. destruct H as ([[r b'] p'] & HL & H).
      rewrite HL. cbn [bind]. destruct (deq r dd); [destruct (dle (dofZ 0) diff); [exact H|]|]; apply (IH k _ _ _ _ H); lia. }
  destruct (P (Z.to_nat (2 ^ 32 - sh)) ltac:(lia)) as (best & prob & sh' & HP & [HI1 HI2] & _).
  exists (pose_sub best init), prob, best, sh'. split; [|split; [|split; [exact HI1|exact HI2]]].
  - intros fuel Hf. unfold hf_process in *. apply bind_Ok_inv in HP. destruct HP as ([[s1 b1] p1] & HL & HP).
    rewrite (MONO _ fuel _ _ _ _ HL ltac:(lia)). exact HP.
  - unfold pose_add, pose_sub. destruct best, init. cbn. f_equal; lra.
Qed.
Print Assumptions C28_exact.

(** binary64, scores in [0,1]: ends; the reported probability is in [0,1], not less than that of the initial pose and
    within 2^-53 of that of the pose found *)
Theorem C28_binary64 : forall (score : pose F64 -> F64) shrinks init,
  (forall p, F_fin (score p) = true /\ (0 <= F2R64 (score p) <= 1)%R) -> 0 <= shrinks < 2 ^ 32 ->
  forall fuel, 2 ^ 32 <= Z.of_nat fuel ->
  exists prob best sh', hf_process score F_deg_half fuel shrinks init = Ok (pose_sub best init, prob, best, sh') /\
    F_fin prob = true /\ (0 <= F2R64 prob <= 1)%R /\ (F2R64 (score init) <= F2R64 prob)%R /\
    (Rabs (F2R64 prob - F2R64 (score best)) <= bpow radix2 (-53))%R.
Proof.
  intros score sh init HU Hs fuel Hf.
  destruct (hf_process_spec score F_deg_half line_ok_F_0 line_ok_F_deg line_ok_F_dt eq_refl (I_F score init)
    (fun b p q => I_F_line score init b p q HU) (fun b p q => I_F_move score init b p q HU) fuel sh init Hs ltac:(lia) (I_F_init score init HU))
    as (best & prob & sh' & HP & (H1 & H2 & H3 & H4) & _).
  exists prob, best, sh'. auto.
Qed.
Print Assumptions C28_binary64.

(** the step budget is not a limit (the loop increments the budget instead of its counter): with a budget of one step,
    each of which moves by at most 0.16, the pose moves by 0.96 and the budget grows *)
Definition ramp (p : pose F64) : F64 := if dlt (dlit 99 100) (px p) then dofZ 0 else px p.
Example C28_budget_not_a_limit :
  match hf_process ramp F_deg_half 100 1 (mkPose (dofZ 0) (dofZ 0) (dofZ 0)) with
  | Ok (delta, _, _, sh') => dlt (dlit 95 100) (px delta) && (6 <? sh')
  | _ => false
  end = true.
Proof. vm_compute. reflexivity. Qed.
Example C28_hypotheses_met : exists score : pose F64 -> F64, forall p, F_fin (score p) = true /\ (0 <= F2R64 (score p) <= 1)%R.
Proof.
  exists (fun p => if dlt (dofZ 0) (px p) then dofZ 1 else dofZ 0). intros p.
  destruct (F_ofZ_correct 1 ltac:(lia)) as [E1 F1]. destruct (F_ofZ_correct 0 ltac:(lia)) as [E0 F0].
  destruct (dlt (dofZ 0) (px p)); [rewrite E1, F1|rewrite E0, F0]; split; auto; lra.
Qed.
