(** Proofs for C103: observers do not influence a run. *)
From Coq Require Import ZArith List Bool Lia.
From Verif.Base Require Import Outcome Num.
From Verif.Model Require Import MathUtils Geometry Sensor Matchers World WatchedRun.
From Verif.Spec Require Import MatchSpec WatchedSpec.
From Verif.Proofs Require Import MatcherProofs.
Import ListNotations.
Local Open Scope outcome_scope.

Section AnyWorld.
  Context {D S M W : Type}.
  Variables (update : W -> pose D -> outcome W) (observe : W -> tr_scan D S -> outcome W).
  Variables (get_pose : W -> outcome (pose D)) (get_map : W -> outcome M).
  Notation run := (world_run update observe get_pose get_map).

  Fixpoint pure_run (w : W) (l : list (tr_scan D S)) : outcome W :=
    match l with
    | [] => Ok w
    | s :: l => w <- update w (ts_delta s) ;; w <- observe w s ;; _ <- get_pose w ;; _ <- get_map w ;; pure_run w l
    end.
  Lemma world_state h : forall o w, ('(_, w', _) <- run o w h ;; Ok w') = pure_run w (scans_in h).
  Proof using.
    induction h as [|[k|k|k|s] h IH]; intros o w; cbn [world_run scans_in flat_map app pure_run]; try apply IH; [reflexivity|].
    unfold handle_sensor_data. destruct (update w (ts_delta s)) as [w1| | |]; cbn [bind]; auto.
    destruct (observe w1 s) as [w2| | |]; cbn [bind]; auto. destruct (get_pose w2) as [p| | |]; cbn [bind]; auto.
    destruct (get_map w2) as [m| | |]; cbn [bind]; auto. fold (scans_in h). rewrite <- (IH o w2). destruct (run o w2 h) as [[[o3 w3] n3]| | |]; reflexivity.
  Qed.

  Definition alone (i : nat) (o1 o2 : wobservers) : Prop :=
    filter (fun k => Nat.eqb k i) (wo_pose o1) = wo_pose o2 /\ filter (fun k => Nat.eqb k i) (wo_map o1) = wo_map o2 /\ locks o1 i = locks o2 i.
  Lemma heard_app i (a b : list (wnote D M)) : heard i (a ++ b) = heard i a ++ heard i b.
  Proof. apply filter_app. Qed.
  Lemma heard_pose i o1 o2 (p : pose D) : alone i o1 o2 -> heard i (notify_with_pose (M := M) o1 p) = notify_with_pose o2 p.
  Proof.
    intros (A & _ & L). unfold notify_with_pose. rewrite <- A. clear A. induction (wo_pose o1) as [|k l IH]; [reflexivity|].
    cbn [flat_map filter]. rewrite heard_app, IH. destruct (Nat.eqb_spec k i) as [->|N].
    - cbn [flat_map]. rewrite <- L. destruct (locks o1 i); [|reflexivity]. cbn [heard filter]. now rewrite Nat.eqb_refl.
    - destruct (locks o1 k); [|reflexivity]. cbn [heard filter]. destruct (Nat.eqb_spec k i); [contradiction|reflexivity].
  Qed.
  Lemma heard_map i o1 o2 (m : M) : alone i o1 o2 -> heard i (notify_with_map (D := D) o1 m) = notify_with_map o2 m.
  Proof.
    intros (_ & A & L). unfold notify_with_map. rewrite <- A. clear A. induction (wo_map o1) as [|k l IH]; [reflexivity|].
    cbn [flat_map filter]. rewrite heard_app, IH. destruct (Nat.eqb_spec k i) as [->|N].
    - cbn [flat_map]. rewrite <- L. destruct (locks o1 i); [|reflexivity]. cbn [heard filter]. now rewrite Nat.eqb_refl.
    - destruct (locks o1 k); [|reflexivity]. cbn [heard filter]. destruct (Nat.eqb_spec k i); [contradiction|reflexivity].
  Qed.
  Lemma locks_other o i k : k <> i -> locks (destroy_observer o k) i = locks o i.
  Proof. intros N. unfold locks, destroy_observer. cbn [wo_dead existsb]. destruct (Nat.eqb_spec i k); [congruence|reflexivity]. Qed.
  Lemma locks_same o i : locks (destroy_observer o i) i = false.
  Proof. unfold locks, destroy_observer. cbn [wo_dead existsb]. now rewrite Nat.eqb_refl. Qed.

  Lemma world_alone i h : forall o1 o2 w o' w' notes, alone i o1 o2 -> run o1 w h = Ok (o', w', notes) ->
    exists o'' n', run o2 w (just_world_observer i h) = Ok (o'', w', n') /\ heard i notes = n'.
  Proof using.
    induction h as [|[k|k|k|s] h IH]; intros o1 o2 w o' w' notes A E; cbn [world_run just_world_observer filter] in *.
    - injection E as <- <- <-. eauto.
    - fold (just_world_observer i h). destruct (Nat.eqb_spec k i) as [->|N]; cbn [world_run].
      + eapply IH; [|exact E]. destruct A as (A1 & A2 & A3). split; [|split; [exact A2|exact A3]].
        cbn [subscribe_pose wo_pose]. rewrite filter_app, A1. cbn [filter]. now rewrite Nat.eqb_refl.
      + eapply IH; [|exact E]. destruct A as (A1 & A2 & A3). split; [|split; [exact A2|exact A3]].
        cbn [subscribe_pose wo_pose]. rewrite filter_app, A1. cbn [filter]. destruct (Nat.eqb_spec k i); [contradiction|apply app_nil_r].
    - fold (just_world_observer i h). destruct (Nat.eqb_spec k i) as [->|N]; cbn [world_run].
      + eapply IH; [|exact E]. destruct A as (A1 & A2 & A3). split; [exact A1|split; [|exact A3]].
        cbn [subscribe_map wo_map]. rewrite filter_app, A2. cbn [filter]. now rewrite Nat.eqb_refl.
      + eapply IH; [|exact E]. destruct A as (A1 & A2 & A3). split; [exact A1|split; [|exact A3]].
        cbn [subscribe_map wo_map]. rewrite filter_app, A2. cbn [filter]. destruct (Nat.eqb_spec k i); [contradiction|apply app_nil_r].
    - fold (just_world_observer i h). destruct (Nat.eqb_spec k i) as [->|N]; cbn [world_run].
      + eapply IH; [|exact E]. destruct A as (A1 & A2 & A3). split; [exact A1|split; [exact A2|]]. now rewrite !locks_same.
      + eapply IH; [|exact E]. destruct A as (A1 & A2 & A3). split; [exact A1|split; [exact A2|]]. now rewrite locks_other.
    - fold (just_world_observer i h). cbn [world_run].
      apply bind_Ok_inv in E as ([w1 n1] & E1 & E). apply bind_Ok_inv in E as ([[o3 w3] n3] & E2 & E). injection E as <- <- <-.
      apply (IH _ o2) in E2 as (o'' & n' & E2 & H); [|exact A]. unfold handle_sensor_data in *.
      apply bind_Ok_inv in E1 as (wa & U & E1). apply bind_Ok_inv in E1 as (wb & O & E1). apply bind_Ok_inv in E1 as (p & HP & E1).
      apply bind_Ok_inv in E1 as (m & HM & E1). injection E1 as <- <-. rewrite U. cbn [bind]. rewrite O. cbn [bind]. rewrite HP. cbn [bind].
      rewrite HM. cbn [bind]. rewrite E2. cbn [bind]. eexists _, _. split; [reflexivity|].
      rewrite !heard_app, H, (heard_pose i o1 o2 p A), (heard_map i o1 o2 m A). reflexivity.
  Qed.
End AnyWorld.

(** ** the observed matcher *)
Section Live.
  Context {D : Type}.
  Definition live (i : Z) (obs : observers) : observers := filter (fun r => (snd r && (fst r =? i)%Z)%bool) obs.
  Lemma received_notify i (obs : observers) (evs : list (event D)) : received i (notify obs evs) = flat_map (fun _ => evs) (live i obs).
  Proof.
    unfold notify, live. induction obs as [|[k a] obs IH]; [reflexivity|]. cbn [flat_map filter fst snd]. rewrite received_app, IH.
    destruct a; cbn [andb]; [|reflexivity]. destruct (Z.eqb_spec k i) as [->|N]; cbn [flat_map].
    - f_equal. unfold received. clear. induction evs as [|e evs IHe]; [reflexivity|]. cbn [map filter fst]. rewrite Z.eqb_refl. cbn [map snd]. now rewrite IHe.
    - replace (received i (map (pair k) evs)) with (@nil (event D)); [reflexivity|]. unfold received. clear - N.
      induction evs as [|e evs IHe]; [reflexivity|]. cbn [map filter fst]. destruct (Z.eqb_spec k i); [contradiction|exact IHe].
  Qed.
  Lemma live_app i (a b : observers) : live i (a ++ b) = live i a ++ live i b. Proof. apply filter_app. Qed.
  Lemma live_unsub_other i k obs : k <> i -> live i (unsubscribe obs k) = live i obs.
  Proof.
    intros N. unfold live, unsubscribe. induction obs as [|[j a] obs IH]; [reflexivity|]. cbn [filter fst snd].
    destruct a; cbn [andb]; [|exact IH]. destruct (Z.eqb_spec j k) as [->|Nk]; cbn [negb].
    - destruct (Z.eqb_spec k i); [contradiction|exact IH].
    - cbn [filter fst snd andb]. rewrite IH. reflexivity.
  Qed.
  Lemma live_unsub_same i obs : live i (unsubscribe obs i) = [].
  Proof.
    unfold live, unsubscribe. induction obs as [|[j a] obs IH]; [reflexivity|]. cbn [filter fst snd].
    destruct a; cbn [andb]; [|exact IH]. destruct (Z.eqb_spec j i) as [->|Nk]; cbn [negb]; [exact IH|].
    cbn [filter fst snd andb]. destruct (Z.eqb_spec j i); [contradiction|exact IH].
  Qed.
  Lemma live_end_other i k obs : k <> i -> live i (end_sm k obs) = live i obs.
  Proof.
    intros N. unfold live, end_sm. induction obs as [|[j a] obs IH]; [reflexivity|]. cbn [map filter fst snd].
    destruct (Z.eqb_spec j k) as [->|Nk]; cbn [fst snd andb]; rewrite IH; [|reflexivity].
    destruct (Z.eqb_spec k i); [contradiction|]. now rewrite andb_false_r.
  Qed.
  Lemma live_end_same i obs : live i (end_sm i obs) = [].
  Proof.
    unfold live, end_sm. induction obs as [|[j a] obs IH]; [reflexivity|]. cbn [map filter fst snd].
    destruct (Z.eqb_spec j i) as [->|Nk]; cbn [fst snd andb]; [exact IH|]. destruct (Z.eqb_spec j i); [contradiction|]. now rewrite andb_false_r.
  Qed.
End Live.

Definition orel {A B} (R : A -> B -> Prop) (x : outcome A) (y : outcome B) : Prop :=
  match x, y with Ok a, Ok b => R a b | Abort, Abort | UB, UB | OutOfFuel, OutOfFuel => True | _, _ => False end.

Section Matcher.
  Context {D : Type} {ops : DOps D} {E : Type}.
  Variables (en : enumerator D E) (score : pose D -> D) (obs1 obs2 : observers) (i : Z).
  Hypothesis HL : live i obs1 = live i obs2.
  Lemma loop_obs fuel : forall e best bp tested out1 out2, received i out1 = received i out2 ->
    orel (fun a b => fst a = fst b /\ received i (snd a) = received i (snd b))
      (pe_loop en score obs1 fuel e best bp tested out1) (pe_loop en score obs2 fuel e best bp tested out2).
  Proof using HL.
    induction fuel as [|fuel IH]; intros e best bp tested out1 out2 H; cbn [pe_loop]; destruct (e_has_next en e); cbn [orel]; auto.
    destruct (e_next en e best) as [p e']. destruct (dlt bp (score p)); apply IH; rewrite !received_app, !received_notify, HL, H; reflexivity.
  Qed.
  Lemma process_obs fuel e init :
    orel (fun a b => mr_prob a = mr_prob b /\ mr_delta a = mr_delta b /\ mr_enum a = mr_enum b /\ received i (mr_out a) = received i (mr_out b))
      (process_scan en score obs1 fuel e init) (process_scan en score obs2 fuel e init).
  Proof using HL.
    unfold process_scan. assert (H := loop_obs fuel (e_reset en e) init (score init) [init]
      (notify obs1 [EvStart init] ++ notify obs1 [EvTest init (score init); EvUpdate init (score init)])
      (notify obs2 [EvStart init] ++ notify obs2 [EvTest init (score init); EvUpdate init (score init)])).
    specialize (H ltac:(rewrite !received_app, !received_notify, HL; reflexivity)).
    destruct (pe_loop en score obs1 _ _ _ _ _ _) as [[[[[e1 b1] p1] t1] u1]| | |], (pe_loop en score obs2 _ _ _ _ _ _) as [[[[[e2 b2] p2] t2] u2]| | |];
      cbn [orel] in H; try contradiction; cbn [bind orel]; auto.
    cbn [fst snd] in H. destruct H as [H1 H2]. injection H1 as <- <- <- <-. cbn [mr_prob mr_delta mr_enum mr_out]. repeat split.
    rewrite !received_app, !received_notify, HL, H2. reflexivity.
  Qed.
End Matcher.

(** only registered observers are called *)
Section OnlyRegistered.
  Context {D : Type} {ops : DOps D} {E : Type}.
  Variables (en : enumerator D E) (score : pose D -> D) (obs : observers) (i : Z).
  Hypothesis HO : Forall (fun r => fst r = i) obs.
  Lemma notify_only (evs : list (event D)) : Forall (fun r => fst r = i) (notify obs evs).
  Proof using HO.
    unfold notify. apply Forall_flat_map. eapply Forall_impl; [|exact HO]. intros [k a] Hk. cbn [fst snd] in *. subst k.
    destruct a; [|constructor]. apply Forall_map. apply Forall_forall. intros e _. reflexivity.
  Qed.
  Lemma loop_only fuel : forall e best bp tested out e' best' bp' tested' out', Forall (fun r => fst r = i) out ->
    pe_loop en score obs fuel e best bp tested out = Ok (e', best', bp', tested', out') -> Forall (fun r => fst r = i) out'.
  Proof using HO.
    induction fuel as [|fuel IH]; intros e best bp tested out e' best' bp' tested' out' H X; cbn [pe_loop] in X; destruct (e_has_next en e);
      try discriminate; try (injection X as <- <- <- <- <-; exact H).
    destruct (e_next en e best) as [p e1]. destruct (dlt bp (score p)); eapply IH in X; eauto;
      repeat (apply Forall_app; split); auto using notify_only.
  Qed.
  Lemma process_only fuel e init r : process_scan en score obs fuel e init = Ok r -> Forall (fun r => fst r = i) (mr_out r).
  Proof using HO.
    unfold process_scan. intros X. apply bind_Ok_inv in X as ([[[[e1 b1] p1] t1] u1] & X & Y). injection Y as <-. cbn [mr_out].
    apply loop_only in X; [|repeat (apply Forall_app; split); apply notify_only]. apply Forall_app. split; [exact X|apply notify_only].
  Qed.
End OnlyRegistered.

Section Watched.
  Context {D S M E : Type} {ops : DOps D}.
  Variables (en : enumerator D E) (score : S -> M -> pose D -> pose D -> D) (fuel : nat).
  Variable adder : M -> pose D -> S -> D -> D -> outcome M.
  Variables (q_localized q_raw margin : D).
  Notation run := (watched_run en score fuel adder q_localized q_raw margin).
  Notation step := (watched_step en score fuel adder q_localized q_raw margin).
  Notation world := (ss_world D M (smatcher D E)).
  Definition view (w : world) := (ss_pose w, ss_map w, sm_enum (ss_sm w), ss_log w).

  (** one scan, without observers *)
  Definition quiet (v : pose D * M * E * list (pose D)) (s : tr_scan D S) : outcome (pose D * M * E * list (pose D)) :=
    let '(p, m, e, log) := v in
    let p1 := pose_add p (ts_delta s) in
    r <- process_scan en (score (ts_scan s) m p1) [] fuel (e_reset en e) p1 ;;
    let p2 := pose_add p1 (mr_delta r) in
    m <- adder m p2 (ts_scan s) (if delta_nonzero (mr_delta r) then q_localized else q_raw) margin ;;
    Ok (p2, m, mr_enum r, log ++ [mr_delta r]).
  Fixpoint quiet_run (v : pose D * M * E * list (pose D)) (l : list (tr_scan D S)) : outcome (pose D * M * E * list (pose D)) :=
    match l with [] => Ok v | s :: l => v <- quiet v s ;; quiet_run v l end.

  Lemma process_quiet obs sc e init : orel (fun a b => mr_prob a = mr_prob b /\ mr_delta a = mr_delta b /\ mr_enum a = mr_enum b)
    (process_scan en sc obs fuel e init) (process_scan en sc [] fuel e init).
  Proof using.
    (* an observer that is not registered *)
    assert (X : exists i, live i obs = []).
    { exists (fold_right (fun r a => Z.max (fst r) a) 0%Z obs + 1)%Z. unfold live.
      assert (G : forall b l, (forall r, In r l -> (fst r <= b)%Z) -> filter (fun r : Z * bool => (snd r && (fst r =? b + 1)%Z)%bool) l = []).
      { induction l as [|[j a] l IH]; intros H; [reflexivity|]. cbn [filter fst snd]. assert (K := H (j, a) (or_introl eq_refl)). cbn [fst] in K.
        destruct (Z.eqb_spec j (b + 1)); [lia|]. rewrite andb_false_r. apply IH. intros r Hr. apply H. now right. }
      apply G. clear. induction obs as [|r0 l IH]; intros r Hr; [destruct Hr|]. cbn [fold_right]. destruct Hr as [->|Hr]; [lia|]. specialize (IH r Hr). lia. }
    destruct X as [i Hi]. assert (H := process_obs en sc obs [] i Hi fuel e init).
    destruct (process_scan en sc obs fuel e init), (process_scan en sc [] fuel e init); cbn [orel] in *; tauto.
  Qed.

  Lemma scan_step o (w : world) s : ('(_, w', _) <- step o w (WWorld (EScan s)) ;; Ok (view w')) = quiet (view w) s.
  Proof using.
    unfold step. cbn [watched_step]. unfold ss_run. cbn [world_run]. unfold handle_sensor_data. cbn [bind]. unfold ss_observe, sm_process_scan, quiet, view.
    cbn [ss_update ss_pose ss_map ss_sm ss_log sm_reset_state sm_enum sm_obs sm_calls].
    assert (H := process_quiet (sm_obs (ss_sm w)) (score (ts_scan s) (ss_map w) (pose_add (ss_pose w) (ts_delta s))) (e_reset en (sm_enum (ss_sm w)))
      (pose_add (ss_pose w) (ts_delta s))).
    destruct (process_scan _ _ (sm_obs (ss_sm w)) _ _ _) as [r| | |], (process_scan _ _ [] _ _ _) as [r'| | |]; cbn [orel] in H; try contradiction; cbn [bind]; auto.
    destruct H as (_ & <- & <-). cbn [ss_update ss_pose ss_map ss_sm ss_log].
    destruct (adder _ _ _ _ _) as [m'| | |]; cbn [bind]; auto.
  Qed.
  Lemma other_step o (w : world) e : match e with WWorld (EScan _) => False | _ => True end -> exists o' w', step o w e = Ok (o', w', []) /\ view w' = view w.
  Proof using. intros H. destruct e as [[k|k|k|s]|k|k|k]; try contradiction; eexists _, _; split; reflexivity. Qed.

  Lemma watched_state h : forall o (w : world), ('(_, w', _) <- run o w h ;; Ok (view w')) = quiet_run (view w) (watched_scans h).
  Proof using.
    induction h as [|e h IH]; intros o w; [reflexivity|]. cbn [watched_run]. assert (C : (exists s, e = WWorld (EScan s)) \/ match e with WWorld (EScan _) => False | _ => True end).
    { destruct e as [[k|k|k|s]|k|k|k]; auto. left. eauto. }
    destruct C as [[s ->]|C].
    - cbn [watched_scans flat_map app quiet_run]. fold (watched_scans h). rewrite <- (scan_step o w s).
      destruct (step o w (WWorld (EScan s))) as [[[o1 w1] n1]| | |]; cbn [bind]; auto. rewrite <- (IH o1 w1).
      destruct (run o1 w1 h) as [[[o2 w2] n2]| | |]; reflexivity.
    - replace (watched_scans (e :: h)) with (watched_scans h) by (destruct e as [[k|k|k|s]|k|k|k]; try contradiction; reflexivity).
      destruct (other_step o w e C) as (o1 & w1 & E1 & V). rewrite E1. cbn [bind]. rewrite <- V, <- (IH o1 w1).
      destruct (run o1 w1 h) as [[[o2 w2] n2]| | |]; reflexivity.
  Qed.

  (** the second world has the observer [i] only *)
  Definition sm_alone (i : Z) (w1 w2 : world) : Prop :=
    view w1 = view w2 /\ live i (sm_obs (ss_sm w1)) = live i (sm_obs (ss_sm w2)) /\
    received i (sm_calls (ss_sm w2)) = received i (sm_calls (ss_sm w1)) /\
    Forall (fun r => fst r = i) (sm_obs (ss_sm w2)) /\ Forall (fun r => fst r = i) (sm_calls (ss_sm w2)).

  Lemma view_eq (w1 w2 : world) : view w1 = view w2 -> ss_pose w1 = ss_pose w2 /\ ss_map w1 = ss_map w2 /\ sm_enum (ss_sm w1) = sm_enum (ss_sm w2) /\ ss_log w1 = ss_log w2.
  Proof using. unfold view. intros H. injection H as -> -> -> ->. auto. Qed.

  Lemma scan_alone i o1 o2 (w1 w2 : world) s o' w1' n : sm_alone i w1 w2 -> step o1 w1 (WWorld (EScan s)) = Ok (o', w1', n) ->
    exists w2' n', step o2 w2 (WWorld (EScan s)) = Ok (o2, w2', n') /\ sm_alone i w1' w2'.
  Proof using.
    intros (V & L & C & O & K) H. apply view_eq in V as (V1 & V2 & V3 & V4). unfold watched_step, ss_run in *. cbn [world_run] in *.
    unfold handle_sensor_data in *. cbn [bind] in *. unfold ss_observe, sm_process_scan in *.
    cbn [ss_update ss_pose ss_map ss_sm ss_log sm_reset_state sm_enum sm_obs sm_calls] in *.
    rewrite <- V1, <- V2, <- V3, <- V4.
    assert (P := process_obs en (score (ts_scan s) (ss_map w1) (pose_add (ss_pose w1) (ts_delta s))) _ _ i L fuel (e_reset en (sm_enum (ss_sm w1))) (pose_add (ss_pose w1) (ts_delta s))).
    assert (Q := process_only en (score (ts_scan s) (ss_map w1) (pose_add (ss_pose w1) (ts_delta s))) _ i O fuel (e_reset en (sm_enum (ss_sm w1))) (pose_add (ss_pose w1) (ts_delta s))).
    destruct (process_scan _ _ (sm_obs (ss_sm w1)) _ _ _) as [r| | |], (process_scan _ _ (sm_obs (ss_sm w2)) _ _ _) as [r'| | |]; cbn [orel] in P; try contradiction; cbn [bind] in *; try discriminate.
    destruct P as (_ & P2 & P3 & P4). specialize (Q r' eq_refl). cbn [ss_update ss_pose ss_map ss_sm ss_log] in *. rewrite <- P2.
    destruct (adder _ _ _ _ _) as [m'| | |]; cbn [bind] in *; try discriminate. injection H as <- <- <-.
    eexists _, _. split; [reflexivity|]. unfold sm_alone, view. cbn [ss_pose ss_map ss_sm ss_log sm_enum sm_obs sm_calls].
    split; [now rewrite P3|]. split; [exact L|]. split; [now rewrite !received_app, C, P4|]. split; [exact O|]. apply Forall_app. split; [exact K|exact Q].
  Qed.

  Lemma watched_alone i h : forall o1 o2 (w1 w2 : world) o' w' notes, sm_alone i w1 w2 -> run o1 w1 h = Ok (o', w', notes) ->
    exists o'' w'' n', run o2 w2 (just_matcher_observer i h) = Ok (o'', w'', n') /\
      received i (sm_calls (ss_sm w'')) = received i (sm_calls (ss_sm w')) /\
      (forall k, k <> i -> received k (sm_calls (ss_sm w'')) = []).
  Proof using.
    induction h as [|e h IH]; intros o1 o2 w1 w2 o' w' notes A X.
    - cbn [watched_run] in X. injection X as <- <- <-. exists o2, w2, []. split; [reflexivity|]. destruct A as (V & L & C & O & K). split; [exact C|].
      intros k Hk. unfold received. clear - K Hk. induction K as [|[j ev] l Hj _ IHl]; [reflexivity|]. cbn [filter fst]. cbn [fst] in Hj. subst j.
      destruct (Z.eqb_spec i k); [congruence|exact IHl].
    - cbn [watched_run] in X. apply bind_Ok_inv in X as ([[oa wa] na] & X1 & X). apply bind_Ok_inv in X as ([[ob wb] nb] & X2 & X). injection X as <- <- <-.
      assert (G : forall ev (wb1 : world) n1, (forall o, step o w2 ev = Ok (o, wb1, n1)) -> sm_alone i wa wb1 ->
        exists o'' w'' n', run o2 w2 (ev :: just_matcher_observer i h) = Ok (o'', w'', n') /\
          received i (sm_calls (ss_sm w'')) = received i (sm_calls (ss_sm wb)) /\ (forall k, k <> i -> received k (sm_calls (ss_sm w'')) = [])).
      { intros ev wb1 n1 HS HA. destruct (IH oa o2 wa wb1 ob wb nb HA X2) as (o'' & w'' & n' & Y1 & Y2 & Y3).
        cbn [watched_run]. rewrite HS. cbn [bind]. rewrite Y1. cbn [bind]. eauto 8. }
      destruct e as [[k|k|k|s]|k|k|k]; unfold just_matcher_observer; cbn [filter]; fold (just_matcher_observer (D := D) (S := S) i h).
      + injection X1 as <- <- <-. eapply IH; eauto.
      + injection X1 as <- <- <-. eapply IH; eauto.
      + injection X1 as <- <- <-. eapply IH; eauto.
      + destruct (scan_alone i o1 o2 w1 w2 s oa wa na A X1) as (wb1 & n1 & Y1 & Y2).
        destruct (IH oa o2 wa wb1 ob wb nb Y2 X2) as (o'' & w'' & n' & Y3 & Y4 & Y5).
        cbn [watched_run]. rewrite Y1. cbn [bind]. rewrite Y3. cbn [bind]. eauto 8.
      + injection X1 as <- <- <-. destruct A as (V & L & C & O & K). destruct (Z.eqb_spec k i) as [->|N].
        * eapply G; [intros o; reflexivity|]. unfold sm_alone, view, with_sm_obs in *. cbn [ss_pose ss_map ss_sm ss_log sm_enum sm_obs sm_calls]. repeat split; auto.
          -- unfold subscribe. rewrite !live_app, L. reflexivity.
          -- unfold subscribe. apply Forall_app. split; [exact O|]. constructor; [reflexivity|constructor].
        * eapply IH; [|exact X2]. unfold sm_alone, view, with_sm_obs in *. cbn [ss_pose ss_map ss_sm ss_log sm_enum sm_obs sm_calls]. repeat split; auto.
          unfold subscribe. rewrite live_app, L. unfold live at 2. cbn [filter fst snd andb]. destruct (Z.eqb_spec k i); [contradiction|apply app_nil_r].
      + injection X1 as <- <- <-. destruct A as (V & L & C & O & K). destruct (Z.eqb_spec k i) as [->|N].
        * eapply G; [intros o; reflexivity|]. unfold sm_alone, view, with_sm_obs in *. cbn [ss_pose ss_map ss_sm ss_log sm_enum sm_obs sm_calls]. repeat split; auto.
          -- now rewrite !live_unsub_same.
          -- unfold unsubscribe. apply Forall_forall. intros r Hr. apply filter_In in Hr as [Hr _]. rewrite Forall_forall in O. now apply O.
        * eapply IH; [|exact X2]. unfold sm_alone, view, with_sm_obs in *. cbn [ss_pose ss_map ss_sm ss_log sm_enum sm_obs sm_calls]. repeat split; auto.
          now rewrite live_unsub_other.
      + injection X1 as <- <- <-. destruct A as (V & L & C & O & K). destruct (Z.eqb_spec k i) as [->|N].
        * eapply G; [intros o; reflexivity|]. unfold sm_alone, view, with_sm_obs in *. cbn [ss_pose ss_map ss_sm ss_log sm_enum sm_obs sm_calls]. repeat split; auto.
          -- now rewrite !live_end_same.
          -- unfold end_sm. apply Forall_map. eapply Forall_impl; [|exact O]. intros r Hr. cbv beta. destruct (fst r =? i)%Z; exact Hr.
        * eapply IH; [|exact X2]. unfold sm_alone, view, with_sm_obs in *. cbn [ss_pose ss_map ss_sm ss_log sm_enum sm_obs sm_calls]. repeat split; auto.
          now rewrite live_end_other.
  Qed.
End Watched.
