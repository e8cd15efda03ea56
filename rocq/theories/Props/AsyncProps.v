(** C81, C82: the two threads of an asynchronous correction publisher, for every schedule. *)
From Coq Require Import ZArith List Bool Lia.
From Verif.Base Require Import Outcome Num.
From Verif.Model Require Import MathUtils Geometry Sensor RosNode AsyncPublisher.
From Verif.Spec Require Import AsyncSpec.
From Verif.Proofs Require Import AsyncProofs.
Import ListNotations.

Section C.
  Context {D : Type} {ops : DOps D}.
  Variables (dcos dsin : D -> D).
  Notation new := (publisher_new dcos dsin).
  Notation aruns := (aruns dcos dsin).
  Notation initial := (correction_new dcos dsin).

  (** C81: in every execution of the two threads, whatever the schedule, each broadcast, be it of the main thread or of the
      publishing one, sends exactly the value of the last correction that was completed before it (the initial one if there was
      none): none is torn or stale. *)
  Theorem C81_every_broadcast_is_the_latest_correction : forall is_async events tr s,
    aruns (new is_async events) tr s -> sends_latest (co_map2odom initial) tr.
  Proof. intros is_async events tr s R. exact (i_sends _ _ _ _ _ _ (inv_reach dcos dsin _ _ _ _ R)). Qed.

  (** C81: the corrections completed so far are those a publisher without a second thread computes, in order; *)
  Theorem C81_corrections_do_not_depend_on_the_schedule : forall is_async events tr s,
    aruns (new is_async events) tr s -> exists rest, updates tr ++ rest = corrections dcos dsin initial events.
  Proof. intros is_async events tr s R. eexists. exact (i_upd _ _ _ _ _ _ (inv_reach dcos dsin _ _ _ _ R)). Qed.

  (** all of them when the main thread is idle and the events are handled *)
  Theorem C81_all_corrections_are_made_and_sent : forall is_async events tr s,
    aruns (new is_async events) tr s -> a_events s = [] -> a_main s = MReady ->
    updates tr = corrections dcos dsin initial events /\ main_sends tr = updates tr.
  Proof.
    intros is_async events tr s R E M. pose proof (inv_reach dcos dsin _ _ _ _ R) as [_ _ _ U N].
    unfold pending, to_send in *. rewrite M in *. rewrite E in U. simpl in U. rewrite app_nil_r in *. auto.
  Qed.

  (** C81: the main thread sends each correction once, right after it has been made *)
  Theorem C81_each_correction_is_sent_once : forall is_async events tr s,
    aruns (new is_async events) tr s -> all_but_last_at_most (main_sends tr) (updates tr).
  Proof.
    intros is_async events tr s R. pose proof (i_main _ _ _ _ _ _ (inv_reach dcos dsin _ _ _ _ R)) as N.
    unfold to_send in N. destruct (a_main s);
      try (left; rewrite app_nil_r in N; symmetry; exact N); right; eexists; exact N.
  Qed.

  (** C81: no deadlock: from every state the threads may reach while the process is there, they can go on until all events are
      handled and the main thread is idle *)
  Theorem C81_no_deadlock : forall is_async events tr s,
    aruns (new is_async events) tr s -> alive s ->
    exists tr' s', aruns s tr' s' /\ a_main s' = MReady /\ a_events s' = [].
  Proof.
    intros is_async events tr s R A.
    destruct (runs_to_idle dcos dsin (togo s) s _ _ _ (le_n _) (inv_reach dcos dsin _ _ _ _ R) A) as (tr' & s' & H & H1 & H2 & _).
    exists tr', s'. auto.
  Qed.

  (** C82 is false: once the publisher is asynchronous no execution ends by returning from main; an execution that ends is ended
      by std::terminate, and each execution can be continued to that end. *)
  Theorem C82_an_asynchronous_node_ends_normally_refuted : forall events tr s,
    aruns (new true events) tr s ->
    a_main s <> MExited /\
    (alive s -> exists tr' s', aruns s tr' s' /\ a_main s' = MTerminated).
  Proof.
    intros events tr s R.
    destruct (ends_runs dcos dsin _ _ _ R ltac:(simpl; discriminate) ltac:(simpl; discriminate)) as (E & _ & E2).
    assert (NA : a_async s <> ANone) by (rewrite E; simpl; discriminate).
    split; [apply E2, NA|]. intros A.
    destruct (can_end dcos dsin s _ _ _ (inv_reach dcos dsin _ _ _ _ R) A) as (tr' & s' & R' & [H|H]); [|eauto].
    exfalso. destruct (ends_runs dcos dsin _ _ _ (aruns_trans dcos dsin _ _ _ _ _ R R') ltac:(simpl; discriminate) ltac:(simpl; discriminate)) as (F & _ & F2).
    apply F2; [rewrite F; simpl; discriminate|exact H].
  Qed.

  (** C82, what holds: a node whose publisher is not asynchronous never ends by std::terminate, and can always be ended normally *)
  Theorem C82_a_synchronous_node_ends_normally_partial : forall events tr s,
    aruns (new false events) tr s ->
    a_main s <> MTerminated /\
    (alive s -> exists tr' s', aruns s tr' s' /\ a_main s' = MExited).
  Proof.
    intros events tr s R.
    destruct (ends_runs dcos dsin _ _ _ R ltac:(simpl; discriminate) ltac:(simpl; discriminate)) as (E & E1 & _).
    assert (NA : a_async s = ANone) by (apply E; reflexivity).
    split; [apply E1, NA|]. intros A.
    destruct (can_end dcos dsin s _ _ _ (inv_reach dcos dsin _ _ _ _ R) A) as (tr' & s' & R' & [H|H]); [eauto|].
    exfalso. destruct (ends_runs dcos dsin _ _ _ (aruns_trans dcos dsin _ _ _ _ _ R R') ltac:(simpl; discriminate) ltac:(simpl; discriminate)) as (F & F1 & _).
    apply F1; [apply F; reflexivity|exact H].
  Qed.

  (** an execution with the threads interleaved: the publishing thread reads while the main thread waits for the lock; both then
      send, the publishing thread first the old value, then the new one *)
  Example C81_case : forall p,
    let v0 := co_map2odom initial in
    let v1 := new_correction dcos dsin (co_odom2base initial) p in
    exists s, aruns (new true [EvPose p]) [LSent TAsync v0; LUpdated v1; LSent TAsync v1; LSent TMain v1] s /\ alive s.
  Proof.
    intros p v0 v1. unfold publisher_new; fold v0.
    assert (E0 : mkTf (tf_basis v0) (tf_origin v0) = v0) by apply tf_eta.
    assert (E1 : mkTf (tf_basis v1) (tf_origin v1) = v1) by apply tf_eta.
    generalize dependent v0. intros v0 E0. unfold v1 in *; clear v1.
    set (v1 := new_correction dcos dsin (co_odom2base initial) p) in *.
    Local Ltac m := eapply (ar_step _ _ _ []); [apply st_main; constructor|].
    Local Ltac m' := eapply (ar_step _ _ _ [_]); [apply st_main; constructor|].
    Local Ltac a := eapply (ar_step _ _ _ []); [apply st_async; [split; discriminate|constructor]|].
    Local Ltac a' := eapply (ar_step _ _ _ [_]); [apply st_async; [split; discriminate|constructor]|].
    eexists. split.
    - a. a. m. a. a. rewrite E0. a'. a.
      m. m. m. m'. a. a. a. a. a. rewrite tf_eta. a'. a. m. m. m. rewrite tf_eta. m'. constructor.
    - split; discriminate.
  Qed.
End C.
Print Assumptions C81_every_broadcast_is_the_latest_correction.
Print Assumptions C81_no_deadlock.
Print Assumptions C82_an_asynchronous_node_ends_normally_refuted.
