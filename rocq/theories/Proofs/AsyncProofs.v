(** Proofs about the two threads of the asynchronous publisher. *)
From Coq Require Import ZArith List Bool Lia.
From Verif.Base Require Import Outcome Num.
From Verif.Model Require Import MathUtils Geometry Sensor RosNode AsyncPublisher.
From Verif.Spec Require Import AsyncSpec.
Import ListNotations.

Section P.
  Context {D : Type} {ops : DOps D}.
  Variables (dcos dsin : D -> D).
  Notation astep := (astep dcos dsin).
  Notation aruns := (aruns dcos dsin).
  Notation corrections := (corrections dcos dsin).

  Definition last_upd (cur : transform D) (tr : list (label D)) : transform D :=
    fold_left (fun c x => match x with LUpdated v => v | LSent _ _ => c end) tr cur.
  Lemma last_upd_app cur t1 t2 : last_upd cur (t1 ++ t2) = last_upd (last_upd cur t1) t2.
  Proof. apply fold_left_app. Qed.
  Lemma sends_latest_app cur t1 t2 : sends_latest cur (t1 ++ t2) <-> sends_latest cur t1 /\ sends_latest (last_upd cur t1) t2.
  Proof.
    revert cur; induction t1 as [|[v|i v] t1 IH]; intros cur; simpl; [tauto| | ].
    - rewrite IH. reflexivity.
    - rewrite IH. unfold last_upd; simpl. tauto.
  Qed.
  Lemma updates_app t1 t2 : updates (D:=D) (t1 ++ t2) = updates t1 ++ updates t2.
  Proof. apply flat_map_app. Qed.
  Lemma main_sends_app t1 t2 : main_sends (D:=D) (t1 ++ t2) = main_sends t1 ++ main_sends t2.
  Proof. apply flat_map_app. Qed.
  Lemma corrections_odom o m m' l : corrections (mkCorr o m) l = corrections (mkCorr o m') l.
  Proof.
    revert o m m'; induction l as [|[t|p] l IH]; intros o m m'; simpl; [reflexivity| |].
    - unfold correction_msg; simpl. apply IH.
    - unfold correction_pose; simpl. f_equal.
  Qed.
  Lemma tf_eta (t : transform D) : mkTf (tf_basis t) (tf_origin t) = t. Proof. destruct t; reflexivity. Qed.

  Definition main_holds (m : main_pc (D:=D)) : bool :=
    match m with MWrite _ | MWriteO _ | MUnlock _ | MRead | MReadO _ | MSend _ | MUnlock2 => true | _ => false end.
  Definition async_holds (a : async_pc (D:=D)) : bool :=
    match a with ARead | AReadO _ | ASend _ | AUnlock => true | _ => false end.
  Definition locks (s : astate D) : Prop :=
    a_lock s = (if main_holds (a_main s) then Some TMain else if async_holds (a_async s) then Some TAsync else None)
    /\ (main_holds (a_main s) && async_holds (a_async s) = false).
  Definition memory (cur : transform D) (s : astate D) : Prop :=
    match a_main s with
    | MWriteO v => a_basis s = tf_basis v
    | MUnlock v => mkTf (a_basis s) (a_origin s) = v
    | _ => mkTf (a_basis s) (a_origin s) = cur
    end
    /\ match a_main s with MReadO b => b = tf_basis cur | MSend t => t = cur | _ => True end
    /\ match a_async s with AReadO b => b = tf_basis cur | ASend t => t = cur | _ => True end.
  Definition pending (s : astate D) : list (transform D) :=
    match a_main s with
    | MWait p => [new_correction dcos dsin (a_odom s) p]
    | MWrite v | MWriteO v | MUnlock v => [v]
    | _ => []
    end.
  Definition to_send (cur : transform D) (s : astate D) : list (transform D) :=
    match a_main s with MWait2 | MRead | MReadO _ | MSend _ => [cur] | _ => [] end.
  Record inv (ini : transform D) (goal : list (transform D)) (tr : list (label D)) (s : astate D) : Prop := mkInv {
    i_locks : locks s;
    i_mem : memory (last_upd ini tr) s;
    i_sends : sends_latest ini tr;
    i_upd : updates tr ++ pending s ++ corrections (mkCorr (a_odom s) ini) (a_events s) = goal;
    i_main : updates tr = main_sends tr ++ to_send (last_upd ini tr) s }.

  Lemma corr_pose_val o m p : snd (correction_pose dcos dsin (mkCorr o m) p) = new_correction dcos dsin o p.
  Proof. reflexivity. Qed.


  Ltac start HM HN := unfold locks, memory, pending, to_send in *; simpl in *; destruct HM as (HM1 & HM2 & HM3);
      constructor; unfold locks, memory, pending, to_send; simpl;
       rewrite ?last_upd_app, ?sends_latest_app, ?updates_app, ?main_sends_app, ?app_nil_r; simpl;
       rewrite ?app_nil_r; auto; try (rewrite app_nil_r in HN; exact HN).
  Lemma inv_step ini goal tr s t s' : inv ini goal tr s -> astep s t s' -> inv ini goal (tr ++ t) s'.
  Proof.
    intros [[HL1 HL2] HM HS HU HN] St.
    destruct St as [s t s' St|s t s' Al St|l odom b o k m a N1 N2].
    - destruct St; start HM HN.
      all: try (destruct (async_holds a) eqn:Ea; simpl in *; try discriminate HL1; try discriminate HL2; auto; fail).
      + rewrite <- HU. f_equal. f_equal. apply corrections_odom.
      + subst b. rewrite tf_eta. auto.
      + repeat split; auto. destruct a; auto; discriminate HL2.
      + rewrite <- HU, <- app_assoc. reflexivity.
      + rewrite HN, app_nil_r. reflexivity.
      + split; [|split]; auto. rewrite <- HM1; reflexivity.
      + split; [|split]; auto. rewrite HM2, <- HM1; reflexivity.
      + subst t. rewrite HN. reflexivity.
    - destruct St; start HM HN.
      all: try (destruct (main_holds m) eqn:Em; simpl in *; try discriminate HL1; try discriminate HL2; auto; fail).
      + split; [|split]; auto. destruct m; try discriminate HL2; rewrite <- HM1; reflexivity.
      + split; [|split]; auto. subst b'. destruct m; try discriminate HL2; rewrite <- HM1; reflexivity.
    - start HM HN.
  Qed.

  Lemma inv_runs ini goal s t s' : aruns s t s' -> forall tr, inv ini goal tr s -> inv ini goal (tr ++ t) s'.
  Proof.
    induction 1 as [s|s t s' t' s'' St _ IH]; intros tr I.
    - rewrite app_nil_r; exact I.
    - rewrite app_assoc. apply IH. eapply inv_step; eauto.
  Qed.
  Lemma inv_new is_async events :
    inv (co_map2odom (correction_new dcos dsin)) (corrections (correction_new dcos dsin) events) [] (publisher_new dcos dsin is_async events).
  Proof.
    constructor; simpl; auto.
    - unfold locks; simpl. destruct is_async; auto.
    - unfold memory; cbn [a_main a_basis a_origin a_async publisher_new]. split; [apply tf_eta|split; [exact Logic.I|destruct is_async; exact Logic.I]].
  Qed.
  Lemma inv_reach is_async events tr s : aruns (publisher_new dcos dsin is_async events) tr s ->
    inv (co_map2odom (correction_new dcos dsin)) (corrections (correction_new dcos dsin) events) tr s.
  Proof. intros H. apply (inv_runs _ _ _ _ _ H []), inv_new. Qed.

  Lemma aruns_trans s t s' t' s'' : aruns s t s' -> aruns s' t' s'' -> aruns s (t ++ t') s''.
  Proof.
    induction 1 as [s|s t s1 t1 s2 St _ IH]; intros H; [exact H|].
    rewrite <- app_assoc. econstructor; eauto.
  Qed.
  Lemma aruns_one s t s' : astep s t s' -> aruns s t s'.
  Proof. intros H. rewrite <- (app_nil_r t). econstructor; [exact H|constructor]. Qed.

  (** the publishing thread gives the lock back *)
  Lemma release s : locks s -> alive s -> exists tr s', aruns s tr s' /\ locks s' /\
    (a_lock s' = Some TAsync -> False) /\ a_main s' = a_main s /\ a_events s' = a_events s /\ a_odom s' = a_odom s /\ a_ok s' = a_ok s.
  Proof.
    intros L A.
    assert (stop : async_holds (a_async s) = false -> exists tr s', aruns s tr s' /\ locks s' /\
      (a_lock s' = Some TAsync -> False) /\ a_main s' = a_main s /\ a_events s' = a_events s /\ a_odom s' = a_odom s /\ a_ok s' = a_ok s).
    { intros E. exists [], s. split; [constructor|]. split; [exact L|]. split; [|auto].
      destruct L as [L _]. rewrite L, E. destruct (main_holds (a_main s)); discriminate. }
    destruct s as [l odom b o k m a ok]; simpl in *.
    assert (go : async_holds a = true -> exists tr, aruns (mkA l odom b o k m a ok) tr (mkA l odom b o None m ASleep ok)).
    { intros E.
      assert (Al : forall b' a', alive (mkA l odom b' o k m a' ok)) by (intros; exact A).
      assert (U : aruns (mkA l odom b o k m AUnlock ok) [] (mkA l odom b o None m ASleep ok)).
      { apply aruns_one. apply st_async; [apply Al|constructor]. }
      assert (S : forall t, exists tr, aruns (mkA l odom b o k m (ASend t) ok) tr (mkA l odom b o None m ASleep ok)).
      { intros t. eexists. eapply aruns_trans; [apply aruns_one, st_async; [apply Al|constructor]|exact U]. }
      assert (RO : forall b', exists tr, aruns (mkA l odom b o k m (AReadO b') ok) tr (mkA l odom b o None m ASleep ok)).
      { intros b'. destruct (S (mkTf b' o)) as [tr H]. eexists. eapply aruns_trans; [apply aruns_one, st_async; [apply Al|constructor]|exact H]. }
      destruct a; simpl in E; try discriminate E.
      - destruct (RO b) as [tr H]. eexists. eapply aruns_trans; [apply aruns_one, st_async; [apply Al|constructor]|exact H].
      - apply RO.
      - apply S.
      - eexists; exact U. }
    destruct (async_holds a) eqn:E.
    - destruct (go eq_refl) as [tr H]. exists tr. eexists. split; [exact H|]. simpl.
      destruct L as [L1 L2]. simpl in L2. rewrite E, andb_true_r in L2.
      split; [|split; [discriminate|auto]]. unfold locks; simpl. rewrite L2. auto.
    - apply stop; reflexivity.
  Qed.

  Definition weight (m : main_pc (D:=D)) : nat :=
    match m with
    | MReady => 0 | MUnlock2 => 1 | MSend _ => 2 | MReadO _ => 3 | MRead => 4 | MWait2 => 5
    | MUnlock _ => 6 | MWriteO _ => 7 | MWrite _ => 8 | MWait _ => 9 | MExited | MTerminated => 0 end.
  Definition togo (s : astate D) : nat := (10 * length (a_events s) + weight (a_main s))%nat.

  Lemma main_advances s : locks s -> alive s -> togo s <> 0%nat ->
    exists tr s', aruns s tr s' /\ alive s' /\ (togo s' < togo s)%nat /\ a_ok s' = a_ok s.
  Proof.
    intros L A N.
    destruct (release s L A) as (tr & s1 & R & L1 & NL & Em & Ee & Eo & Ek).
    assert (A1 : alive s1) by (unfold alive in *; rewrite Em; exact A).
    assert (N1 : togo s1 <> 0%nat) by (unfold togo in *; rewrite Em, Ee; exact N).
    assert (T1 : togo s1 = togo s) by (unfold togo; rewrite Em, Ee; reflexivity).
    assert (K : exists t s', main_step dcos dsin s1 t s' /\ alive s' /\ (togo s' < togo s1)%nat /\ a_ok s' = a_ok s1).
    { clear - L1 NL A1 N1. destruct s1 as [l odom b o k m a ok]; unfold togo in *; simpl in *.
      destruct L1 as [L1 L2]; simpl in *.
      assert (K0 : main_holds m = false -> k = None).
      { intros E. rewrite E in L1. destruct (async_holds a); [exfalso; auto|exact L1]. }
      destruct m; simpl in *; try (destruct A1 as [A1 A2]; simpl in *; congruence).
      - destruct l as [|[t|p] l]; [simpl in N1; congruence| |]; eexists; eexists; (split; [constructor|]); (split; [split; discriminate|]); simpl; split; lia || reflexivity.
      - rewrite (K0 eq_refl). eexists; eexists; (split; [constructor|]); (split; [split; discriminate|]); simpl; split; lia || reflexivity.
      - eexists; eexists; (split; [constructor|]); (split; [split; discriminate|]); simpl; split; lia || reflexivity.
      - eexists; eexists; (split; [constructor|]); (split; [split; discriminate|]); simpl; split; lia || reflexivity.
      - eexists; eexists; (split; [constructor|]); (split; [split; discriminate|]); simpl; split; lia || reflexivity.
      - rewrite (K0 eq_refl). eexists; eexists; (split; [constructor|]); (split; [split; discriminate|]); simpl; split; lia || reflexivity.
      - eexists; eexists; (split; [constructor|]); (split; [split; discriminate|]); simpl; split; lia || reflexivity.
      - eexists; eexists; (split; [constructor|]); (split; [split; discriminate|]); simpl; split; lia || reflexivity.
      - eexists; eexists; (split; [constructor|]); (split; [split; discriminate|]); simpl; split; lia || reflexivity.
      - eexists; eexists; (split; [constructor|]); (split; [split; discriminate|]); simpl; split; lia || reflexivity. }
    destruct K as (t & s' & St & A' & Lt & Ek').
    exists (tr ++ t), s'. split; [eapply aruns_trans; [exact R|apply aruns_one, st_main, St]|].
    split; [exact A'|]. split; [lia|congruence].
  Qed.

  Lemma runs_to_idle n : forall s ini goal tr0, (togo s <= n)%nat -> inv ini goal tr0 s -> alive s ->
    exists tr s', aruns s tr s' /\ a_main s' = MReady /\ a_events s' = [] /\ a_ok s' = a_ok s.
  Proof.
    induction n as [n IH] using lt_wf_ind. intros s ini goal tr0 Ln I A.
    destruct (Nat.eq_dec (togo s) 0) as [E|E].
    - exists [], s. split; [constructor|]. unfold togo in E.
      destruct (a_events s); [|simpl in E; lia]. destruct (a_main s) eqn:Em; simpl in E; try lia; auto; exfalso; destruct A as [A1 A2]; congruence.
    - destruct (main_advances s (i_locks _ _ _ _ I) A E) as (t & s1 & R & A1 & Lt & Ek).
      destruct (IH (togo s1) ltac:(lia) s1 ini goal (tr0 ++ t) (le_n _) (inv_runs _ _ _ _ _ R _ I) A1) as (t2 & s2 & R2 & Em & Ee & Ek2).
      exists (t ++ t2), s2. split; [eapply aruns_trans; eauto|]. split; [auto|split; [auto|congruence]].
  Qed.

  (** there is a publishing thread exactly if the publisher is asynchronous, and how the process ends depends on it *)
  Lemma ends_step s t s' : astep s t s' -> (a_async s = ANone -> a_main s <> MTerminated) -> (a_async s <> ANone -> a_main s <> MExited) ->
    (a_async s' = ANone <-> a_async s = ANone) /\
    (a_async s' = ANone -> a_main s' <> MTerminated) /\ (a_async s' <> ANone -> a_main s' <> MExited).
  Proof.
    intros St H1 H2. destruct St as [s t s' St|s t s' Al St|].
    - destruct St; simpl in *; repeat split; intros; try discriminate; try tauto; try congruence.
    - destruct St; simpl in *; repeat split; intros; try discriminate; try congruence; apply H2; discriminate.
    - simpl in *; tauto.
  Qed.
  Lemma ends_runs s t s' : aruns s t s' -> (a_async s = ANone -> a_main s <> MTerminated) -> (a_async s <> ANone -> a_main s <> MExited) ->
    (a_async s' = ANone <-> a_async s = ANone) /\
    (a_async s' = ANone -> a_main s' <> MTerminated) /\ (a_async s' <> ANone -> a_main s' <> MExited).
  Proof.
    induction 1 as [s|s t s1 t1 s2 St _ IH]; intros H1 H2; [tauto|].
    destruct (ends_step _ _ _ St H1 H2) as (E & E1 & E2).
    destruct (IH E1 E2) as (F & F1 & F2). split; [tauto|split; assumption].
  Qed.
  (** a process that is there can always be brought to its end *)
  Lemma can_end s ini goal tr0 : inv ini goal tr0 s -> alive s -> exists tr s', aruns s tr s' /\ (a_main s' = MExited \/ a_main s' = MTerminated).
  Proof.
    intros I A.
    destruct (runs_to_idle (togo s) s ini goal tr0 (le_n _) I A) as (tr & s1 & R & Em & Ee & Ek).
    assert (S : exists t s2, aruns s1 t s2 /\ a_main s2 = MReady /\ a_ok s2 = false).
    { destruct (a_ok s1) eqn:Ok1; [|exists [], s1; split; [constructor|auto]].
      destruct s1 as [l odom b o k m a ok]; simpl in *; subst.
      eexists; eexists; split; [apply aruns_one, st_shutdown; discriminate|]. auto. }
    destruct S as (t & s2 & R2 & Em2 & Ok2).
    destruct s2 as [l odom b o k m a ok]; simpl in *; subst.
    assert (F : exists m', (m' = MExited \/ m' = MTerminated) /\ main_step dcos dsin (mkA l odom b o k MReady a false) [] (mkA l odom b o k m' a false)).
    { destruct a; [exists MExited; split; [auto|constructor]| | | | | | | |]; (exists MTerminated; split; [auto|constructor; discriminate]). }
    destruct F as (m' & Hm & St).
    exists (tr ++ (t ++ [])), (mkA l odom b o k m' a false). split; [|exact Hm].
    eapply aruns_trans; [exact R|]. eapply aruns_trans; [exact R2|]. apply aruns_one, st_main, St.
  Qed.
End P.
