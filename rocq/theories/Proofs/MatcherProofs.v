(** Proofs about the pose enumeration scan matcher. *)
From Coq Require Import ZArith List Bool Lia Reals Lra.
From Verif.Base Require Import Outcome Num F64Facts OrdLaws.
From Verif.Model Require Import MathUtils Geometry PlainMap Sensor Matchers.
From Verif.Spec Require Import MatchSpec.
Import ListNotations.
Local Open Scope Z_scope.
Local Open Scope outcome_scope.

Section Observers.
  Context {D : Type}.
  Lemma received_app o (a b : list (Z * event D)) : received o (a ++ b) = received o a ++ received o b.
  Proof. unfold received. rewrite filter_app, map_app. reflexivity. Qed.

  Lemma received_notify_absent o (obs : observers) (evs : list (event D)) :
    ~ In (o, true) obs -> received o (notify obs evs) = [].
  Proof.
    unfold notify. induction obs as [|[i a] obs IH]; intros H; [reflexivity|]. cbn [flat_map fst snd].
    rewrite received_app, IH by (intros H'; apply H; now right). rewrite app_nil_r.
    destruct a; [|reflexivity]. assert (Hn : i <> o) by (intros ->; apply H; now left).
    clear IH. unfold received. induction evs as [|e evs IHe]; [reflexivity|]. cbn [map filter fst].
    destruct (Z.eqb_spec i o); [contradiction|exact IHe].
  Qed.

  Lemma received_notify_live o (obs : observers) (evs : list (event D)) :
    NoDup (map fst obs) -> In (o, true) obs -> received o (notify obs evs) = evs.
  Proof.
    unfold notify. induction obs as [|[i a] obs IH]; intros ND H; [destruct H|]. cbn [flat_map fst snd].
    cbn [map fst] in ND. inversion ND as [|? ? Hi ND']; subst. rewrite received_app. destruct H as [H|H].
    - injection H as -> ->. fold (notify obs evs). rewrite received_notify_absent.
      + rewrite app_nil_r. clear. unfold received. induction evs as [|e evs IHe]; [reflexivity|].
        cbn [map filter fst]. rewrite Z.eqb_refl. cbn [map snd]. now rewrite IHe.
      + intros H. apply Hi. apply in_map_iff. exists (o, true). auto.
    - rewrite IH by auto. assert (Hn : i <> o) by (intros ->; apply Hi; apply in_map_iff; exists (o, true); auto).
      replace (received o (if a then map (pair i) evs else [])) with (@nil (event D)); [reflexivity|].
      destruct a; [|reflexivity]. clear - Hn. unfold received. induction evs as [|e evs IHe]; [reflexivity|]. cbn [map filter fst].
      destruct (Z.eqb_spec i o); [contradiction|exact IHe].
  Qed.
End Observers.

Section Loop.
  Context {D : Type} {ops : DOps D} {laws : OrdLaws ops} {E : Type}.
  Variable en : enumerator D E.
  Variable score : pose D -> D.
  Variable obs : observers.

  Fixpoint deliver (evs : list (event D)) : list (Z * event D) :=
    match evs with [] => [] | e :: evs => notify obs [e] ++ deliver evs end.

  (** [best] is the first maximum of [tested] *)
  Definition first_best (tested : list (pose D)) (best : pose D) : Prop :=
    exists l1 l2, tested = l1 ++ best :: l2 /\
      (forall p, In p l1 -> dle (score best) (score p) = false) /\
      (forall p, In p tested -> dlt (score best) (score p) = false).

  Lemma first_best_single p : first_best [p] p.
  Proof.
    exists [], []. split; [reflexivity|]. split; [intros q []|]. intros q [<-|[]]. apply lt_irrefl_.
  Qed.

  Lemma first_best_worse l b p : first_best l b -> dlt (score b) (score p) = false -> first_best (l ++ [p]) b.
  Proof.
    intros (l1 & l2 & -> & H1 & H2) H. exists l1, (l2 ++ [p]). split; [rewrite <- app_assoc; reflexivity|].
    split; [exact H1|]. intros q Hq. apply in_app_or in Hq. destruct Hq as [Hq|[<-|[]]]; auto.
  Qed.

  Lemma first_best_better l b p : first_best l b -> dlt (score b) (score p) = true -> first_best (l ++ [p]) p.
  Proof.
    intros (l1 & l2 & -> & H1 & H2) H. exists (l1 ++ b :: l2), []. split; [reflexivity|]. split.
    - intros q Hq. destruct (dle (score p) (score q)) eqn:Hle; [|reflexivity].
      rewrite <- (H2 q Hq). symmetry. eapply lt_le_trans_; eauto.
    - intros q Hq. apply in_app_or in Hq. destruct Hq as [Hq|[<-|[]]]; [|apply lt_irrefl_].
      destruct (dlt (score p) (score q)) eqn:Hlt; [|reflexivity].
      rewrite <- (H2 q Hq). symmetry. eapply lt_trans_; eauto.
  Qed.

  Lemma pe_loop_spec : forall fuel e best tested out e' best' prob' tested' out',
    pe_loop en score obs fuel e best (score best) tested out = Ok (e', best', prob', tested', out') ->
    first_best tested best ->
    prob' = score best' /\ first_best tested' best' /\ e_has_next en e' = false /\
    exists new evs, tested' = tested ++ new /\ out' = out ++ deliver evs /\
      protocol (score best) evs prob' /\ tests_of evs = map (fun p => (p, score p)) new.
  Proof.
    induction fuel as [|fuel IH]; intros e best tested out e' best' prob' tested' out' H HB; cbn [pe_loop] in H.
    - destruct (e_has_next en e) eqn:Hn; [discriminate|]. injection H as <- <- <- <- <-.
      split; [reflexivity|]. split; [exact HB|]. split; [exact Hn|]. exists [], []. rewrite !app_nil_r.
      repeat split; constructor.
    - destruct (e_has_next en e) eqn:Hn.
      + destruct (e_next en e best) as [p e1]. destruct (dlt (score best) (score p)) eqn:Hlt.
        * apply IH in H; [|now apply first_best_better with best].
          destruct H as (Hp & HB' & Hn' & new & evs & -> & -> & HP & HT).
          split; [exact Hp|]. split; [exact HB'|]. split; [exact Hn'|].
          exists (p :: new), (EvTest p (score p) :: EvUpdate p (score p) :: evs).
          rewrite <- !app_assoc. cbn [deliver map app]. split; [reflexivity|]. split; [reflexivity|].
          split; [apply pr_better; auto|].
          change (tests_of (EvTest p (score p) :: EvUpdate p (score p) :: evs)) with ((p, score p) :: tests_of evs). now rewrite HT.
        * apply IH in H; [|now apply first_best_worse].
          destruct H as (Hp & HB' & Hn' & new & evs & -> & -> & HP & HT).
          split; [exact Hp|]. split; [exact HB'|]. split; [exact Hn'|].
          exists (p :: new), (EvTest p (score p) :: evs).
          rewrite <- !app_assoc. cbn [deliver map app]. split; [reflexivity|]. split; [reflexivity|].
          split; [apply pr_worse; auto|].
          change (tests_of (EvTest p (score p) :: evs)) with ((p, score p) :: tests_of evs). now rewrite HT.
      + injection H as <- <- <- <- <-.
        split; [reflexivity|]. split; [exact HB|]. split; [exact Hn|]. exists [], []. rewrite !app_nil_r.
        repeat split; constructor.
  Qed.

  Lemma process_scan_spec fuel e init r : process_scan en score obs fuel e init = Ok r ->
    mr_delta r = pose_sub (mr_best r) init /\ mr_prob r = score (mr_best r) /\
    first_best (mr_tested r) (mr_best r) /\
    exists new evs, mr_tested r = init :: new /\
      mr_out r = notify obs [EvStart init] ++ notify obs [EvTest init (score init); EvUpdate init (score init)]
                   ++ deliver evs ++ notify obs [EvEnd (mr_delta r) (mr_prob r)] /\
      protocol (score init) evs (mr_prob r) /\ tests_of evs = map (fun p => (p, score p)) new.
  Proof.
    unfold process_scan. intros H. apply bind_Ok_inv in H. destruct H as ([[[[e' best'] prob'] tested'] out'] & HL & H).
    injection H as <-. cbn [mr_delta mr_prob mr_best mr_tested mr_out].
    apply pe_loop_spec in HL; [|apply first_best_single].
    destruct HL as (-> & HB & _ & new & evs & -> & -> & HP & HT).
    split; [reflexivity|]. split; [reflexivity|]. split; [exact HB|]. exists new, evs. rewrite <- !app_assoc. auto.
  Qed.

  Lemma received_deliver o evs : NoDup (map fst obs) -> In (o, true) obs -> received o (deliver evs) = evs.
  Proof.
    intros ND H. induction evs as [|ev evs IH]; [reflexivity|]. cbn [deliver].
    rewrite received_app, received_notify_live, IH by auto. reflexivity.
  Qed.
  Lemma received_deliver_absent o evs : ~ In (o, true) obs -> received o (deliver evs) = [].
  Proof.
    intros H. induction evs as [|ev evs IH]; [reflexivity|]. cbn [deliver].
    rewrite received_app, received_notify_absent, IH by auto. reflexivity.
  Qed.

  Lemma protocol_increasing b evs b' : protocol b evs b' -> increasing (b :: updates_of evs).
  Proof.
    induction 1 as [b|b p s evs b' Hlt HP IH|b p s evs b' Hlt HP IH]; [cbn; auto|exact IH|].
    change (updates_of (EvTest p s :: EvUpdate p s :: evs)) with (s :: updates_of evs).
    cbn [increasing]. split; [exact Hlt|]. exact IH.
  Qed.
End Loop.
