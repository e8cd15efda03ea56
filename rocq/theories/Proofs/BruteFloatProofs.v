(** Brute force axes in binary64 (C24). *)
From Coq Require Import Reals ZArith List Bool Lia Lra.
From Flocq Require Import Core IEEE754.BinarySingleNaN IEEE754.Binary IEEE754.Bits.
From Verif.Base Require Import Outcome Num F64Facts.
From Verif.Model Require Import Matchers Sensor.
From Verif.Spec Require Import MatchSpec BruteFloatSpec.
From Verif.Proofs Require Import ClimbProofs.
Import ListNotations.
Local Open Scope R_scope.

Section Axis.
  Variables from to step : F64.
  Hypothesis S0 : sane_axis from to step.
  Notation M := (Rmax (Rabs (F2R64 from)) (Rabs (F2R64 to)) + F2R64 step).
  Definition inside (x : F64) : Prop := F_fin x = true /\ F2R64 from <= F2R64 x.
  Lemma one_step x : inside x -> F2R64 x <= F2R64 to ->
    F_fin (dadd x step) = true /\ F2R64 x < F2R64 (dadd x step) /\ Rabs (F2R64 (dadd x step) - (F2R64 x + F2R64 step)) <= spacing M / 2.
  Proof using S0.
    intros [Fx Lo] Hi. destruct S0 as [(Ff & Ft & Fs) (Sf & St & Ss) (Uf & Ut)]. unfold spacing in *.
    assert (B : Rabs (F2R64 x) <= Rmax (Rabs (F2R64 from)) (Rabs (F2R64 to))).
    { destruct (Rle_dec 0 (F2R64 x)) as [P|N].
      - apply Rle_trans with (Rabs (F2R64 to)); [rewrite !Rabs_pos_eq; lra|apply Rmax_r].
      - apply Rle_trans with (Rabs (F2R64 from)); [rewrite !Rabs_left1; lra|apply Rmax_l]. }
    assert (BM : Rabs (F2R64 x + F2R64 step) <= M).
    { eapply Rle_trans; [apply Rabs_triang|]. rewrite (Rabs_pos_eq (F2R64 step)) by lra. lra. }
    assert (U : ulp radix2 fexp64 (F2R64 x) <= F2R64 step).
    { unfold Rmax in B. destruct (Rle_dec _ _) in B.
      - apply Rle_trans with (ulp radix2 fexp64 (F2R64 to)); [|exact Ut]. apply ulp_le; [typeclasses eauto|typeclasses eauto|]. exact B.
      - apply Rle_trans with (ulp radix2 fexp64 (F2R64 from)); [|exact Uf]. apply ulp_le; [typeclasses eauto|typeclasses eauto|]. exact B. }
    assert (P1000 : M <= bpow radix2 1001).
    { assert (Rmax (Rabs (F2R64 from)) (Rabs (F2R64 to)) <= bpow radix2 1000) by (apply Rmax_lub; assumption).
      change 1001%Z with (1 + 1000)%Z. rewrite bpow_plus. assert (Q := bpow_gt_0 radix2 1000). change (bpow radix2 1) with 2. lra. }
    destruct (F_add_correct x step Fx Fs) as [E F].
    { apply (no_ovf_le (bpow radix2 1001)); [apply generic_format_bpow; vm_compute; discriminate|unfold fmax_bound; apply bpow_lt; lia|lra]. }
    split; [exact F|]. rewrite E. split.
    - apply Rlt_le_trans with (succ radix2 fexp64 (F2R64 x)).
      + destruct (Req_dec (F2R64 x) 0) as [Z|Z]; [rewrite Z, succ_0; change (ulp radix2 fexp64 0) with (ulp radix2 (FLT_exp (-1074) 53) 0); rewrite ulp_FLT_0 by reflexivity; apply bpow_gt_0|apply succ_gt_id; exact Z].
      + apply rnd_ge; [apply generic_format_succ; [typeclasses eauto|apply F_fmt]|].
        eapply Rle_trans; [apply succ_le_plus_ulp; typeclasses eauto|]. lra.
    - eapply Rle_trans; [apply error_le_half_ulp; typeclasses eauto|].
      assert (ulp radix2 fexp64 (F2R64 x + F2R64 step) <= ulp radix2 fexp64 M); [|lra].
      apply ulp_le; [typeclasses eauto|typeclasses eauto|]. rewrite (Rabs_pos_eq M); [exact BM|]. eapply Rle_trans; [|exact BM]. apply Rabs_pos.
  Qed.
  Lemma step_inside x : inside x -> F2R64 x <= F2R64 to -> inside (dadd x step).
  Proof using S0. intros I H. destruct (one_step x I H) as (F & L & _). destruct I as [_ I]. split; [exact F|lra]. Qed.
  Lemma step_lt x : inside x -> F2R64 x <= F2R64 to -> dlt x (dadd x step) = true.
  Proof using S0. intros I H. destruct (one_step x I H) as (F & L & _). apply F_lt_fin; [apply I|exact F|exact L]. Qed.
  Lemma to_fin : F_fin to = true. Proof using S0. apply S0. Qed.
  (** lists starting at [x] *)
  Definition from_here (x : F64) (l : list F64) : Prop :=
    Forall (fun a => F_fin a = true /\ F2R64 x <= F2R64 a) l /\ increasing l /\
    forall k a, nth_error l k = Some a -> Rabs (F2R64 a - (F2R64 x + INR k * F2R64 step)) <= INR k * (spacing M / 2).
  Lemma from_one x : inside x -> from_here x [x].
  Proof using Type.
    intros [F _]. split; [constructor; [split; [exact F|lra]|constructor]|]. split.
    - intros i j a b L A B. destruct j as [|j]; [lia|]. destruct j; discriminate B.
    - intros [|k] a A; [|destruct k; discriminate A]. injection A as <-. replace (_ - _) with 0 by (cbn; lra). rewrite Rabs_R0. cbn. lra.
  Qed.
  Lemma from_more x l : inside x -> F2R64 x <= F2R64 to -> from_here (dadd x step) l -> from_here x (x :: l).
  Proof using S0.
    intros I H (A & B & C). destruct (one_step x I H) as (F & L & E). split.
    - constructor; [split; [apply I|lra]|]. eapply Forall_impl; [|exact A]. intros a [Fa La]. split; [exact Fa|lra].
    - split.
      + intros [|i] [|j] a b Lij Ha Hb; try lia.
        * cbn in Ha, Hb. injection Ha as <-. apply nth_error_In in Hb. rewrite Forall_forall in A. apply A in Hb. lra.
        * apply (B i j); [lia|exact Ha|exact Hb].
      + intros [|k] a Ha.
        * injection Ha as <-. replace (_ - _) with 0 by (cbn; lra). rewrite Rabs_R0. cbn. lra.
        * specialize (C k a Ha). rewrite S_INR.
          replace (F2R64 a - (F2R64 x + (INR k + 1) * F2R64 step)) with
            ((F2R64 a - (F2R64 (dadd x step) + INR k * F2R64 step)) + (F2R64 (dadd x step) - (F2R64 x + F2R64 step))) by ring.
          eapply Rle_trans; [apply Rabs_triang|]. lra.
  Qed.
  Lemma until_ends : forall x, inside x -> exists l, steps_until step to x l /\ from_here x l.
  Proof using S0.
    intros x. assert (A := F64_acc x). induction A as [x _ IH]. intros I. destruct (dlt x to) eqn:L.
    - assert (L' := L). apply F_lt_fin in L'; [|apply I|apply to_fin]. assert (L2 : F2R64 x <= F2R64 to) by lra.
      destruct (IH (dadd x step) (step_lt x I L2) (step_inside x I L2)) as (l & Hl & Hf). exists (x :: l). split; [now constructor|]. now apply from_more.
    - exists [x]. split; [now constructor|]. now apply from_one.
  Qed.
  Lemma while_ends : forall x, inside x -> exists l, steps_while step to x l /\ from_here x l.
  Proof using S0.
    intros x. assert (A := F64_acc x). induction A as [x _ IH]. intros I. destruct (dle x to) eqn:L.
    - assert (L' := L). apply F_le_fin in L'; [|apply I|apply to_fin].
      destruct (IH (dadd x step) (step_lt x I L') (step_inside x I L')) as (l & Hl & Hf). exists (x :: l). split; [now constructor|]. now apply from_more.
    - exists []. split; [now constructor|]. split; [constructor|]. split; [intros [|i] j a b _ H; discriminate H|intros [|k] a H; discriminate H].
  Qed.
  Lemma from_grid l : from_here from l -> increasing l /\ keeps_grid from to step l.
  Proof using Type.
    intros (A & B & C). split; [exact B|]. intros k a H. split; [|exact (C k a H)]. apply nth_error_In in H. rewrite Forall_forall in A. apply A, H.
  Qed.
  Lemma from_inside : inside from.
  Proof using S0. split; [apply S0|lra]. Qed.
End Axis.
