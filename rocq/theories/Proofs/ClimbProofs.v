(** Proofs about the hill climbing and Monte-Carlo enumerators. *)
From Coq Require Import ZArith List Bool Lia Reals Lra.
From Verif.Base Require Import Outcome Num F64Facts OrdLaws.
From Verif.Model Require Import MathUtils Geometry PlainMap Sensor Matchers.
From Verif.Spec Require Import MatchSpec.
From Verif.Proofs Require Import BruteForceProofs.
Import ListNotations.
Local Open Scope Z_scope.
Local Open Scope outcome_scope.

Section Det.
  Context {D : Type} {ops : DOps D} {E : Type}.
  Variable en : enumerator D E.
  Variable score : pose D -> D.
  Variable obs : observers.
  Lemma runs_det a k m n b : runs en score obs a k m -> runs en score obs a n b -> e_has_next en (st_e b) = false ->
    exists n', n = (k + n')%nat /\ runs en score obs m n' b.
  Proof.
    intros H. revert n b. induction H as [st|st k m Hn H IH]; intros n b HR Hb; [exists n; auto|].
    inversion HR as [|? n1 ? Hn1 HR1]; subst; [rewrite Hn in Hb; discriminate|].
    destruct (IH _ _ HR1 Hb) as (n' & -> & HR'). exists n'. auto.
  Qed.
End Det.

Section BestOf.
  Context {D : Type} {ops : DOps D} {laws : OrdLaws ops}.
  Variable score : pose D -> D.
  Lemma improves_best_of best l : improves score best l = true -> dlt (score best) (score (best_of score best l)) = true.
  Proof.
    assert (G : forall l b, dlt (score best) (score b) = true -> dlt (score best) (score (best_of score b l)) = true).
    { clear l. induction l as [|p l IH]; intros b H; [exact H|]. cbn. destruct (dlt (score b) (score p)) eqn:E; apply IH; [|exact H].
      eapply lt_trans_; eauto. }
    unfold improves. induction l as [|p l IH]; cbn; [discriminate|]. destruct (dlt (score best) (score p)) eqn:E; cbn; auto.
  Qed.
  Lemma not_improves_best_of best l : improves score best l = false -> best_of score best l = best.
  Proof.
    unfold improves. induction l as [|p l IH]; cbn; [reflexivity|]. intros H. apply orb_false_iff in H. destruct H as [-> H]. auto.
  Qed.
End BestOf.

Section Climb.
  Context {D : Type} {ops : DOps D} {laws : OrdLaws ops}.
  Variable score : pose D -> D.
  Variable obs : observers.
  Variables (tr0 rot0 : D) (max : nat).
  Hypothesis Hmax : Z.of_nat max < 2 ^ 32.
  Notation en := (@frl_enum D ops).
  Notation runs := (runs en score obs).
  Notation step := (pe_step en score obs).

  Definition half (x : D) : D := dmul x (dlit 1 2).
  Definition trf (f : nat) : D := Nat.iter f half tr0.
  Definition rotf (f : nat) : D := Nat.iter f half rot0.
  Definition nb (a : Z) (f : nat) (b : pose D) : pose D := fst (d1_next (mkD1 a (trf f) (rotf f) (dofZ 0) (dofZ 1) (Some b)) b).
  Fixpoint nbf (a : Z) (k : nat) (f : nat) (b : pose D) : list (pose D) :=
    match k with O => [] | S k => nb a f b :: nbf (a + 1) k f b end.
  Definition nbrs (f : nat) (b : pose D) := nbf 0 6 f b.

  Definition Rst (f : nat) : frl D :=
    mkFrl (Z.of_nat max) tr0 rot0 (Z.of_nat f) (trf f) (rotf f) (new_round (trf f) (rotf f)) true.
  Definition Mst (f : nat) (a : Z) (b : pose D) (rf : bool) : frl D :=
    mkFrl (Z.of_nat max) tr0 rot0 (Z.of_nat f) (trf f) (rotf f) (mkD1 a (trf f) (rotf f) (dofZ 0) (dofZ 1) (Some b)) rf.
  Definition ready (f : nat) (s : frl D) : Prop := forall prev, frl_next s prev = frl_next (Rst f) prev.

  Lemma next_Rst f prev : frl_next (Rst f) prev = (nb 0 f prev, Mst f 1 prev true).
  Proof. reflexivity. Qed.

  Lemma next_Mst f a b rf prev : a < 6 -> frl_next (Mst f a b rf) prev = (nb a f b, Mst f (a + 1) b rf).
  Proof.
    intros H. assert (E : d1_has_next (fr_round (Mst f a b rf)) = true) by (apply Z.ltb_lt; exact H).
    unfold frl_next. rewrite E. reflexivity.
  Qed.

  Lemma ready_Mst f b (rf : bool) : (f < max)%nat -> ready (if rf then S f else f) (Mst f 6 b rf).
  Proof.
    intros H prev. unfold frl_next at 1. change (d1_has_next (fr_round (Mst f 6 b rf))) with false. cbn iota.
    destruct rf; [|reflexivity]. change (fr_failed (Mst f 6 b true)) with (Z.of_nat f).
    assert (U : u32 (Z.of_nat f + 1) = Z.of_nat (S f)) by (unfold u32; rewrite Z.mod_small; lia).
    cbn [fr_round_failed Mst]. rewrite U. reflexivity.
  Qed.

  Lemma step_gen e best tested out p e1 : frl_next e best = (p, e1) ->
    exists out', step (e, best, score best, tested, out) =
      (frl_feedback e1 (dlt (score best) (score p)), (if dlt (score best) (score p) then p else best),
       score (if dlt (score best) (score p) then p else best), tested ++ [p], out').
  Proof.
    intros H. unfold pe_step. cbn [e_next e_feedback frl_enum]. rewrite H. destruct (dlt (score best) (score p)); eexists; reflexivity.
  Qed.

  Lemma feedback_Mst f a b rf ok : frl_feedback (Mst f a b rf) ok = Mst f a b (rf && negb ok).
  Proof. reflexivity. Qed.

  Lemma has_next_Mst f a b rf : (f < max)%nat -> frl_has_next (Mst f a b rf) = true.
  Proof. intros H. unfold frl_has_next, Mst; cbn. apply Z.ltb_lt. lia. Qed.

  Lemma mid_run f b (Hf : (f < max)%nat) : forall k a rf best tested out, a + Z.of_nat k = 6 ->
    exists out', runs (Mst f a b rf, best, score best, tested, out) k
      (Mst f 6 b (rf && negb (improves score best (nbf a k f b))), best_of score best (nbf a k f b),
       score (best_of score best (nbf a k f b)), tested ++ nbf a k f b, out').
  Proof.
    induction k as [|k IH]; intros a rf best tested out Ha.
    - assert (a = 6) by lia. subst. exists out. cbn. rewrite app_nil_r, andb_true_r. constructor.
    - destruct (step_gen (Mst f a b rf) best tested out _ _ (next_Mst f a b rf best ltac:(lia))) as (out1 & HS).
      rewrite feedback_Mst in HS.
      destruct (IH (a + 1) (rf && negb (dlt (score best) (score (nb a f b))))
                  (if dlt (score best) (score (nb a f b)) then nb a f b else best) (tested ++ [nb a f b]) out1 ltac:(lia)) as (out2 & HR).
      exists out2. constructor; [apply has_next_Mst; auto|]. rewrite HS.
      replace (tested ++ nbf a (S k) f b) with ((tested ++ [nb a f b]) ++ nbf (a + 1) k f b) by (rewrite <- app_assoc; reflexivity).
      replace (rf && negb (improves score best (nbf a (S k) f b))) with
        (rf && negb (dlt (score best) (score (nb a f b))) &&
         negb (improves score (if dlt (score best) (score (nb a f b)) then nb a f b else best) (nbf (a + 1) k f b))).
      + exact HR.
      + cbn [nbf improves existsb]. unfold improves. destruct (dlt (score best) (score (nb a f b))); cbn; [|rewrite andb_true_r; reflexivity].
        rewrite andb_false_r. destruct rf; reflexivity.
  Qed.

  (** one whole round *)
  Lemma round_run f s best tested out : (f < max)%nat -> ready f s -> frl_has_next s = true ->
    exists rf out', rf = negb (improves score best (nbrs f best)) /\
      runs (s, best, score best, tested, out) 6
        (Mst f 6 best rf, best_of score best (nbrs f best), score (best_of score best (nbrs f best)), tested ++ nbrs f best, out').
  Proof.
    intros Hf HR Hn. specialize (HR best). rewrite next_Rst in HR.
    destruct (step_gen s best tested out _ _ HR) as (out1 & HS). rewrite feedback_Mst in HS.
    destruct (mid_run f best Hf 5 1 (true && negb (dlt (score best) (score (nb 0 f best))))
                (if dlt (score best) (score (nb 0 f best)) then nb 0 f best else best) (tested ++ [nb 0 f best]) out1 ltac:(lia)) as (out2 & HM).
    eexists _, out2. split; [reflexivity|]. constructor; [exact Hn|]. rewrite HS.
    replace (tested ++ nbrs f best) with ((tested ++ [nb 0 f best]) ++ nbf 1 5 f best) by (rewrite <- app_assoc; reflexivity).
    replace (negb (improves score best (nbrs f best))) with
      (true && negb (dlt (score best) (score (nb 0 f best))) &&
       negb (improves score (if dlt (score best) (score (nb 0 f best)) then nb 0 f best else best) (nbf 1 5 f best))).
    - exact HM.
    - unfold nbrs. change (nbf 0 6 f best) with (nb 0 f best :: nbf 1 5 f best). unfold improves.
      cbn [existsb]. destruct (dlt (score best) (score (nb 0 f best))); reflexivity.
  Qed.

  (** the last pose *)
  Lemma last_run s best tested out : ready max s -> frl_has_next s = true ->
    exists e' best' prob' out', runs (s, best, score best, tested, out) 1 (e', best', prob', tested ++ [nb 0 max best], out') /\
      frl_has_next e' = false.
  Proof.
    intros HR Hn. specialize (HR best). rewrite next_Rst in HR.
    destruct (step_gen s best tested out _ _ HR) as (out1 & HS). do 4 eexists. split.
    - constructor; [exact Hn|]. rewrite HS. constructor.
    - rewrite feedback_Mst. unfold frl_has_next, Mst; cbn. apply Z.ltb_irrefl.
  Qed.

  Lemma climb_runs : forall n f s best tested out st',
    (f <= max)%nat -> ready f s -> frl_has_next s = true ->
    runs (s, best, score best, tested, out) n st' -> e_has_next en (st_e st') = false ->
    exists rest, st_tested st' = tested ++ rest /\ climb score nbrs max f best rest.
  Proof.
    induction n as [n IH] using lt_wf_ind. intros f s best tested out st' Hf HR Hn HRun Hstop.
    destruct (Nat.eq_dec f max) as [->|Hne].
    - destruct (last_run s best tested out HR Hn) as (e' & b' & p' & o' & H1 & H2).
      destruct (runs_det _ _ _ _ _ _ _ _ H1 HRun Hstop) as (n' & -> & H3).
      inversion H3 as [|? ? ? Hn' ?]; subst; [|cbn in Hn'; rewrite H2 in Hn'; discriminate].
      eexists. split; [reflexivity|]. apply cl_stop. reflexivity.
    - destruct (round_run f s best tested out ltac:(lia) HR Hn) as (rf & o' & Erf & H1).
      destruct (runs_det _ _ _ _ _ _ _ _ H1 HRun Hstop) as (n' & -> & H3).
      pose proof (ready_Mst f best rf ltac:(lia)) as HR'.
      assert (Hf' : ((if rf then S f else f) <= max)%nat) by (destruct rf; lia).
      destruct (IH n' ltac:(lia) _ _ _ _ _ _ Hf' HR' (has_next_Mst f 6 best rf ltac:(lia)) H3 Hstop) as (rest & HT & HC).
      exists (nbrs f best ++ rest). split; [rewrite HT, app_assoc; reflexivity|]. apply cl_round; [lia|].
      rewrite Erf in HC. destruct (improves score best (nbrs f best)); exact HC.
  Qed.

  Lemma climb_terminates : forall best, Acc (fun q p => dlt (score p) (score q) = true) best ->
    forall m f s tested out, (max - f <= m)%nat -> (f <= max)%nat -> ready f s -> frl_has_next s = true ->
    exists n st', runs (s, best, score best, tested, out) n st' /\ e_has_next en (st_e st') = false.
  Proof.
    intros best HA. induction HA as [best _ IHA]. induction m as [|m IHm]; intros f s tested out Hm Hf HR Hn.
    - assert (f = max) by lia. subst. destruct (last_run s best tested out HR Hn) as (e' & b' & p' & o' & H1 & H2). eauto.
    - destruct (Nat.eq_dec f max) as [->|Hne].
      { destruct (last_run s best tested out HR Hn) as (e' & b' & p' & o' & H1 & H2). eauto. }
      destruct (round_run f s best tested out ltac:(lia) HR Hn) as (rf & o' & Erf & H1).
      pose proof (ready_Mst f best rf ltac:(lia)) as HR'.
      pose proof (has_next_Mst f 6 best rf ltac:(lia)) as Hn'.
      destruct (improves score best (nbrs f best)) eqn:EI.
      + subst rf. cbn [negb] in *. apply improves_best_of in EI.
        destruct (IHA _ EI max f _ (tested ++ nbrs f best) o' ltac:(lia) Hf HR' Hn') as (n & st' & H2 & H3).
        exists (6 + n)%nat, st'. split; [eapply runs_app; eauto|exact H3].
      + subst rf. cbn [negb] in *. rewrite (not_improves_best_of _ _ _ EI) in H1.
        destruct (IHm (S f) _ (tested ++ nbrs f best) o' ltac:(lia) ltac:(lia) HR' Hn') as (n & st' & H2 & H3).
        exists (6 + n)%nat, st'. split; [eapply runs_app; eauto|exact H3].
  Qed.

  Lemma reset_ready s : fr_max s = Z.of_nat max -> fr_base_tr s = tr0 -> fr_base_rot s = rot0 ->
    frl_reset s = Rst 0.
  Proof. intros H1 H2 H3. unfold frl_reset, Rst. rewrite H1, H2, H3. reflexivity. Qed.

  Lemma nbrs_length f b : length (nbrs f b) = 6%nat. Proof. reflexivity. Qed.

  Lemma climb_no_improvement f best rest : climb score nbrs max f best rest ->
    (forall p, dlt (score best) (score p) = false) -> length rest = (6 * (max - f) + 1)%nat.
  Proof.
    intros H. induction H as [best p H|f best rest Hf H IH]; intros N; [cbn; lia|].
    assert (EI : improves score best (nbrs f best) = false).
    { clear - N. unfold improves. induction (nbrs f best) as [|q l IHl]; [reflexivity|]. cbn. rewrite N. exact IHl. }
    rewrite EI in IH. rewrite (not_improves_best_of _ _ _ EI) in IH. rewrite app_length, (IH N), nbrs_length. lia.
  Qed.
End Climb.

Lemma trf_R tr f : trf tr f = (tr / 2 ^ f)%R.
Proof.
  unfold trf. induction f as [|f IH]; [cbn; lra|]. change (Nat.iter (S f) half tr) with (half (Nat.iter f half tr)).
  rewrite IH. unfold half. change (dlit 1 2) with (1 / 2)%R. cbn [dmul ROps pow]. field. apply pow_nonzero. lra.
Qed.

Lemma nbrs_R tr rot f b : nbrs tr rot f b = halved_moves tr rot f b.
Proof.
  unfold nbrs, halved_moves. cbn [nbf]. unfold nb, d1_next. cbn [d1_base d1_action d1_tr d1_rot d1_sin d1_cos fst].
  rewrite trf_R. change (rotf rot f) with (trf rot f). rewrite trf_R.
  change ((0 + 1 + 1 + 1 + 1 + 1)) with 5. change (0 + 1 + 1 + 1 + 1) with 4. change (0 + 1 + 1 + 1) with 3. change (0 + 1 + 1) with 2.
  change (0 + 1) with 1. change (0 mod 2 =? 0) with true. change (1 mod 2 =? 0) with false. change (2 mod 2 =? 0) with true.
  change (3 mod 2 =? 0) with false. change (4 mod 2 =? 0) with true. change (5 mod 2 =? 0) with false.
  change (0 mod 3 =? 0) with true. change (1 mod 3 =? 0) with false. change (2 mod 3 =? 0) with false.
  change (3 mod 3 =? 0) with true. change (4 mod 3 =? 0) with false. change (5 mod 3 =? 0) with false.
  change (1 mod 3 =? 1) with true. change (2 mod 3 =? 1) with false. change (4 mod 3 =? 1) with true. change (5 mod 3 =? 1) with false.
  cbn [dofZ dadd dmul dopp ROps]. repeat (f_equal; try lra).
Qed.

(** ** binary64 has finitely many values, so scores cannot increase forever *)
Section Finite.
  Context {D : Type} {ops : DOps D} {laws : OrdLaws ops}.
  Variable all : list D.
  Hypothesis complete : forall x, In x all.
  Lemma finite_acc : forall x : D, Acc (fun b a => dlt a b = true) x.
  Proof.
    assert (G : forall (P Q : D -> bool) l, (forall x, Q x = true -> P x = true) ->
      (length (filter Q l) <= length (filter P l))%nat).
    { intros P Q l H. induction l as [|y l IH]; [reflexivity|]. cbn. destruct (Q y) eqn:EQ.
      - rewrite (H _ EQ). cbn. lia.
      - destruct (P y); cbn; lia. }
    assert (G2 : forall (P Q : D -> bool) l z, (forall x, Q x = true -> P x = true) -> In z l -> P z = true -> Q z = false ->
      (length (filter Q l) < length (filter P l))%nat).
    { intros P Q l z H. induction l as [|y l IH]; intros Hin HP HQ; [destruct Hin|]. cbn. destruct Hin as [->|Hin].
      - rewrite HP, HQ. cbn. pose proof (G P Q l H). lia.
      - specialize (IH Hin HP HQ). destruct (Q y) eqn:EQ; [rewrite (H _ EQ); cbn; lia|]. destruct (P y); cbn; lia. }
    assert (forall n x, (length (filter (dlt x) all) < n)%nat -> Acc (fun b a => dlt a b = true) x).
    { induction n as [|n IH]; intros x H; [lia|]. constructor. intros y Hy. apply IH.
      assert (length (filter (dlt y) all) < length (filter (dlt x) all))%nat; [|lia].
      apply (G2 _ _ _ y); auto; [|apply lt_irrefl_]. intros z Hz. eapply lt_trans_; eauto. }
    intros x. eapply H. apply Nat.lt_succ_diag_r.
  Qed.
End Finite.

Lemma F64_finite : exists all : list F64, forall x, In x all.
Proof.
  assert (G : forall n : nat, exists l : list Z, forall z, 0 <= z < Z.of_nat n -> In z l).
  { induction n as [|n [l IH]]; [exists []; lia|]. exists (Z.of_nat n :: l). intros z Hz.
    destruct (Z.eq_dec z (Z.of_nat n)); [left; auto|right; apply IH; lia]. }
  assert (G' : exists l : list Z, forall z, 0 <= z < 2 ^ 64 -> In z l).
  { destruct (G (Z.to_nat (2 ^ 64))) as (l & H). exists l. intros z Hz. apply H. rewrite Z2Nat.id by (clear; lia). exact Hz. }
  destruct G' as (l & H). exists (map Flocq.IEEE754.Bits.b64_of_bits l). intros x.
  rewrite <- (Flocq.IEEE754.Bits.binary_float_of_bits_of_binary_float 52 11 eq_refl eq_refl eq_refl x).
  apply (in_map Flocq.IEEE754.Bits.b64_of_bits). apply H.
  pose proof (Flocq.IEEE754.Bits.bits_of_binary_float_range 52 11 eq_refl eq_refl x) as B. exact B.
Qed.

Lemma F64_acc : forall x : F64, Acc (fun b a => dlt a b = true) x.
Proof. destruct F64_finite as (all & H). exact (finite_acc all H). Qed.

(** ** Monte-Carlo *)
Section Mc.
  Context {D : Type} {ops : DOps D} {G : Type}.
  Variable sample : D -> D -> G -> pose D * G.
  Variable score : pose D -> D.
  Variable obs : observers.
  Notation en := (gauss_enum sample).
  Notation runs := (runs en score obs).

  Lemma verdicts_app b l1 l2 : verdicts score b (l1 ++ l2) =
    verdicts score b l1 ++ verdicts score (fold_left (fun b p => if dlt b (score p) then score p else b) l1 b) l2.
  Proof. revert b. induction l1 as [|p l1 IH]; intros b; [reflexivity|]. cbn. now rewrite IH. Qed.
  Lemma mc_failures_snoc m vs v : mc_failures m (vs ++ [v]) =
    if v then (if mc_failures m vs <=? m / 3 then mc_failures m vs else 0) else mc_failures m vs + 1.
  Proof. unfold mc_failures. rewrite fold_left_app. reflexivity. Qed.
  Lemma mc_failures_nonneg m vs : 0 <= mc_failures m vs.
  Proof.
    induction vs as [|v vs IH] using rev_ind; [cbn; lia|]. rewrite mc_failures_snoc. destruct v; [|lia].
    destruct (_ <=? _); lia.
  Qed.

  Variables (mf mp : Z) (p0 : D).
  Hypothesis Hmf : 0 <= mf < 2 ^ 32.
  Hypothesis Hmp : 0 <= mp < 2 ^ 32.

  (** the counters describe the tests made so far *)
  Definition mc_inv (new : list (pose D)) (st : gauss D G * pose D * D * list (pose D) * list (Z * event D)) : Prop :=
    let '(e, best, prob, tested, out) := st in
    gs_max_failed e = mf /\ gs_max_poses e = mp /\
    gs_poses e = Z.of_nat (length new) /\ gs_failed e = mc_failures mf (verdicts score p0 new) /\
    prob = fold_left (fun b p => if dlt b (score p) then score p else b) new p0 /\
    gs_failed e <= mf /\ gs_poses e <= mp.

  Lemma mc_step new st : mc_inv new st -> e_has_next en (st_e st) = true ->
    exists p, mc_inv (new ++ [p]) (pe_step en score obs st) /\ st_tested (pe_step en score obs st) = st_tested st ++ [p].
  Proof.
    destruct st as [[[[e best] prob] tested] out]. cbn [mc_inv st_e st_tested].
    intros (H1 & H2 & H3 & H4 & H5 & H6 & H7) Hn. cbn [e_has_next gauss_enum] in Hn. unfold gauss_has_next in Hn.
    apply andb_true_iff in Hn. destruct Hn as [Hf Hp]. apply Z.ltb_lt in Hf, Hp.
    unfold pe_step. cbn [e_next e_feedback gauss_enum]. unfold gauss_next.
    destruct (sample (gs_tr e) (gs_rot e) (gs_gen e)) as [d g]. exists (pose_add best d).
    pose proof (mc_failures_nonneg mf (verdicts score p0 new)) as NN.
    assert (U1 : u32 (gs_poses e + 1) = gs_poses e + 1) by (unfold u32; apply Z.mod_small; lia).
    assert (U2 : u32 (gs_failed e + 1) = gs_failed e + 1) by (unfold u32; apply Z.mod_small; lia).
    assert (EV : verdicts score p0 (new ++ [pose_add best d]) = verdicts score p0 new ++ [dlt prob (score (pose_add best d))])
      by (rewrite verdicts_app, H5; reflexivity).
    assert (EP : fold_left (fun b p => if dlt b (score p) then score p else b) (new ++ [pose_add best d]) p0 =
      if dlt prob (score (pose_add best d)) then score (pose_add best d) else prob) by (rewrite fold_left_app, H5; reflexivity).
    destruct (dlt prob (score (pose_add best d))) eqn:Hlt; unfold gauss_feedback; cbn [negb gs_poses gs_failed gs_max_failed gs_max_poses gs_base_tr gs_base_rot gs_tr gs_rot gs_gen].
    - split; [|reflexivity]. rewrite H1. destruct (gs_failed e <=? mf / 3) eqn:E3;
        cbn [mc_inv gs_poses gs_failed gs_max_failed gs_max_poses]; rewrite app_length, EV, EP, mc_failures_snoc, U1; cbn [length];
        rewrite <- H4, E3; repeat split; try lia; auto.
    - split; [|reflexivity]. cbn [mc_inv gs_poses gs_failed gs_max_failed gs_max_poses].
      rewrite app_length, EV, EP, mc_failures_snoc, U1, U2; cbn [length]. repeat split; try lia; auto.
  Qed.

  Lemma mc_runs : forall k new st, mc_inv new st -> (Z.to_nat mp - length new <= k)%nat ->
    exists n st' more, runs st n st' /\ (n <= k)%nat /\ e_has_next en (st_e st') = false /\ st_tested st' = st_tested st ++ more /\
      length more = n /\ mc_inv (new ++ more) st' /\
      (forall a b, more = a ++ b -> b <> [] -> mc_failures mf (verdicts score p0 (new ++ a)) < mf /\ Z.of_nat (length (new ++ a)) < mp).
  Proof.
    induction k as [|k IH]; intros new st HI Hk; destruct (e_has_next en (st_e st)) eqn:Hn.
    - exfalso. destruct st as [[[[e best] prob] tested] out]. cbn in HI, Hn. unfold gauss_has_next in Hn.
      apply andb_true_iff in Hn. destruct Hn as [_ Hp]. apply Z.ltb_lt in Hp. lia.
    - exists 0%nat, st, []. rewrite !app_nil_r. split; [constructor|]. split; [lia|]. do 3 (split; [auto|]). split; [exact HI|].
      intros a b E N. symmetry in E. apply app_eq_nil in E. destruct E; contradiction.
    - destruct (mc_step new st HI Hn) as (p & HI' & HT).
      assert (B : mc_failures mf (verdicts score p0 new) < mf /\ Z.of_nat (length new) < mp).
      { destruct st as [[[[e best] prob] tested] out]. cbn in HI, Hn. unfold gauss_has_next in Hn.
        apply andb_true_iff in Hn. destruct Hn as [Hf Hp]. apply Z.ltb_lt in Hp, Hf. lia. }
      destruct (IH (new ++ [p]) _ HI') as (n & st' & more & HR & Hle & Hs & HT' & HL & HI'' & HP).
      { rewrite app_length. cbn. lia. }
      exists (S n), st', (p :: more). rewrite <- app_assoc in HI''.
      split; [constructor; auto|]. split; [lia|]. split; [exact Hs|]. split; [rewrite HT', HT, <- app_assoc; reflexivity|].
      split; [cbn; lia|]. split; [exact HI''|]. intros a b E N. destruct a as [|q a]; [rewrite app_nil_r; exact B|].
      cbn in E. injection E as <- E. specialize (HP a b E N). rewrite <- app_assoc in HP. exact HP.
    - exists 0%nat, st, []. rewrite !app_nil_r. split; [constructor|]. split; [lia|]. do 3 (split; [auto|]). split; [exact HI|].
      intros a b E N. symmetry in E. apply app_eq_nil in E. destruct E; contradiction.
  Qed.

  (** consecutive failures *)
  Lemma mc_failures_run m vs k : Z.of_nat k <= mc_failures m (vs ++ repeat false k).
  Proof.
    induction k as [|k IH]; [cbn; rewrite app_nil_r; apply mc_failures_nonneg|].
    replace (repeat false (S k)) with (repeat false k ++ [false]) by (rewrite <- repeat_cons; reflexivity).
    rewrite app_assoc, mc_failures_snoc. lia.
  Qed.
End Mc.

Section McDrawn.
  Context {D : Type} {ops : DOps D} {G : Type}.
  Variable sample : D -> D -> G -> pose D * G.
  Variable score : pose D -> D.
  Variable obs : observers.
  Variables (mf : Z) (tr rot : D) (init : pose D).
  Hypothesis Hmf : 0 <= mf < 2 ^ 32.
  Notation en := (gauss_enum sample).

  Lemma best_of_snoc b l p : best_of score b (l ++ [p]) =
    if dlt (score (best_of score b l)) (score p) then p else best_of score b l.
  Proof. revert b. induction l as [|q l IH]; intros b; [reflexivity|]. cbn. apply IH. Qed.
  Lemma best_of_fold b l : score (best_of score b l) =
    fold_left (fun b p => if dlt b (score p) then score p else b) l (score b).
  Proof. revert b. induction l as [|q l IH]; intros b; [reflexivity|]. cbn. rewrite IH. destruct (dlt _ _); reflexivity. Qed.
  Lemma mc_halvings_snoc vs v : forall f, mc_halvings mf f (vs ++ [v]) =
    (mc_halvings mf f vs + if v then (if Z.leb (fold_left (fun (n : Z) (ok : bool) => if ok then (if Z.leb n (mf / 3) then n else 0) else n + 1)%Z vs f) (mf / 3)%Z then 0 else 1) else 0)%nat.
  Proof.
    induction vs as [|w vs IH]; intros f.
    - cbn. destruct v; [|reflexivity]. destruct (f <=? mf / 3); reflexivity.
    - cbn [app mc_halvings fold_left]. destruct w; [|apply IH]. destruct (f <=? mf / 3); [apply IH|]. rewrite IH. reflexivity.
  Qed.

  Definition drawn_inv (new : list (pose D)) (st : gauss D G * pose D * D * list (pose D) * list (Z * event D)) : Prop :=
    let '(e, best, prob, tested, out) := st in
    let k := mc_halvings mf 0 (verdicts score (score init) new) in
    gs_max_failed e = mf /\ gs_failed e = mc_failures mf (verdicts score (score init) new) /\
    best = best_of score init new /\ prob = score best /\
    gs_tr e = halved k tr /\ gs_rot e = halved k rot.
  Definition st_gen (st : gauss D G * pose D * D * list (pose D) * list (Z * event D)) : G := gs_gen (st_e st).

  Lemma drawn_runs n st st' : runs en score obs st n st' -> forall new, drawn_inv new st ->
    exists more, st_tested st' = st_tested st ++ more /\ drawn sample score mf tr rot init (st_gen st) new more.
  Proof.
    induction 1 as [st|st n st' Hn HR IH]; intros new HI.
    - exists []. split; [symmetry; apply app_nil_r|exact I].
    - destruct st as [[[[e best] prob] tested] out]. cbn [st_e] in Hn. cbn [e_has_next gauss_enum] in Hn.
      unfold gauss_has_next in Hn. apply andb_true_iff in Hn. destruct Hn as [Hf _]. apply Z.ltb_lt in Hf.
      cbn [drawn_inv] in HI. destruct HI as (H1 & H2 & H3 & H4 & H5 & H6).
      unfold pe_step in *. cbn [e_next e_feedback gauss_enum] in *. unfold gauss_next in *.
      destruct (sample (gs_tr e) (gs_rot e) (gs_gen e)) as [d g] eqn:ES.
      set (p := pose_add best d) in *.
      assert (EV : verdicts score (score init) (new ++ [p]) = verdicts score (score init) new ++ [dlt prob (score p)])
        by (rewrite verdicts_app, <- best_of_fold, <- H3, <- H4; reflexivity).
      pose proof (mc_failures_nonneg mf (verdicts score (score init) new)) as NN.
      assert (U2 : u32 (gs_failed e + 1) = gs_failed e + 1) by (unfold u32; apply Z.mod_small; lia).
      destruct (IH (new ++ [p])) as (more & HT & HD).
      + destruct (dlt prob (score p)) eqn:Hlt; unfold gauss_feedback;
          cbn [negb gs_poses gs_failed gs_max_failed gs_max_poses gs_base_tr gs_base_rot gs_tr gs_rot gs_gen].
        * rewrite H1. destruct (gs_failed e <=? mf / 3) eqn:E3;
            cbn [drawn_inv gs_poses gs_failed gs_max_failed gs_max_poses gs_base_tr gs_base_rot gs_tr gs_rot gs_gen];
            rewrite EV, mc_failures_snoc, mc_halvings_snoc, best_of_snoc, <- H3, <- H4, Hlt;
            fold (mc_failures mf (verdicts score (score init) new)); rewrite <- H2, E3.
          -- rewrite Nat.add_0_r. auto 8.
          -- rewrite Nat.add_1_r. cbn [halved Nat.iter]. unfold halved in H5, H6. rewrite H5, H6.
             repeat split; auto.
        * cbn [drawn_inv gs_poses gs_failed gs_max_failed gs_max_poses gs_base_tr gs_base_rot gs_tr gs_rot gs_gen].
          rewrite EV, mc_failures_snoc, mc_halvings_snoc, best_of_snoc, <- H3, <- H4, Hlt, Nat.add_0_r, U2, <- H2. auto 8.
      + exists (p :: more). split.
        * rewrite HT. destruct (dlt prob (score p)); cbn [st_tested]; rewrite <- app_assoc; reflexivity.
        * cbn [drawn]. change (st_gen (e, best, prob, tested, out)) with (gs_gen e). cbv zeta. rewrite <- H5, <- H6, ES. cbn [fst snd]. split; [rewrite <- H3; reflexivity|].
          match type of HD with drawn _ _ _ _ _ _ ?x _ _ => assert (EG : x = g) end; [|rewrite <- EG; exact HD].
          unfold st_gen. destruct (dlt prob (score p)); cbn [st_e]; unfold gauss_feedback; cbn [negb gs_failed gs_max_failed];
            [destruct (_ <=? _)|]; reflexivity.
  Qed.
End McDrawn.
