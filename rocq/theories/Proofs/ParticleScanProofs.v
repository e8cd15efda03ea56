(** What a GMapping particle does with a scan. *)
From Coq Require Import Reals ZArith List Lia Lra Bool.
From Verif.Base Require Import Outcome Num OrdLaws.
From Verif.Model Require Import MathUtils Geometry Sensor Histogram World ParticleFilter Gmapping.
From Verif.Spec Require Import WorldSpec ParticleSpec ParticleScanSpec.
From Verif.Proofs Require Import HistProofs ParticleProofs WorldProofs ResampleProofs.
Import ListNotations.
Local Open Scope R_scope.

Section Scan.
  Context {D : Type} {ops : DOps D} {S M SM G RV : Type} (rv_sample : RV -> G -> pose D * RV * G) (rv_copy : RV -> RV) (rv_zero : RV)
    (sm : SM -> S -> pose D -> M -> outcome (D * pose D * SM)) (adder : M -> pose D -> S -> D -> D -> outcome M).
  Local Notation gp := (gparticle D G RV).
  Local Notation wsm := (watch_sm sm).
  Local Notation wad := (watch_adder adder).
  Lemma skips_short (x : gp) : gp_skips x = true <-> short_way x.
  Proof. unfold gp_skips, short_way, squared_length, delta_sq_dist. rewrite andb_true_iff. reflexivity. Qed.
  Lemma observe_watch m l k cs x s maps' k' cs' y : gp_map x = 0%nat ->
    gp_observe rv_sample wsm wad [(m, l)] (k, cs) x s = Ok (maps', (k', cs'), y) ->
    exists a us m', uses rv_sample x a (gp_weight y) (gp_pose y) /\ adds s x a us /\ goes_on rv_sample x a us y /\ cs' = cs ++ calls [a] /\ maps' = [(m', l ++ us)] /\ gp_map y = 0%nat /\ gp_master y = gp_master x.
  Proof.
    intros Em. unfold gp_observe. destruct (gp_skips x) eqn:Sk.
    - intros E. injection E as <- <- <- <-. exists None, [], m. cbn. rewrite !app_nil_r. apply skips_short in Sk. split; [auto|]. split; [auto|]. split; [unfold goes_on; auto|auto].
    - assert (NS : ~ short_way x) by (rewrite <- skips_short; congruence). clear Sk. cbv zeta. unfold uses, guess_of.
      set (x1 := if gp_first x then x else _). intros E.
      assert (P1 : gp_pose x1 = guess_of rv_sample x /\ gp_map x1 = 0%nat /\ gp_weight x1 = gp_weight x /\ gp_first x1 = gp_first x /\ gp_master x1 = gp_master x /\ gp_lim x1 = gp_lim x).
      { unfold x1, guess_of. destruct (gp_first x) eqn:Q; [auto 8|]. destruct (rv_sample (gp_guess x) (gp_engine x)) as [[n gu] g]. cbn. rewrite Em. auto 8. }
      destruct P1 as (P1 & P2 & P3 & P4 & P5 & P6). clearbody x1. rewrite P2 in E. cbn [nth_error] in E. unfold watch_sm in E. cbn [fst snd] in E.
      apply bind_Ok_inv in E as ([[prob d] [k1 cs1]] & E1 & E). apply bind_Ok_inv in E1 as ([[sc co] k2] & Es & E1). injection E1 as <- <- <- <-. cbv zeta in E.
      apply bind_Ok_inv in E as ([maps1 p1] & E2 & E).
      unfold gp_reset_sm_delta, gp_set_weight in E. cbn in E. assert (L1 : gp_lim p1 = gp_lim x) by (destruct (_ || _)%bool in E2; [apply bind_Ok_inv in E2 as (? & _ & E2)|]; injection E2 as _ <-; exact P6).
      rewrite L1 in E. set (g1 := gp_engine p1) in E. assert (NX : exists g, fst (fst (rv_sample (gp_lim x) g1)) = fst (fst (rv_sample (gp_lim x) g))) by (exists g1; reflexivity).
      destruct (rv_sample (gp_lim x) g1) as [[nx lm] g] in E, NX. cbn [fst] in NX. injection E as <- <- <- <-.
      unfold guess_of in P1. destruct (_ || _)%bool eqn:Q in E2.
      + apply bind_Ok_inv in E2 as (m1 & Ea & E2). injection E2 as <- <-. unfold watch_adder in Ea. apply bind_Ok_inv in Ea as (m2 & _ & Ea). injection Ea as <-.
        exists (Some (mkCall (guess_of rv_sample x) sc co)), [mkUp (pose_add (guess_of rv_sample x) co) (ts_scan s) (ts_quality s) (dofZ 0)], m2. cbn [gp_weight gp_pose gp_move gp_map gp_first gp_master c_start c_score c_corr calls flat_map app fst snd].
        unfold guess_of. rewrite P1, P2, P3. split; [auto|]. split; [|split; [unfold goes_on; cbn; auto|auto]]. split; [auto|]. intros A B. exfalso. apply orb_true_iff in Q as [Q|Q]; [cbn [c_score] in A; congruence|].
        cbn [gp_move gp_first] in Q. congruence.
      + injection E2 as <- <-. exists (Some (mkCall (guess_of rv_sample x) sc co)), [], m. cbn [gp_weight gp_pose gp_move gp_map gp_first gp_master c_start c_score c_corr calls flat_map app fst snd].
        unfold guess_of. rewrite P1, P2, P3, app_nil_r. split; [auto|]. split; [|split; [unfold goes_on; cbn; auto|auto]]. split; [|auto]. intros A. exfalso. apply orb_false_iff in Q as [Q1 Q2]. cbn [gp_move gp_first] in Q2.
        destruct A as [A|A]; [|congruence]. cbn [c_score] in A. congruence.
  Qed.
  Lemma each_watch s ptrs : forall m l k cs h xs maps' k' cs' h', refs h ptrs xs -> NoDup ptrs -> Forall (fun x => gp_map x = 0%nat) xs ->
    gf_observe_each rv_sample wsm wad [(m, l)] (k, cs) h ptrs s = Ok (maps', (k', cs'), h') ->
    exists ans us ys m', scan_all rv_sample s xs ans us ys /\ cs' = cs ++ calls ans /\ maps' = [(m', l ++ us)] /\ refs h' ptrs ys /\ (forall q, ~ In q ptrs -> nth_error h' q = nth_error h q).
  Proof.
    induction ptrs as [|p ptrs IH]; intros m l k cs h xs maps' k' cs' h' F ND FM E; cbn [gf_observe_each] in E.
    - injection E as <- <- <- <-. inversion F; subst. exists [], [], [], m. cbn. rewrite !app_nil_r. split; [constructor|]. split; [reflexivity|]. split; [reflexivity|]. split; [constructor|auto].
    - inversion F as [|? x ? xs' N F']; subst. unfold deref in E. rewrite N in E. cbn [bind] in E. inversion ND as [|? ? Hn ND']; subst. inversion FM; subst.
      apply bind_Ok_inv in E as ([[maps1 [k1 cs1]] x1] & E1 & E). apply observe_watch in E1 as (a & us & m1 & U & A & GO & -> & -> & _ & _); [|assumption].
      assert (B : (p < length h)%nat) by (apply nth_error_Some; congruence).
      destruct (IH _ _ _ _ _ xs' _ _ _ _ (refs_upd_other h ptrs xs' p (fun _ => x1) F' Hn B) ND' ltac:(assumption) E) as (ans & vs & ys & m2 & SA & -> & -> & R & O).
      exists (a :: ans), (us ++ vs), (x1 :: ys), m2. split; [now constructor|]. split; [|split; [now rewrite app_assoc|]].
      + unfold calls. cbn [flat_map]. rewrite app_nil_r. now rewrite <- app_assoc.
      + split; [constructor; [|exact R]|].
        * rewrite O by exact Hn. rewrite upd_nth, Nat.eqb_refl, N by exact B. reflexivity.
        * intros q Hq. rewrite O by (intros H; apply Hq; now right). rewrite upd_nth by exact B.
          destruct (Nat.eqb_spec q p) as [->|]; [elim Hq; now left|reflexivity].
  Qed.
  Lemma scan_all_length (s : tr_scan D S) xs ans us ys : scan_all rv_sample s xs ans us ys -> length ys = length xs.
  Proof. induction 1; cbn; congruence. Qed.
End Scan.

(** the whole step, from the run of the filter *)
Section Step.
  Context {D : Type} {ops : DOps D} {S M SM G RV : Type} (dcos dsin : D -> D) (rv_sample : RV -> G -> pose D * RV * G) (rv_copy : RV -> RV) (rv_zero : RV)
    (sm : SM -> S -> pose D -> M -> outcome (D * pose D * SM)) (adder : M -> pose D -> S -> D -> D -> outcome M).
  Local Notation run := (gf_run dcos dsin rv_sample rv_copy rv_zero sm adder).
  Lemma run_maps mp h : forall o f o' f' ns, gf_inv mp f -> run o f h = Ok (o', f', ns) -> length (gf_maps f') = length (gf_maps f).
  Proof.
    unfold gf_run. induction h as [|[id|id|id|s] h IH]; intros o f o' f' ns I E; cbn [world_run] in E.
    - now injection E as <- <- <-.
    - eauto.
    - eauto.
    - eauto.
    - apply bind_Ok_inv in E as ([w n] & E1 & E). apply bind_Ok_inv in E as ([[o1 w1] n1] & E2 & E). injection E as <- <- <-.
      unfold handle_sensor_data in E1. apply bind_Ok_inv in E1 as (w2 & E3 & E1).
      destruct (gf_update_inv dcos dsin mp f (ts_delta s) I) as (w2' & E3' & I2). rewrite E3 in E3'. injection E3' as <-.
      apply bind_Ok_inv in E1 as (w3 & E4 & E1). assert (E4' := E4). apply gf_observe_inv with (mp := mp) in E4'; [|exact I2].
      apply bind_Ok_inv in E1 as (pp & _ & E1). apply bind_Ok_inv in E1 as (mm & _ & E1). injection E1 as <- <-.
      rewrite (IH _ _ _ _ _ E4' E2). destruct I2 as (xs & R & ND & _).
      assert (L2 : length (gf_maps w2) = length (gf_maps f)) by (unfold gf_update in E3; apply bind_Ok_inv in E3 as (hh & _ & E3); injection E3 as <-; reflexivity).
      unfold gf_observe in E4. apply bind_Ok_inv in E4 as ([[maps k] hh] & E5 & E4). apply gf_observe_each_spec with (xs := xs) in E5 as (L & _); [|exact R|exact ND].
      apply bind_Ok_inv in E4 as (p & _ & E4). rewrite <- L2, <- L. unfold gf_try_resample in E4. destruct (_ && _)%bool in E4; [injection E4 as <-; reflexivity|].
      apply bind_Ok_inv in E4 as ([p1 b] & _ & E4). destruct b; cbn [negb] in E4; [|injection E4 as <-; reflexivity].
      apply bind_Ok_inv in E4 as (p2 & _ & E4). injection E4 as <-. reflexivity.
  Qed.
End Step.
Section Step2.
  Context {D : Type} {ops : DOps D} {S M SM G RV : Type} (dcos dsin : D -> D) (rv_sample : RV -> G -> pose D * RV * G) (rv_copy : RV -> RV) (rv_zero : RV)
    (sm : SM -> S -> pose D -> M -> outcome (D * pose D * SM)) (adder : M -> pose D -> S -> D -> D -> outcome M).
  Local Notation run := (gf_run dcos dsin rv_sample rv_copy rv_zero (watch_sm sm) (watch_adder adder)).
  Local Notation ptrs f := (pf_ptrs (gf_pf f)).
  Definition share (vs : list D) (v : D) : D := ddiv v (sum_in_order vs).
  Lemma total_sum (ws : list D) : forall acc, total_weight ws acc = fold_left dadd ws acc.
  Proof. induction ws; intros; cbn; auto. Qed.
  Lemma scan_step o f s o' f' ns m l k cs xs : gf_inv 0 f -> gf_maps f = [(m, l)] -> gf_sm f = (k, cs) -> refs (pf_heap (gf_pf f)) (ptrs f) xs ->
    run o f [EScan s] = Ok (o', f', ns) ->
    let s1 := mkTS (ts_delta s) (fst (ts_scan s)) (ts_quality s) in
    exists ans us ys p m' k', scan_all rv_sample s1 (map (gp_update_robot_pose dcos dsin (ts_delta s)) xs) ans us ys /\
      gf_sm f' = (k', cs ++ calls ans) /\ gf_maps f' = [(m', l ++ us)] /\
      pf_ptrs p = ptrs f /\ refs (pf_heap p) (pf_ptrs p) (map (fun y => gp_set_weight (share (map gp_weight ys) (gp_weight y)) y) ys) /\
      (gf_pf f' = p \/ exists p', pf_try_resample gp_weight gp_set_weight (gp_duplicate rv_copy) p (snd (ts_scan s)) = Ok (p', true) /\ ptrs f' = pf_ptrs p').
  Proof.
    intros I Em Ek R E. cbv zeta. unfold gf_run in E. cbn [world_run] in E. apply bind_Ok_inv in E as ([w n] & E & E'). injection E' as _ <- _. unfold handle_sensor_data in E.
    apply bind_Ok_inv in E as (f1 & E1 & E). apply bind_Ok_inv in E as (f2 & E2 & E). apply bind_Ok_inv in E as (q & _ & E). apply bind_Ok_inv in E as (mm & _ & E). injection E as <- _.
    destruct I as (xs0 & R0 & ND & NE & _ & HM & HL). assert (X : xs0 = xs) by (apply objects_refs in R0; apply objects_refs in R; congruence). subst xs0.
    unfold gf_update in E1. destruct (gf_each_spec (gp_update_robot_pose dcos dsin (ts_delta s)) _ _ _ R ND) as (h1 & Eh & R1 & _). rewrite Eh in E1. cbn [bind] in E1. injection E1 as <-.
    unfold gf_observe in E2. cbn [gf_trav gf_pf gf_maps gf_sm pf_ptrs pf_heap] in E2. rewrite Em, Ek in E2.
    apply bind_Ok_inv in E2 as ([[maps [k' cs']] h] & E3 & E2).
    apply each_watch with (xs := map (gp_update_robot_pose dcos dsin (ts_delta s)) xs) in E3 as (ans & us & ys & m' & SA & -> & -> & R2 & _); [|exact R1|exact ND|].
    2: { apply Forall_map. eapply Forall_impl; [|exact HM]. now intros. }
    destruct (normalize_spec gp_weight gp_set_weight (mkPF h (ptrs f)) ys R2 ND) as (p & En & Ep & _ & R3). rewrite En in E2. cbn [bind pf_ptrs] in E2, Ep.
    rewrite total_sum in R3. fold (sum_in_order (map gp_weight ys)) in R3.
    assert (QQ : exists g, gf_sm f2 = (k', cs ++ calls ans) /\ gf_maps f2 = [(m', l ++ us)] /\ (gf_pf f2 = p \/ pf_try_resample gp_weight gp_set_weight (gp_duplicate rv_copy) p (snd (ts_scan s)) = Ok (g, true) /\ ptrs f2 = pf_ptrs g)).
    { unfold gf_try_resample in E2. cbn [gf_trav gf_pf gf_maps gf_sm] in E2. destruct (_ && _)%bool in E2; [injection E2 as <-; exists p; auto|].
      apply bind_Ok_inv in E2 as ([p1 b] & Er & E2). destruct b; cbn [negb] in E2.
      - apply bind_Ok_inv in E2 as (p2 & Ee & E2). injection E2 as <-. exists p1. cbn [gf_sm gf_maps gf_pf]. split; [reflexivity|]. split; [reflexivity|]. right. split; [exact Er|].
        unfold gf_ensure_master in Ee. apply bind_Ok_inv in Ee as (zs & _ & Ee). destruct (existsb _ _); [injection Ee as <-; reflexivity|]. apply bind_Ok_inv in Ee as (kk & _ & Ee). injection Ee as <-. reflexivity.
      - injection E2 as <-. exists p1. cbn [gf_sm gf_maps gf_pf]. split; [reflexivity|]. split; [reflexivity|]. left.
        unfold pf_try_resample in Er. apply bind_Ok_inv in Er as (zs & _ & Er). destruct (negb _); [injection Er as <-; reflexivity|].
        apply bind_Ok_inv in Er as ([h3 qq] & _ & Er). apply bind_Ok_inv in Er as (f3 & _ & Er). discriminate Er. }
    destruct QQ as (g & K1 & K2 & K3). exists ans, us, ys, p, m', k'. split; [exact SA|]. split; [exact K1|]. split; [exact K2|]. split; [exact Ep|]. split; [exact R3|].
    destruct K3 as [K3|K3]; [left; exact K3|right; exists g; exact K3].
  Qed.
End Step2.
