(** C99: the frame alignment of the hill climber. *)
From Coq Require Import Reals ZArith List Lia Lra Bool.
From Verif.Base Require Import Outcome Num.
From Verif.Model Require Import MathUtils Geometry Sensor Matchers Histogram HcAlign.
From Verif.Spec Require Import CellSpec MatchSpec DirectionSpec.
From Verif.Proofs Require Import HistProofs AlignProofs.
From Verif.Props Require Import MatcherProps.
Import ListNotations.
Local Open Scope R_scope.
Local Open Scope outcome_scope.

(** exact reals: for every scan with an edge the direction the code asks for is the mean direction of the fullest of
    twenty sectors ([heads], [dominating] in Spec/DirectionSpec.v; a direction is unique, C51) *)
Theorem C99_dominating_direction_is_found :
  forall (p q : scan_point R) (pts : list (scan_point R)),
  exists h angles phi, hist_reset cos sin acos PI 20 (p :: q :: pts) = Ok h /\ major_direction h = Ok phi /\
    Forall2 heads (edges p (q :: pts)) angles /\ dominating 20 angles phi.
Proof.
  intros p q pts. destruct (major_direction_dominates 20 p q pts ltac:(lia)) as (h & phi & E1 & E2 & Hd).
  exists h, (map edge_angle (edges p (q :: pts))), phi. split; [exact E1|]. split; [exact E2|]. split; [|exact Hd].
  clear. generalize (edges p (q :: pts)). intros l. induction l as [|[a b] l IH]; cbn [map]; constructor; [apply ox_angle_heads|exact IH].
Qed.
Print Assumptions C99_dominating_direction_is_found.

(** a matcher used for a sequence of scans: each call has its score (scan and map), observers, points and initial pose *)
Section Calls.
  Context {D : Type} {ops : DOps D}.
  Variables (dcos dsin dacos : D -> D) (mpi : D) (fuel : nat).
  Fixpoint hc_calls (m : hc_matcher D) (calls : list ((pose D -> D) * observers * list (scan_point D) * pose D))
      : outcome (list (match_result D (frl D))) :=
    match calls with
    | [] => Ok []
    | (score, obs, pts, init) :: calls =>
        '(r, m) <- hc_process dcos dsin dacos mpi score obs fuel m pts init ;;
        rs <- hc_calls m calls ;;
        Ok (r :: rs)
    end.
End Calls.

Section Same.
  Context {D : Type} {ops : DOps D}.
  Variables (dcos dsin dacos : D -> D) (mpi : D) (fuel : nat) (max : Z) (tr rot : D).
  Definition fits (e : frl D) : Prop := fr_max e = max /\ fr_base_tr e = tr /\ fr_base_rot e = rot.
  Definition fits_m (al : bool) (m : hc_matcher D) : Prop :=
    hc_max m = max /\ hc_tr m = tr /\ hc_rot m = rot /\ hc_align m = al /\ fits (hc_pe m).
  Lemma loop_fits (score : pose D -> D) obs : forall fuel e b pr t o e' b' pr' t' o', fits e ->
    pe_loop frl_enum score obs fuel e b pr t o = Ok (e', b', pr', t', o') -> fits e'.
  Proof.
    induction fuel0 as [|fu IH]; intros e b pr t o e' b' pr' t' o' F H; cbn [pe_loop] in H.
    - destruct (e_has_next frl_enum e); [discriminate|injection H as <- <- <- <- <-; exact F].
    - destruct (e_has_next frl_enum e); [|injection H as <- <- <- <- <-; exact F].
      destruct (e_next frl_enum e b) as [p e1] eqn:En.
      assert (F1 : forall ok, fits (e_feedback frl_enum e1 ok)).
      { intros ok. cbn [e_next e_feedback frl_enum] in *. unfold frl_next in En. destruct F as (A & B & C).
        destruct (d1_has_next (fr_round e)); destruct (d1_next _ b) as [p1 r1]; injection En as <- <-;
          unfold fits, frl_feedback; cbn; auto. }
      destruct (dlt pr (score p)); eapply IH; try exact H; apply F1.
  Qed.
  Lemma process_same (score : pose D -> D) obs e1 e2 init : fits e1 -> fits e2 ->
    process_scan frl_enum score obs fuel e1 init = process_scan frl_enum score obs fuel e2 init.
  Proof.
    intros (A & B & C) (A' & B' & C'). unfold process_scan. cbn [e_reset frl_enum]. unfold frl_reset. rewrite A, B, C, A', B', C'. reflexivity.
  Qed.
  Lemma process_fits (score : pose D -> D) obs e init r : fits e -> process_scan frl_enum score obs fuel e init = Ok r -> fits (mr_enum r).
  Proof.
    intros F H. unfold process_scan in H. cbv zeta in H. apply bind_Ok_inv in H as ([[[[e' b'] p'] t'] o'] & HL & H).
    injection H as <-. cbn [mr_enum]. eapply loop_fits; [|exact HL]. destruct F as (A & B & C). cbn. unfold fits. cbn. auto.
  Qed.
  Lemma frl_new_fits : fits (frl_new max tr rot).
  Proof. unfold fits. cbn. auto. Qed.
  Lemma prepare_fits al m pts m' : fits_m al m -> hc_prepare dcos dsin dacos mpi m pts = Ok m' -> fits_m al m'.
  Proof.
    intros (A & B & C & E & F) H. unfold hc_prepare in H. destruct (hc_align m) eqn:Al.
    - apply bind_Ok_inv in H as (h & _ & H). apply bind_Ok_inv in H as (phi & _ & H). injection H as <-.
      unfold fits_m. cbn [hc_max hc_tr hc_rot hc_align hc_pe]. rewrite A, B, C. repeat (split; [first [reflexivity|assumption]|]). apply frl_new_fits.
    - injection H as <-. unfold fits_m. rewrite Al. auto.
  Qed.
  Lemma calls_same calls : forall m1 m2 rs, fits_m true m1 -> fits_m false m2 ->
    hc_calls dcos dsin dacos mpi fuel m1 calls = Ok rs -> hc_calls dcos dsin dacos mpi fuel m2 calls = Ok rs.
  Proof.
    induction calls as [|[[[score obs] pts] init] calls IH]; intros m1 m2 rs F1 F2 H; cbn [hc_calls] in *; [exact H|].
    apply bind_Ok_inv in H as ([r m1'] & HP & H). apply bind_Ok_inv in H as (rs' & HR & H). injection H as <-.
    unfold hc_process in HP. apply bind_Ok_inv in HP as (m0 & P0 & HP). apply bind_Ok_inv in HP as (r' & PS & HP). injection HP as <- <-.
    assert (F0 := prepare_fits true m1 pts m0 F1 P0).
    unfold hc_process, hc_prepare. destruct F2 as (A2 & B2 & C2 & E2 & G2). rewrite E2. cbn [bind].
    destruct F0 as (A0 & B0 & C0 & E0 & G0). rewrite (process_same score obs (hc_pe m2) (hc_pe m0) init G2 G0), PS. cbn [bind].
    assert (G := process_fits score obs _ init r' G0 PS).
    rewrite E2. erewrite IH; [reflexivity| | |exact HR]; unfold fits_m; cbn [hc_max hc_tr hc_rot hc_align hc_pe]; auto.
  Qed.
End Same.

(** in any arithmetic, for every sequence of scans, maps, scores, observers and initial poses: whatever a matcher with
    alignment answers (corrections, probabilities, every tested pose, every announcement), the same matcher without
    alignment answers too *)
Theorem C99_alignment_changes_no_answer_refuted :
  forall (D : Type) (ops : DOps D) (dcos dsin dacos : D -> D) (mpi : D) (fuel : nat) (max : Z) (tr rot : D) calls rs,
  hc_calls dcos dsin dacos mpi fuel (hc_new max tr rot true) calls = Ok rs ->
  hc_calls dcos dsin dacos mpi fuel (hc_new max tr rot false) calls = Ok rs.
Proof.
  intros D ops dcos dsin dacos mpi fuel max tr rot calls rs. apply (calls_same dcos dsin dacos mpi fuel max tr rot); unfold fits_m, hc_new; cbn.
  - repeat (split; [reflexivity|]). apply frl_new_fits.
  - repeat (split; [reflexivity|]). apply frl_new_fits.
Qed.
Print Assumptions C99_alignment_changes_no_answer_refuted.

Lemma hc_process_R (score : pose R -> R) obs fuel max tr rot al pts init r m' :
  hc_process cos sin acos PI score obs fuel (hc_new max tr rot al) pts init = Ok (r, m') ->
  process_scan frl_enum score obs fuel (frl_new max tr rot) init = Ok r.
Proof.
  intros H. unfold hc_process in H. apply bind_Ok_inv in H as (m0 & P0 & H). apply bind_Ok_inv in H as (r' & PS & H). injection H as <- _.
  destruct (prepare_fits cos sin acos PI max tr rot al (hc_new max tr rot al) pts m0) as (A0 & B0 & C0 & E0 & G0); [|exact P0|].
  - unfold fits_m. cbn. repeat (split; [reflexivity|]). apply frl_new_fits.
  - rewrite (process_same fuel max tr rot score obs (frl_new max tr rot) (hc_pe m0) init (frl_new_fits _ _ _) G0). exact PS.
Qed.

(** in particular a scan of one wall at 45 degrees is not matched along and across the wall: whatever the map, the score,
    the step and the initial pose *)
Theorem C99_wall_at_45_degrees_refuted :
  exists p q s : scan_point R,
    (forall a angles, heads (p, q) a -> Forall2 heads (edges p [q; s]) angles -> a = PI / 4 /\ dominating 20 angles (PI / 4)) /\
    (exists h, hist_reset cos sin acos PI 20 [p; q; s] = Ok h /\ major_direction h = Ok (PI / 4)) /\
    forall score obs fuel (max : nat) tr rot init r m', (0 < Z.of_nat max < 2 ^ 32)%Z -> tr <> 0 ->
      hc_process cos sin acos PI score obs fuel (hc_new (Z.of_nat max) tr rot true) [p; q; s] init = Ok (r, m') ->
      ~ exists rest, mr_tested r = init :: rest /\ climb score (turned_moves (PI / 4) tr rot) max 0 init rest.
Proof.
  exists (mkSP false 0 0 1 true), (mkSP false 1 1 1 true), (mkSP false 2 2 1 true).
  set (p := mkSP false 0 0 1 true). set (q := mkSP false 1 1 1 true). set (s := mkSP false 2 2 1 true).
  assert (P := PI_RGT_0). assert (S2 := sqrt2_neq_0).
  assert (HH : forall e, e = (p, q) \/ e = (q, s) -> heads e (PI / 4)).
  { intros e He. assert (X : at_x (snd e) - at_x (fst e) = 1 /\ at_y (snd e) - at_y (fst e) = 1).
    { destruct He as [-> | ->]; unfold at_x, at_y; cbn; lra. }
    destruct X as [X Y]. unfold heads. rewrite X, Y. cbv zeta. split; [lra|]. split; [|intros []; lra].
    exists (sqrt 2). rewrite cos_PI4, sin_PI4. split; field; exact S2. }
  assert (A : forall angles, Forall2 heads (edges p [q; s]) angles -> angles = [PI / 4; PI / 4]).
  { intros angles F. cbn [edges] in F. inversion F as [|e1 a1 l1 t1 H1 F1]; subst. inversion F1 as [|e2 a2 l2 t2 H2 F2]; subst. inversion F2; subst.
    rewrite (heads_unique _ _ _ H1 (HH _ (or_introl eq_refl))), (heads_unique _ _ _ H2 (HH _ (or_intror eq_refl))). reflexivity. }
  destruct (C99_dominating_direction_is_found p q [s]) as (h & angles & phi & E1 & E2 & F & Hd).
  assert (Dom : dominating 20 [PI / 4; PI / 4] (PI / 4) /\ phi = PI / 4).
  { rewrite (A _ F) in Hd. destruct Hd as (i & Hi & NE & LE & LT & Ephi).
    assert (C : column 20 i [PI / 4; PI / 4] = [PI / 4; PI / 4]).
    { unfold column in *. cbn [filter] in *. destruct (_ && _)%bool; [reflexivity|contradiction]. }
    assert (M : Rmean (column 20 i [PI / 4; PI / 4]) = PI / 4) by (rewrite C; unfold Rmean, Rsum; cbn; field).
    split; [|rewrite Ephi; exact M]. exists i. split; [exact Hi|]. split; [exact NE|]. split; [exact LE|]. split; [exact LT|]. symmetry. exact M. }
  destruct Dom as [Dom ->]. split; [|split].
  - intros a angles' Ha F'. rewrite (A _ F'). split; [|exact Dom]. exact (heads_unique _ _ _ Ha (HH _ (or_introl eq_refl))).
  - exists h. auto.
  - intros score obs fuel max tr rot init r m' Hm Ht H (rest & HT & HC). apply hc_process_R in H.
    destruct (C26_round_structure score obs max tr rot (frl_new (Z.of_nat max) tr rot) init fuel r Hm eq_refl eq_refl eq_refl H) as (rest' & HT' & HC').
    assert (rest' = rest) by congruence. subst rest'.
    assert (G : forall nb f b l, climb score nb max f b l -> (f < max)%nat -> exists l', l = nb f b ++ l').
    { intros nb f b l X Hf. destruct X as [b x X|f b l Hf' X]; [lia|eauto]. }
    destruct (G _ _ _ _ HC ltac:(lia)) as (l1 & L1). destruct (G _ _ _ _ HC' ltac:(lia)) as (l2 & L2). rewrite L1 in L2.
    unfold turned_moves, halved_moves in L2. cbn [app] in L2. injection L2 as X Y _ _ _ _ _ _ _.
    rewrite sin_PI4 in Y. cbn [pow] in Y. assert (0 < / sqrt 2) by (apply Rinv_0_lt_compat, sqrt_lt_R0; lra).
    assert (Z0 : tr * / sqrt 2 = 0) by (unfold Rdiv in Y; rewrite Rinv_1, Rmult_1_r, Rmult_1_l in Y; lra).
    apply Rmult_integral in Z0. lra.
Qed.
Print Assumptions C99_wall_at_45_degrees_refuted.

(** what holds: if the dominating direction is that of the x axis, the steps are along and across it *)
Theorem C99_axis_parallel_scans_partial :
  forall (p q : scan_point R) pts angles score obs fuel (max : nat) tr rot init r m',
  (0 < Z.of_nat max < 2 ^ 32)%Z -> Forall2 heads (edges p (q :: pts)) angles -> dominating 20 angles 0 ->
  hc_process cos sin acos PI score obs fuel (hc_new (Z.of_nat max) tr rot true) (p :: q :: pts) init = Ok (r, m') ->
  exists rest, mr_tested r = init :: rest /\ climb score (turned_moves 0 tr rot) max 0 init rest.
Proof.
  intros p q pts angles score obs fuel max tr rot init r m' Hm _ _ H. apply hc_process_R in H.
  destruct (C26_round_structure score obs max tr rot (frl_new (Z.of_nat max) tr rot) init fuel r Hm eq_refl eq_refl eq_refl H) as (rest & HT & HC).
  exists rest. split; [exact HT|].
  assert (E : forall f b, turned_moves 0 tr rot f b = halved_moves tr rot f b).
  { intros f b. unfold turned_moves, halved_moves. rewrite cos_0, sin_0. cbv zeta. rewrite !Rmult_1_r, !Rmult_0_r, !Rplus_0_r, !Rminus_0_r. reflexivity. }
  clear - HC E. induction HC as [b x HX|f b l Hf HC IH].
  - apply cl_stop. rewrite E. exact HX.
  - rewrite <- (E f b) at 1. apply cl_round; [exact Hf|]. rewrite !E. exact IH.
Qed.
Print Assumptions C99_axis_parallel_scans_partial.

(** a scan that has 0 as its dominating direction, and an actual run of a matcher with alignment *)
Example C99_case : exists angles score r m',
  Forall2 heads (edges (mkSP false 0 0 1 true) [mkSP false 1 0 1 true; mkSP false 2 0 1 true]) angles /\ dominating 20 angles 0 /\
  hc_process cos sin acos PI score [] 7 (hc_new 1 (1/10) (1/10) true)
    [mkSP false 0 0 1 true; mkSP false 1 0 1 true; mkSP false 2 0 1 true] (mkPose 0 0 0) = Ok (r, m') /\ length (mr_tested r) = 8%nat.
Proof.
  set (p := mkSP false 0 0 1 true). set (q := mkSP false 1 0 1 true). set (s := mkSP false 2 0 1 true).
  destruct (C99_dominating_direction_is_found p q [s]) as (h & angles & phi & E1 & E2 & F & Hd).
  assert (P := PI_RGT_0).
  assert (A : angles = [0; 0]).
  { assert (HH : forall e, e = (p, q) \/ e = (q, s) -> heads e 0).
    { intros e He. assert (X : at_x (snd e) - at_x (fst e) = 1 /\ at_y (snd e) - at_y (fst e) = 0).
      { destruct He as [-> | ->]; unfold at_x, at_y; cbn; lra. }
      destruct X as [X Y]. unfold heads. rewrite X, Y. cbv zeta. split; [lra|]. split; [|auto]. exists 1. rewrite cos_0, sin_0. split; ring. }
    cbn [edges] in F. inversion F as [|e1 a1 l1 t1 H1 F1]; subst. inversion F1 as [|e2 a2 l2 t2 H2 F2]; subst. inversion F2; subst.
    rewrite (heads_unique _ _ _ H1 (HH _ (or_introl eq_refl))), (heads_unique _ _ _ H2 (HH _ (or_intror eq_refl))). reflexivity. }
  subst angles.
  assert (phi = 0).
  { destruct Hd as (i & Hi & NE & LE & LT & Ephi).
    assert (C : column 20 i [0; 0] = [0; 0]) by (unfold column in *; cbn [filter] in *; destruct (_ && _)%bool; [reflexivity|contradiction]).
    rewrite Ephi, C. unfold Rmean, Rsum. cbn. lra. }
  subst phi.
  destruct (C26_no_improvement R ROps _ (fun _ => 0) [] (frl_new 1 (1/10) (1/10)) (mkPose 0 0 0)) as (r & ER & EL & _).
  { cbn. lia. }
  { intros _. apply R_lt_false. lra. }
  exists [0; 0], (fun _ => 0), r. eexists. split; [exact F|]. split; [exact Hd|]. split; [|exact EL].
  unfold hc_process, hc_prepare. cbn [hc_align hc_new]. rewrite E1. cbn [bind]. rewrite E2. cbn [bind hc_pe]. unfold frl_new_at. cbn [hc_max hc_tr hc_rot hc_new].
  match type of ER with process_scan _ _ _ ?n _ _ = _ => change n with 7%nat in ER end.
  match goal with |- context [process_scan ?a ?b ?c ?d ?e ?f] => replace (process_scan a b c d e f) with (Ok r) by (symmetry; exact ER) end. reflexivity.
Qed.
