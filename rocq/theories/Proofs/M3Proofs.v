(** The multi-resolution search: what is found. *)
From Coq Require Import Reals ZArith List Permutation Lia Lra Bool.
From Verif.Base Require Import Outcome Num.
From Verif.Model Require Import MathUtils Geometry M3Engine.
From Verif.Spec Require Import M3Spec.
From Verif.Proofs Require Import CompareProofs.
Import ListNotations.
Local Open Scope R_scope.

Definition proper (r : rect R) : Prop := bot r <= top r /\ left r <= right r.
Lemma mid_bounds a b : a <= b -> a <= mid a b <= b.
Proof. unfold mid. lra. Qed.
Lemma eps_R : (dbl_epsilon : R) = 1 / IZR (2 ^ 52).
Proof. reflexivity. Qed.
Lemma less_long step a b : less step (dsub b a) = true <-> long step a b.
Proof. unfold less, long. rewrite eps_R. cbn [dlt dsub dadd ROps]. apply R_lt_true. Qed.
Lemma less_not_long step a b : less step (dsub b a) = false <-> ~ long step a b.
Proof. rewrite <- less_long. destruct (less step (dsub b a)); split; congruence. Qed.
Lemma mk_rect_Ok (b t l r : R) : b <= t -> l <= r -> mk_rect b t l r = Ok (mkRect b t l r).
Proof. intros H1 H2. unfold mk_rect. cbn [dle ROps]. rewrite (proj2 (R_le_true b t)), (proj2 (R_le_true l r)) by assumption. reflexivity. Qed.
Lemma part_proper step r c : proper r -> part step r c -> proper c.
Proof.
  intros [P1 P2] H. assert (A := mid_bounds _ _ P1). assert (B := mid_bounds _ _ P2).
  destruct H; unfold proper, left_half, right_half, lower_half, upper_half; cbn [bot top left right]; lra.
Qed.
Lemma range_proper step w r : proper w -> range_of step w r -> proper r.
Proof. intros P. induction 1 as [|r c H IH Hp]; [exact P|]. exact (part_proper step r c IH Hp). Qed.
Lemma leaf_of_range step w r l : range_of step w r -> leaf_of step r l -> range_of step w l /\ leaf step l.
Proof. intros R0 H. induction H as [r H|r c l H _ IH]; [auto|]. apply IH. now apply (r_part step w r c). Qed.
Lemma range_leaf_of step w r l : range_of step w r -> leaf_of step r l -> leaf_of step w l.
Proof. intros H. revert l. induction H as [|r c H IH Hp]; intros l L; [exact L|]. apply IH. exact (l_part step r c l Hp L). Qed.
Lemma finer_parts step r : proper r -> ~ leaf step r ->
  exists rs, finer_drifts r (less step (hside_len r)) (less step (vside_len r)) = Ok rs /\ (forall c, In c rs <-> part step r c).
Proof.
  intros [P1 P2] NL. assert (A := mid_bounds _ _ P1). assert (B := mid_bounds _ _ P2). unfold hside_len, vside_len.
  assert (EC : rect_center r = (mid (left r) (right r), mid (bot r) (top r))) by reflexivity.
  destruct (less step (dsub (right r) (left r))) eqn:H; destruct (less step (dsub (top r) (bot r))) eqn:V;
    [apply less_long in H; apply less_long in V|apply less_long in H; apply less_not_long in V|apply less_not_long in H; apply less_long in V|apply less_not_long in H; apply less_not_long in V];
    unfold finer_drifts; cbn [andb]; unfold split4_evenly, split_horz, split_vert; rewrite ?EC; cbn [ptx pty fst snd].
  - rewrite !mk_rect_Ok by lra. cbn [bind]. eexists. split; [reflexivity|]. intros c. split.
    + intros [<-|[<-|[<-|[<-|[]]]]]; [apply (p_ll step r)|apply (p_lu step r)|apply (p_rl step r)|apply (p_ru step r)]; assumption.
    + intros X. destruct X; try contradiction; cbn; auto.
  - rewrite !mk_rect_Ok by lra. cbn [bind]. eexists. split; [reflexivity|]. intros c. split.
    + intros [<-|[<-|[]]]; [apply (p_left step r)|apply (p_right step r)]; assumption.
    + intros X. destruct X; try contradiction; cbn; auto.
  - rewrite !mk_rect_Ok by lra. cbn [bind]. eexists. split; [reflexivity|]. intros c. split.
    + intros [<-|[<-|[]]]; [apply (p_lower step r)|apply (p_upper step r)]; assumption.
    + intros X. destruct X; try contradiction; cbn; auto.
  - exfalso. apply NL. split; assumption.
Qed.

Section Search.
  Variables (score : R -> rect R -> R) (pop : list (mtch R) -> option (mtch R * list (mtch R))) (delta step : R) (w : rect R).
  Hypothesis w_proper : proper w.
  Hypothesis step_pos : 1 / IZR (2 ^ 52) <= step.
  Hypothesis pop_ok : queue_ok (scored step w score) delta pop.
  Variable sigma : R.
  Hypothesis sigma_pos : 0 <= sigma.
  Hypothesis adm : admissible_upto step sigma w score.
  Local Notation add := (add_match (dofZ 0)).
  Local Notation adds := (add_matches (dofZ 0)).
  Variable rotation : R -> Prop.       (* the rotations asked for *)

  Lemma leaf_point x y : leaf step (point_range x y).
  Proof. unfold leaf, long, point_range. cbn [bot top left right]. lra. Qed.

  (** what is in the queue *)
  Definition sound (m : mtch R) : Prop :=
    m_prob m = score (m_rot m) (m_drift m) /\ 0 <= m_prob m /\ rotation (m_rot m) /\
    ((exists x y, m_drift m = point_range x y /\ candidate step w x y) \/ range_of step w (m_drift m)).
  Definition esound (e : engine R) : Prop :=
    Forall sound (e_queue e) /\ 0 <= e_best e /\ (e_best e = 0 \/ exists m, In m (e_queue e) /\ is_finest m = true /\ m_prob m = e_best e).
  Lemma esound_scored e : esound e -> Forall (scored step w score) (e_queue e).
  Proof. intros (F & _). revert F. apply Forall_impl. intros m (A & B & _ & C). split; [exact A|]. split; assumption. Qed.
  (** a candidate is not forgotten *)
  Definition leads (m : mtch R) (rot x y : R) : Prop :=
    m_rot m = rot /\ (m_drift m = point_range x y \/ range_of step w (m_drift m) /\ exists l, leaf_of step (m_drift m) l /\ tried_in l x y).
  Definition kept (e : engine R) (rot x y : R) : Prop := score rot (point_range x y) <= e_best e + sigma \/ exists m, In m (e_queue e) /\ leads m rot x y.

  Lemma leads_bound m rot x y : sound m -> leads m rot x y -> score rot (point_range x y) <= m_prob m + sigma.
  Proof.
    intros (E & _ & _ & _) (<- & [D|(Rn & l & L & T)]).
    - rewrite E, D. lra.
    - rewrite E. exact (proj2 adm (m_rot m) _ l x y Rn L T).
  Qed.
  Lemma add_spec e m : let e' := add e m in (m_prob m < e_best e /\ e' = e) \/
    (e_best e <= m_prob m /\ e_queue e' = m :: e_queue e /\ e_best e <= e_best e' /\ e_best e' = if is_finest m then Rmax (e_best e) (m_prob m) else e_best e).
  Proof.
    cbn zeta. unfold add_match. cbn [dlt ROps]. destruct (R_lt (m_prob m) (e_best e)) eqn:T.
    - left. apply R_lt_true in T. auto.
    - right. apply R_lt_false in T. cbn [e_queue e_best]. destruct (is_finest m).
      + assert (X : dmax (e_best e) (dsub (m_prob m) (dofZ 0)) = Rmax (e_best e) (m_prob m)).
        { unfold dmax. cbn [dlt dsub dofZ ROps]. rewrite Rminus_0_r. unfold Rmax. destruct (R_lt (e_best e) (m_prob m)) eqn:L.
          - apply R_lt_true in L. destruct (Rle_dec (e_best e) (m_prob m)); [reflexivity|lra].
          - apply R_lt_false in L. destruct (Rle_dec (e_best e) (m_prob m)); [lra|reflexivity]. }
        rewrite X. repeat split; auto; try lra. apply Rmax_l.
      + repeat split; auto; lra.
  Qed.
  Definition good_new (m : mtch R) : Prop :=
    m_prob m = score (m_rot m) (m_drift m) /\ rotation (m_rot m) /\ ((exists x y, m_drift m = point_range x y /\ candidate step w x y) \/ range_of step w (m_drift m)).
  Lemma add_sound e m : esound e -> good_new m -> esound (add e m).
  Proof.
    intros (F & B & T) (E1 & E2 & E3). destruct (add_spec e m) as [[_ ->]|(H & EQ & HB & EB)]; [split; auto|]. unfold esound. rewrite EQ. split; [|split].
    - constructor; [|exact F]. split; [exact E1|]. split; [lra|]. auto.
    - lra.
    - rewrite EB. destruct (is_finest m) eqn:Fm.
      + destruct (Rle_lt_dec (e_best e) (m_prob m)) as [L|L]; [|lra]. right. exists m. split; [now left|]. split; [exact Fm|]. unfold Rmax. destruct (Rle_dec _ _); [reflexivity|contradiction].
      + destruct T as [T|(x & I & Fx & Px)]; [now left|]. right. exists x. split; [now right|]. auto.
  Qed.
  Lemma add_kept e m rot x y : kept e rot x y -> kept (add e m) rot x y.
  Proof.
    intros K. destruct (add_spec e m) as [[_ ->]|(H & EQ & HB & _)]; [exact K|]. destruct K as [K|(m' & I & L)]; [left; lra|]. right. exists m'. rewrite EQ. split; [now right|exact L].
  Qed.
  Lemma add_new_kept e m rot x y : esound e -> good_new m -> leads m rot x y -> kept (add e m) rot x y.
  Proof.
    intros S G L. destruct (add_spec e m) as [[H ->]|(H & EQ & HB & _)].
    - left. assert (score rot (point_range x y) <= m_prob m + sigma); [|lra].
      destruct G as (E1 & _). destruct L as (<- & [D|(Rn & l & L & T)]).
      + rewrite E1, D. lra.
      + rewrite E1. exact (proj2 adm (m_rot m) _ l x y Rn L T).
    - right. exists m. rewrite EQ. split; [now left|exact L].
  Qed.
  Lemma adds_spec ms : Forall good_new ms -> forall e, esound e -> esound (adds e ms) /\
    (forall rot x y, kept e rot x y -> kept (adds e ms) rot x y) /\
    (forall m rot x y, In m ms -> leads m rot x y -> kept (adds e ms) rot x y).
  Proof.
    induction 1 as [|m ms G _ IH]; intros e S; [repeat split; auto; [apply S..|intros m ? ? ? []]|]. change (adds e (m :: ms)) with (adds (add e m) ms).
    destruct (IH (add e m) (add_sound e m S G)) as (S' & K' & N'). split; [exact S'|]. split.
    - intros rot x y K. apply K', add_kept, K.
    - intros m' rot x y [<-|I] L; [|now apply (N' m')]. apply K', add_new_kept; auto.
  Qed.

  (** branching *)
  Lemma branch_loop_spec coarse rs : range_of step w (m_drift coarse) -> sound coarse -> (forall c, In c rs -> part step (m_drift coarse) c) -> forall e, esound e ->
    exists e', branch_loop score (dofZ 0) coarse rs e = Ok e' /\ e' = adds e (map (new_match score (m_rot coarse)) rs).
  Proof.
    intros Rn (E1 & E2 & E3 & E4). induction rs as [|r rs IH]; intros Hp e S; cbn [branch_loop]; [eauto|].
    assert (A : less_or_equal_eps (m_prob (new_match score (m_rot coarse) r)) (m_prob coarse) (dlit 1 100000) = true).
    { assert (B : score (m_rot coarse) r <= score (m_rot coarse) (m_drift coarse) + 1 / 100000) by (apply (proj1 adm); [exact Rn|apply Hp; now left]).
      unfold less_or_equal_eps, are_equal_eps, less. rewrite orb_true_iff. rewrite eps_R. cbn [dlt dle dadd dsub dabs ROps]. rewrite R_le_true, R_lt_true. cbn [new_match m_prob]. rewrite E1.
      assert (0 < 1 / IZR (2 ^ 52)) by (apply Rdiv_lt_0_compat; [lra|apply IZR_lt; reflexivity]).
      assert (L : (dlit 1 100000 : R) = 1 / 100000) by (unfold dlit; cbn [ddiv dofZ ROps]; lra). rewrite L.
      destruct (Rle_lt_dec (score (m_rot coarse) r) (score (m_rot coarse) (m_drift coarse))); [right; lra|left]. rewrite Rabs_pos_eq; lra. }
    rewrite A. cbn [assert_ bind]. destruct (IH (fun c I => Hp c (or_intror I)) (add e (new_match score (m_rot coarse) r))) as (e' & E & ->).
    - apply add_sound; [exact S|]. repeat split; auto. right. apply (r_part step w (m_drift coarse)); [exact Rn|apply Hp; now left].
    - exists (adds e (map (new_match score (m_rot coarse)) (r :: rs))). split; [exact E|reflexivity].
  Qed.

  (** taking a match out *)
  Definition without (e : engine R) (m : mtch R) (q : list (mtch R)) : Prop := Permutation (e_queue e) (m :: q).
  Lemma finest_point m : sound m -> is_finest m = true -> exists x y, m_drift m = point_range x y.
  Proof.
    intros (_ & _ & _ & [(x & y & E & _)|Rn]) F; [eauto|]. assert (P := range_proper step w _ w_proper Rn). unfold is_finest, drift_amount, hside_len, vside_len in F. cbn [dle dadd dsub dofZ ROps] in F.
    apply R_le_true in F. destruct P as [P1 P2]. destruct (m_drift m) as [b t l r]. cbn [bot top left right] in *. exists l, b. unfold point_range. f_equal; lra.
  Qed.
  Lemma point_finest rot x y : is_finest (mkMatch (score rot (point_range x y)) rot (point_range x y)) = true.
  Proof. unfold is_finest, drift_amount, hside_len, vside_len, point_range. cbn. apply R_le_true. lra. Qed.
  Lemma point_not_long m : (exists x y, m_drift m = point_range x y) -> less step (hside_len (m_drift m)) = false /\ less step (vside_len (m_drift m)) = false.
  Proof. intros (x & y & ->). unfold hside_len, vside_len. split; apply less_not_long; unfold long, point_range; cbn [bot top left right]; lra. Qed.

  (** the state after a match that is not returned has been replaced *)
  Lemma take_sound e m q : esound e -> without e m q -> is_finest m = false -> esound (mkEngine q (e_best e)) /\ sound m.
  Proof.
    intros (F & B & T) P Fm. apply (Permutation_Forall P) in F. inversion F as [|? ? Sm Fq]; subst. split; [|exact Sm]. split; [exact Fq|]. split; [exact B|].
    destruct T as [T|(x & I & Fx & Px)]; [now left|]. right. exists x. cbn [e_queue]. split; [|auto]. apply (Permutation_in x P) in I as [->|I]; [congruence|exact I].
  Qed.
  Lemma take_kept e m q rot x y : without e m q -> kept e rot x y -> kept (mkEngine q (e_best e)) rot x y \/ leads m rot x y.
  Proof.
    intros P [K|(m' & I & L)]; [left; now left|]. apply (Permutation_in m' P) in I as [->|I]; [now right|]. left. right. exists m'. auto.
  Qed.

  (** the loop of next_best_match *)
  Lemma next_spec fuel : forall e m' e', esound e -> next_best_match score pop fuel (dofZ 0) step e = Ok (m', e') ->
    match m' with
    | None => e_queue e' = [] /\ esound e' /\ forall rot x y, kept e rot x y -> kept e' rot x y
    | Some m => exists e0, esound e0 /\ without e0 m (e_queue e') /\ e_best e' = e_best e0 /\ (forall rot x y, kept e rot x y -> kept e0 rot x y) /\
        leaf step (m_drift m) /\ (forall x, In x (e_queue e0) -> m_prob x <= m_prob m + delta)
    end.
  Proof.
    induction fuel as [|fuel IH]; intros e m' e' S E; cbn [next_best_match] in E.
    all: assert (PO := pop_ok); destruct PO as [P0 PN].
    all: destruct (e_queue e) as [|x0 q0] eqn:Q; [rewrite P0 in E; injection E as <- <-; split; [exact Q|split; [exact S|auto]]|].
    all: destruct (PN (x0 :: q0)) as (m & q & EP & Pm & Top); [discriminate|rewrite <- Q; now apply esound_scored|]; rewrite EP in E; rewrite <- Q in *.
    all: destruct (negb (less step (hside_len (m_drift m))) && negb (less step (vside_len (m_drift m))))%bool eqn:T.
    1, 3: injection E as <- <-; apply andb_true_iff in T as [T1 T2]; apply negb_true_iff in T1; apply negb_true_iff in T2; exists e; split; [exact S|]; split; [exact Pm|]; split; [reflexivity|]; split; [auto|]; split; [|exact Top];
      unfold hside_len, vside_len in T1, T2; apply less_not_long in T1; apply less_not_long in T2; split; assumption.
    - discriminate.
    - apply bind_Ok_inv in E as (e1 & EB & E).
      assert (NL : ~ leaf step (m_drift m)).
      { intros [L1 L2]. apply less_not_long in L1. apply less_not_long in L2. unfold hside_len, vside_len in T. rewrite L1, L2 in T. discriminate. }
      assert (Sm0 : sound m). { destruct S as (F & _). apply (Permutation_Forall Pm) in F. now inversion F. }
      assert (Fm : is_finest m = false).
      { destruct (is_finest m) eqn:Fm; [|reflexivity]. exfalso. destruct (finest_point m Sm0 Fm) as (x & y & Ed). apply NL. rewrite Ed. apply leaf_point. }
      assert (Rn : range_of step w (m_drift m)).
      { destruct Sm0 as (_ & _ & _ & [(x & y & Ed & _)|Rn]); [|exact Rn]. exfalso. apply NL. rewrite Ed. apply leaf_point. }
      destruct (take_sound e m q S Pm Fm) as [Sq _].
      unfold branch in EB. destruct (finer_parts step (m_drift m) (range_proper step w _ w_proper Rn) NL) as (rs & ER & HR). rewrite ER in EB. cbn [bind] in EB.
      destruct (branch_loop_spec m rs Rn Sm0 (fun c => proj1 (HR c)) (mkEngine q (e_best e)) Sq) as (e1' & EB' & X). rewrite EB' in EB. injection EB as <-. subst e1'.
      assert (GN : Forall good_new (map (new_match score (m_rot m)) rs)).
      { apply Forall_forall. intros n I. apply in_map_iff in I as (c & <- & I). split; [reflexivity|]. split; [apply Sm0|]. right. apply (r_part step w (m_drift m)); [exact Rn|now apply HR]. }
      destruct (adds_spec _ GN _ Sq) as (S1 & K1 & N1).
      assert (K : forall rot x y, kept e rot x y -> kept (adds (mkEngine q (e_best e)) (map (new_match score (m_rot m)) rs)) rot x y).
      { intros rot x y K. destruct (take_kept e m q rot x y Pm K) as [K'|L]; [now apply K1|].
        destruct L as (Er & [Ed|(_ & l & L & T')]); [exfalso; apply NL; rewrite Ed; apply leaf_point|].
        inversion L as [? Lf|? c ? Pc Lc]; subst; [contradiction|].
        apply (N1 (new_match score (m_rot m) c)); [apply in_map; now apply HR|]. split; [reflexivity|]. right. cbn [new_match m_drift].
        split; [now apply (r_part step w (m_drift m))|]. exists l. auto. }
      specialize (IH _ _ _ S1 E). destruct m' as [m'|].
      + destruct IH as (e0 & H1 & H2 & H3 & H4 & H5). exists e0. split; [exact H1|]. split; [exact H2|]. split; [exact H3|]. split; [intros; apply H4, K; assumption|exact H5].
      + destruct IH as (H1 & H2 & H3). split; [exact H1|]. split; [exact H2|]. intros. apply H3, K. assumption.
  Qed.

  (** the loop of the matcher *)
  Lemma crucial_spec r : proper r -> exists ps, mapM point_rect (crucial_points r) = Ok ps /\ (forall c, In c ps <-> exists x y, c = point_range x y /\ tried_in r x y).
  Proof.
    intros _. unfold crucial_points, rect_corners, rect_center. cbn [app mapM point_rect]. unfold point_rect. cbn [ptx pty fst snd]. rewrite !mk_rect_Ok by lra. cbn [bind].
    eexists. split; [reflexivity|]. intros c. cbn [In]. unfold tried_in. split.
    - intros [<-|[<-|[<-|[<-|[<-|[]]]]]]; eexists; eexists; (split; [reflexivity|]); auto 10.
    - intros (x & y & -> & [[[->| ->] [->| ->]]|[-> ->]]); unfold point_range; auto 10.
  Qed.
  Lemma search_spec fuel : forall e m, esound e -> search_loop score pop fuel (dofZ 0) step e = Ok m ->
    sound m /\ is_finest m = true /\ forall rot x y, kept e rot x y -> score rot (point_range x y) <= m_prob m + Rmax 0 delta + sigma.
  Proof.
    induction fuel as [|fuel IH]; intros e m S E; cbn [search_loop] in E; [discriminate|].
    apply bind_Ok_inv in E as ([m' e'] & EN & E). assert (NS := next_spec fuel e m' e' S EN). destruct m' as [m'|]; [|discriminate].
    destruct NS as (e0 & S0 & W0 & B0 & K0 & Lf & Top).
    assert (Sm : sound m'). { destruct S0 as (F & _). apply (Permutation_Forall W0) in F. now inversion F. }
    destruct (is_finest m') eqn:Fm.
    - injection E as <-. split; [exact Sm|]. split; [exact Fm|]. intros rot x y K. apply K0 in K. assert (M1 := Rmax_l 0 delta). assert (M2 := Rmax_r 0 delta). destruct K as [K|(n & I & L)].
      + destruct S0 as (_ & _ & [T|(n & I & _ & P)]).
        * destruct Sm as (_ & P & _). lra.
        * specialize (Top n I). lra.
      + assert (Sn : sound n) by (destruct S0 as (F & _); rewrite Forall_forall in F; now apply F). assert (X := leads_bound n rot x y Sn L). specialize (Top n I). lra.
    - assert (Rn : range_of step w (m_drift m')).
      { destruct Sm as (_ & _ & _ & [(x & y & Ed & _)|Rn]); [|exact Rn]. exfalso. assert (X := point_finest (m_rot m') x y). unfold is_finest, drift_amount in X, Fm. cbn [m_drift] in X. rewrite Ed in Fm. congruence. }
      destruct (crucial_spec (m_drift m') (range_proper step w _ w_proper Rn)) as (ps & EP & HP). rewrite EP in E. cbn [bind] in E.
      destruct (take_sound e0 m' (e_queue e') S0 W0 Fm) as [Sq _].
      assert (Ee : e' = mkEngine (e_queue e') (e_best e0)) by (rewrite <- B0; now destruct e'). rewrite <- Ee in Sq.
      assert (LfW : leaf_of step w (m_drift m')) by (apply (range_leaf_of step w (m_drift m')); [exact Rn|now apply l_self]).
      assert (GN : Forall good_new (map (new_match score (m_rot m')) ps)).
      { apply Forall_forall. intros n I. apply in_map_iff in I as (c & <- & I). apply HP in I as (x & y & -> & T). split; [reflexivity|]. split; [apply Sm|]. left. exists x, y. split; [reflexivity|]. right. eauto. }
      destruct (adds_spec _ GN _ Sq) as (S1 & K1 & N1). destruct (IH _ _ S1 E) as (A1 & A2 & A3). split; [exact A1|]. split; [exact A2|].
      intros rot x y K. apply A3. apply K0 in K. destruct (take_kept e0 m' (e_queue e') rot x y W0 K) as [K'|L]; [apply K1; now rewrite Ee|].
      destruct L as (<- & L). apply (N1 (new_match score (m_rot m') (point_range x y))); [|split; [reflexivity|now left]]. apply in_map, HP.
      destruct L as [Ed|(_ & l & L & T)].
      + exfalso. assert (X := point_finest (m_rot m') x y). unfold is_finest, drift_amount in X, Fm. cbn [m_drift] in X. rewrite Ed in Fm. congruence.
      + inversion L as [? Lf'|? c ? Pc Lc]; subst; [exists x, y; auto|]. exfalso. destruct Lf as [L1 L2]. destruct Pc; contradiction.
  Qed.

  (** termination *)
  Hypothesis step_gt : 1 / IZR (2 ^ 52) < step.
  Definition sides (k : nat) (r : rect R) : Prop := right r - left r <= (step - 1 / IZR (2 ^ 52)) * 2 ^ k /\ top r - bot r <= (step - 1 / IZR (2 ^ 52)) * 2 ^ k.
  Fixpoint wgt (k : nat) : nat := match k with O => 6 | Datatypes.S k => 1 + 4 * wgt k end%nat.
  Lemma wgt_ge k : (6 <= wgt k)%nat.
  Proof. induction k; cbn [wgt]; lia. Qed.
  Definition mw (m : mtch R) (n : nat) : Prop := (exists x y, m_drift m = point_range x y) /\ n = 1%nat \/ exists k, sides k (m_drift m) /\ n = wgt k.
  Inductive lw : list (mtch R) -> nat -> Prop :=
  | lw_nil : lw [] 0
  | lw_cons m n q k : mw m n -> lw q k -> lw (m :: q) (n + k).
  Lemma lw_perm q q' : Permutation q q' -> forall n, lw q n -> lw q' n.
  Proof.
    induction 1 as [|m q q' _ IH|a b q|q1 q2 q3 _ IH1 _ IH2]; intros n L; auto.
    - inversion L; subst. constructor; auto.
    - inversion L as [|? na ? ka A1 A2]; subst. inversion A2 as [|? nb ? kb B1 B2]; subst. replace (na + (nb + kb))%nat with (nb + (na + kb))%nat by lia. constructor; [assumption|]. now constructor.
  Qed.
  Lemma part_sides k r c : proper r -> sides (Datatypes.S k) r -> part step r c -> sides k c.
  Proof.
    intros P [A B] H. assert (1 <= 2 ^ k) by (apply pow_R1_Rle; lra). cbn [pow] in A, B.
    assert (step - 1 / IZR (2 ^ 52) <= (step - 1 / IZR (2 ^ 52)) * 2 ^ k) by (rewrite <- (Rmult_1_r (step - 1 / IZR (2 ^ 52))) at 1; apply Rmult_le_compat_l; lra).
    unfold sides, long in *. destruct H; unfold left_half, right_half, lower_half, upper_half, mid; cbn [bot top left right]; unfold long in *; lra.
  Qed.
  Lemma sides0_leaf r : sides 0 r -> leaf step r.
  Proof. intros [A B]. cbn [pow] in A, B. unfold leaf, long. lra. Qed.
  Lemma finer_length (r : rect R) h v rs : finer_drifts r h v = Ok rs -> (length rs <= 4)%nat.
  Proof.
    unfold finer_drifts, split4_evenly, split_horz, split_vert. intros E. destruct h, v; cbn [andb] in E; repeat (apply bind_Ok_inv in E as (? & _ & E)); injection E as <-; cbn; lia.
  Qed.
  Lemma adds_weight ms : forall k, lw ms k -> forall e n, lw (e_queue e) n -> exists n', lw (e_queue (adds e ms)) n' /\ (n' <= n + k)%nat.
  Proof.
    induction 1 as [|m a ms k A _ IH]; intros e n L; [exists n; split; [exact L|lia]|]. change (adds e (m :: ms)) with (adds (add e m) ms).
    destruct (add_spec e m) as [[_ E]|(_ & E & _)].
    - rewrite E. destruct (IH e n L) as (n' & L' & H). exists n'. split; [exact L'|lia].
    - destruct (IH (add e m) (a + n)%nat) as (n' & L' & H); [rewrite E; now constructor|]. exists n'. split; [exact L'|lia].
  Qed.
  Lemma map_weight rot k rs : (forall c, In c rs -> sides k c) -> lw (map (new_match score rot) rs) (length rs * wgt k)%nat.
  Proof. induction rs as [|r rs IH]; intros H; cbn [map length Nat.mul]; [constructor|]. constructor; [right; exists k; split; [apply H; now left|reflexivity]|apply IH; intros; apply H; now right]. Qed.
  Lemma map_point_weight rot rs : (forall c, In c rs -> exists x y, c = point_range x y) -> lw (map (new_match score rot) rs) (length rs)%nat.
  Proof.
    induction rs as [|r rs IH]; intros H; cbn [map length]; [constructor|]. change (Datatypes.S (length rs)) with (1 + length rs)%nat. constructor; [left; split; [apply H; now left|reflexivity]|apply IH; intros; apply H; now right].
  Qed.
  Definition has_finest (e : engine R) : Prop := exists m, In m (e_queue e) /\ is_finest m = true.
  Lemma adds_finest ms : forall e, has_finest e -> has_finest (adds e ms).
  Proof.
    induction ms as [|m ms IH]; intros e H; [exact H|]. apply (IH (add e m)). destruct (add_spec e m) as [[_ ->]|(_ & E & _)]; [exact H|]. destruct H as (x & I & F). exists x. rewrite E. split; [now right|exact F].
  Qed.
  Lemma take_finest e m q : without e m q -> is_finest m = false -> has_finest e -> has_finest (mkEngine q (e_best e)).
  Proof. intros P F (x & I & Fx). apply (Permutation_in x P) in I as [->|I]; [congruence|]. exists x. auto. Qed.

  Lemma next_total fuel : forall e n, esound e -> has_finest e -> lw (e_queue e) n -> (n <= fuel)%nat ->
    exists m e' k, next_best_match score pop fuel (dofZ 0) step e = Ok (Some m, e') /\ lw (m :: e_queue e') k /\ (k <= n)%nat /\ (is_finest m = false -> has_finest e').
  Proof.
    induction fuel as [|fuel IH]; intros e n S HF LW Hn; cbn [next_best_match].
    all: assert (PO := pop_ok); destruct PO as [P0 PN].
    all: destruct (e_queue e) as [|x0 q0] eqn:Q; [destruct HF as (m & I & _); rewrite Q in I; destruct I|].
    all: destruct (PN (x0 :: q0)) as (m & q & EP & Pm & _); [discriminate|rewrite <- Q; now apply esound_scored|]; rewrite EP; rewrite <- Q in *.
    all: assert (LP := lw_perm _ _ Pm _ LW).
    all: assert (Sm0 : sound m) by (destruct S as (F & _); apply (Permutation_Forall Pm) in F; now inversion F).
    1: { exfalso. inversion LP as [|? a ? b A B]; subst. destruct A as [[_ ->]|(k & _ & ->)]; [lia|]. assert (W := wgt_ge k). lia. }
    destruct (negb (less step (hside_len (m_drift m))) && negb (less step (vside_len (m_drift m))))%bool eqn:T.
    { exists m, (mkEngine q (e_best e)), n. split; [reflexivity|]. split; [exact LP|]. split; [lia|]. intros Fm. exact (take_finest e m q Pm Fm HF). }
    assert (NL : ~ leaf step (m_drift m)).
    { intros [L1 L2]. apply less_not_long in L1. apply less_not_long in L2. unfold hside_len, vside_len in T. rewrite L1, L2 in T. discriminate. }
    assert (Fm : is_finest m = false).
    { destruct (is_finest m) eqn:Fm; [|reflexivity]. exfalso. destruct (finest_point m Sm0 Fm) as (x & y & Ed). apply NL. rewrite Ed. apply leaf_point. }
    assert (Rn : range_of step w (m_drift m)).
    { destruct Sm0 as (_ & _ & _ & [(x & y & Ed & _)|Rn]); [|exact Rn]. exfalso. apply NL. rewrite Ed. apply leaf_point. }
    destruct (take_sound e m q S Pm Fm) as [Sq _]. assert (Pr := range_proper step w _ w_proper Rn).
    unfold branch. destruct (finer_parts step (m_drift m) Pr NL) as (rs & ER & HR). rewrite ER. cbn [bind].
    destruct (branch_loop_spec m rs Rn Sm0 (fun c => proj1 (HR c)) (mkEngine q (e_best e)) Sq) as (e1 & EB & X). rewrite EB. cbn [bind]. subst e1.
    assert (GN : Forall good_new (map (new_match score (m_rot m)) rs)).
    { apply Forall_forall. intros c0 I. apply in_map_iff in I as (c & <- & I). split; [reflexivity|]. split; [apply Sm0|]. right. apply (r_part step w (m_drift m)); [exact Rn|now apply HR]. }
    destruct (adds_spec _ GN _ Sq) as (S1 & _ & _).
    inversion LP as [|? a ? b A B]; subst. destruct A as [[(x & y & Ed) _]|(k & Sk & Ea)]; [exfalso; apply NL; rewrite Ed; apply leaf_point|].
    destruct k as [|k]; [exfalso; apply NL, sides0_leaf, Sk|].
    assert (LN := map_weight (m_rot m) k rs (fun c I => part_sides k _ c Pr Sk (proj1 (HR c) I))).
    destruct (adds_weight _ _ LN (mkEngine q (e_best e)) b B) as (n' & L' & H').
    assert (Len := finer_length _ _ _ _ ER). assert (length rs * wgt k <= 4 * wgt k)%nat by (apply Nat.mul_le_mono_r; exact Len). cbn [wgt] in Ea.
    destruct (IH _ n' S1 (adds_finest _ _ (take_finest e m q Pm Fm HF)) L' ltac:(lia)) as (m' & e' & k' & E1 & E2 & E3 & E4).
    exists m', e', k'. split; [exact E1|]. split; [exact E2|]. split; [lia|exact E4].
  Qed.
  Lemma search_total fuel : forall e n, esound e -> has_finest e -> lw (e_queue e) n -> (n < fuel)%nat -> exists m, search_loop score pop fuel (dofZ 0) step e = Ok m.
  Proof.
    induction fuel as [|fuel IH]; intros e n S HF LW Hn; [lia|]. cbn [search_loop].
    destruct (next_total fuel e n S HF LW ltac:(lia)) as (m & e' & k & EN & LK & Hk & HF'). rewrite EN. cbn [bind disnan ROps negb assert_]. destruct (is_finest m) eqn:Fm; [eauto|].
    assert (NS := next_spec fuel e (Some m) e' S EN). destruct NS as (e0 & S0 & W0 & B0 & K0 & Lf & Top).
    assert (Sm : sound m). { destruct S0 as (F & _). apply (Permutation_Forall W0) in F. now inversion F. }
    assert (NP : ~ exists x y, m_drift m = point_range x y).
    { intros (x & y & Ed). assert (X := point_finest (m_rot m) x y). unfold is_finest, drift_amount in X, Fm. cbn [m_drift] in X. rewrite Ed in Fm. congruence. }
    assert (Rn : range_of step w (m_drift m)).
    { destruct Sm as (_ & _ & _ & [(x & y & Ed & _)|Rn]); [|exact Rn]. exfalso. apply NP. eauto. }
    destruct (crucial_spec (m_drift m) (range_proper step w _ w_proper Rn)) as (ps & EP & HP). rewrite EP. cbn [bind].
    destruct (take_sound e0 m (e_queue e') S0 W0 Fm) as [Sq _].
    assert (Ee : e' = mkEngine (e_queue e') (e_best e0)) by (rewrite <- B0; now destruct e'). rewrite <- Ee in Sq.
    assert (LfW : leaf_of step w (m_drift m)) by (apply (range_leaf_of step w (m_drift m)); [exact Rn|now apply l_self]).
    assert (GN : Forall good_new (map (new_match score (m_rot m)) ps)).
    { apply Forall_forall. intros c0 I. apply in_map_iff in I as (c & <- & I). apply HP in I as (x & y & -> & T). split; [reflexivity|]. split; [apply Sm|]. left. exists x, y. split; [reflexivity|]. right. eauto. }
    destruct (adds_spec _ GN _ Sq) as (S1 & _ & _).
    assert (LN := map_point_weight (m_rot m) ps (fun c I => match proj1 (HP c) I with ex_intro _ x (ex_intro _ y (conj E _)) => ex_intro _ x (ex_intro _ y E) end)).
    assert (Len : length ps = 5%nat).
    { clear - EP. unfold crucial_points, rect_corners in EP. cbn [app mapM] in EP. repeat (apply bind_Ok_inv in EP as (? & ? & EP) || (apply bind_Ok_inv in H as (? & ? & H))).
      repeat match goal with H : bind _ _ = Ok _ |- _ => apply bind_Ok_inv in H as (? & ? & H) end. repeat match goal with H : Ok _ = Ok _ |- _ => injection H as <- end. reflexivity. }
    inversion LK as [|? a ? b A B]; subst. destruct A as [[NP' _]|(k & Sk & Ea)]; [contradiction|]. assert (W := wgt_ge k).
    destruct (adds_weight _ _ LN e' b B) as (n' & L' & H'). apply (IH _ n' S1 (adds_finest _ _ (HF' eq_refl)) L'). lia.
  Qed.
End Search.

(** the requests *)
Definition window (max_x max_y : R) : rect R := mkRect (- max_y) max_y (- max_x) max_x.
Section Request.
  Variables (score : R -> rect R -> R) (delta step max_x max_y max_th ang_step : R).
  Hypothesis xy : 0 <= max_x /\ 0 <= max_y.
  Hypothesis th : 0 <= max_th.
  Hypothesis ang_pos : 0 < ang_step.
  Hypothesis step_pos : 1 / IZR (2 ^ 52) <= step.
  Local Notation w := (window max_x max_y).
  Variable sigma : R.
  Hypothesis sigma_pos : 0 <= sigma.
  Hypothesis adm : admissible_upto step sigma w score.
  Local Notation adds := (add_matches (dofZ 0)).
  Local Notation rotation := (rotation_near max_th ang_step).
  Local Notation esound := (esound score step w rotation).
  Local Notation kept := (kept score step w sigma).
  Local Notation good := (good_new score step w rotation).

  Lemma pair_in (r : R) x : In x (rotation_pair r) <-> x = r \/ x = - r.
  Proof.
    unfold rotation_pair. cbn [dlt dopp ROps]. destruct (R_lt (- r) r) eqn:A; [apply R_lt_true in A|apply R_lt_false in A; destruct (R_lt r (- r)) eqn:B; [apply R_lt_true in B|apply R_lt_false in B]]; cbn [In].
    - split; [intros [<-|[<-|[]]]; auto|intros [->| ->]; auto].
    - split; [intros [<-|[<-|[]]]; auto|intros [->| ->]; auto].
    - split; [intros [<-|[]]; auto|intros [->| ->]; [auto|left; lra]].
  Qed.
  Lemma rotation_matches_Ok rot : rotation_matches score max_x max_y rot = Ok [new_match score rot (point_range 0 0); new_match score rot w].
  Proof. unfold rotation_matches. rewrite mk_rect_Ok by (cbn [dopp ROps]; lra). reflexivity. Qed.
  Lemma mapM_rotation l : mapM (rotation_matches score max_x max_y) l = Ok (map (fun rot => [new_match score rot (point_range 0 0); new_match score rot w]) l).
  Proof. induction l as [|r l IH]; [reflexivity|]. cbn [mapM map]. rewrite rotation_matches_Ok, IH. reflexivity. Qed.
  Definition ask (l : list R) := concat (map (fun rot => [new_match score rot (point_range 0 0); new_match score rot w]) l).
  Lemma ask_in l m : In m (ask l) <-> exists rot, In rot l /\ (m = new_match score rot (point_range 0 0) \/ m = new_match score rot w).
  Proof.
    unfold ask. rewrite in_concat. split.
    - intros (q & I & J). apply in_map_iff in I as (rot & <- & I). exists rot. split; [exact I|]. destruct J as [<-|[<-|[]]]; auto.
    - intros (rot & I & J). eexists. split; [apply in_map; exact I|]. destruct J as [->| ->]; cbn; auto.
  Qed.
  Lemma step_le n : less_or_equal (dmul (dofZ 2) (INR n * ang_step)) (dmul (dofZ 2) max_th) = true -> INR n * ang_step <= max_th + 2 / 10000000 * (1 + max_th).
  Proof.
    intros H. apply R_less_or_equal in H. cbn [dmul dofZ ROps] in H. assert (N := pos_INR n). assert (0 <= INR n * ang_step) by (apply Rmult_le_pos; lra). unfold tol in H.
    rewrite !Rabs_pos_eq in H by lra. revert H. unfold Rmax. repeat destruct (Rle_dec _ _); lra.
  Qed.
  Lemma request_spec fuel : forall n e e', esound e -> request_loop score fuel (dofZ 0) max_x max_y (dmul (dofZ 2) max_th) ang_step (INR n * ang_step) e = Ok e' ->
    esound e' /\ (forall rot x y, kept e rot x y -> kept e' rot x y) /\
    (forall k rot x y, (n <= k)%nat -> INR k * ang_step <= max_th -> rot = INR k * ang_step \/ rot = - (INR k * ang_step) -> candidate step w x y -> kept e' rot x y).
  Proof.
    induction fuel as [|fuel IH]; intros n e e' S E; cbn [request_loop] in E; [discriminate|].
    destruct (less_or_equal (dmul (dofZ 2) (INR n * ang_step)) (dmul (dofZ 2) max_th)) eqn:T.
    - rewrite mapM_rotation in E. cbn [bind] in E. change (concat _) with (ask (rotation_pair (INR n * ang_step))) in E.
      assert (Er : dadd (INR n * ang_step) ang_step = INR (Datatypes.S n) * ang_step) by (cbn [dadd ROps]; rewrite S_INR; ring). rewrite Er in E.
      assert (GN : Forall good (ask (rotation_pair (INR n * ang_step)))).
      { apply Forall_forall. intros m I. apply ask_in in I as (rot & I & Em). apply pair_in in I.
        assert (Rt : rotation rot) by (exists n; split; [now apply step_le|exact I]).
        destruct Em as [->| ->]; (split; [reflexivity|]); (split; [exact Rt|]); [left; exists 0, 0; split; [reflexivity|now left]|right; constructor]. }
      destruct (adds_spec score step w sigma sigma_pos adm rotation _ GN e S) as (S1 & K1 & N1). destruct (IH _ _ _ S1 E) as (A & B & C). split; [exact A|]. split; [auto|].
      intros k rot x y Hk Hth Hr Hc. destruct (Nat.eq_dec n k) as [<-|NE]; [|apply (C k); auto; lia]. apply B.
      destruct Hc as [[-> ->]|(l & L & T')].
      + apply (N1 (new_match score rot (point_range 0 0))); [apply ask_in; exists rot; split; [now apply pair_in|now left]|]. split; [reflexivity|now left].
      + apply (N1 (new_match score rot w)); [apply ask_in; exists rot; split; [now apply pair_in|now right]|]. split; [reflexivity|]. right. split; [constructor|]. eauto.
    - injection E as <-. split; [exact S|]. split; [auto|]. intros k rot x y Hk Hth. exfalso.
      assert (T' : less_or_equal (dmul (dofZ 2) (INR n * ang_step)) (dmul (dofZ 2) max_th) = true); [|congruence].
      apply R_less_or_equal. cbn [dmul dofZ ROps]. apply le_INR in Hk. assert (INR n * ang_step <= INR k * ang_step) by (apply Rmult_le_compat_r; lra). assert (X := tol_pos (2 * (INR n * ang_step)) (2 * max_th)). lra.
  Qed.
  Lemma new_sound : esound engine_new.
  Proof. split; [constructor|]. cbn. split; [lra|now left]. Qed.

  Lemma request_ends : forall j n, max_th + 2 / 10000000 * (1 + max_th) < INR (n + j) * ang_step -> forall e,
    exists e', forall fuel, (j < fuel)%nat -> request_loop score fuel (dofZ 0) max_x max_y (dmul (dofZ 2) max_th) ang_step (INR n * ang_step) e = Ok e'.
  Proof.
    induction j as [|j IH]; intros n H e.
    - exists e. intros fuel Hf. destruct fuel as [|fuel]; [lia|]. cbn [request_loop]. rewrite Nat.add_0_r in H. destruct (less_or_equal _ _) eqn:T; [|reflexivity]. apply step_le in T. lra.
    - destruct (less_or_equal (dmul (dofZ 2) (INR n * ang_step)) (dmul (dofZ 2) max_th)) eqn:T.
      + destruct (IH (Datatypes.S n) ltac:(rewrite Nat.add_succ_comm; exact H) (adds e (ask (rotation_pair (INR n * ang_step))))) as (e' & E). exists e'. intros fuel Hf. destruct fuel as [|fuel]; [lia|].
        cbn [request_loop]. rewrite T, mapM_rotation. cbn [bind]. change (concat _) with (ask (rotation_pair (INR n * ang_step))).
        assert (Er : dadd (INR n * ang_step) ang_step = INR (Datatypes.S n) * ang_step) by (cbn [dadd ROps]; rewrite S_INR; ring). rewrite Er. apply E. lia.
      + exists e. intros fuel Hf. destruct fuel as [|fuel]; [lia|]. cbn [request_loop]. rewrite T. reflexivity.
  Qed.
  Lemma ask_weight K l : sides step K w -> lw step (ask l) (length l * (1 + wgt K)).
  Proof.
    intros H. induction l as [|r l IH]; [constructor|]. unfold ask. cbn [map concat app length]. replace (Datatypes.S (length l) * (1 + wgt K))%nat with (1 + (wgt K + length l * (1 + wgt K)))%nat by lia.
    constructor; [left; split; [exists 0, 0; reflexivity|reflexivity]|]. constructor; [right; exists K; split; [exact H|reflexivity]|exact IH].
  Qed.
  Lemma request_weight K fuel : sides step K w -> forall rot e e' n, lw step (e_queue e) n -> has_finest e ->
    request_loop score fuel (dofZ 0) max_x max_y (dmul (dofZ 2) max_th) ang_step rot e = Ok e' -> (exists n', lw step (e_queue e') n') /\ has_finest e'.
  Proof.
    intros HK. induction fuel as [|fuel IH]; intros rot e e' n L F E; cbn [request_loop] in E; [discriminate|].
    destruct (less_or_equal _ _); [|injection E as <-; eauto]. rewrite mapM_rotation in E. cbn [bind] in E. change (concat _) with (ask (rotation_pair rot)) in E.
    destruct (adds_weight step _ _ (ask_weight K (rotation_pair rot) HK) e n L) as (n' & L' & _). apply (IH _ _ _ n' L' (adds_finest _ _ F) E).
  Qed.
  Lemma first_ask : 0 <= score 0 (point_range 0 0) -> has_finest (adds engine_new (ask (rotation_pair (INR 0 * ang_step)))).
  Proof.
    intros H. cbn [INR]. rewrite Rmult_0_l. assert (Ep : rotation_pair (0 : R) = [0]).
    { unfold rotation_pair. cbn [dlt dopp ROps]. rewrite Ropp_0. destruct (R_lt 0 0) eqn:T; [apply R_lt_true in T; lra|reflexivity]. }
    rewrite Ep. unfold ask. cbn [map concat app]. change (adds engine_new ?l) with (adds (add_match (dofZ 0) engine_new (hd (new_match score 0 w) l)) (tl l)). cbn [hd tl].
    apply adds_finest. destruct (add_spec engine_new (new_match score 0 (point_range 0 0))) as [[L _]|(_ & E & _)]; [cbn in L; lra|].
    exists (new_match score 0 (point_range 0 0)). rewrite E. split; [now left|]. apply (point_finest score).
  Qed.
End Request.

Lemma sides_exist step r : 1 / IZR (2 ^ 52) < step -> exists K, sides step K r.
Proof.
  intros H. set (h := step - 1 / IZR (2 ^ 52)). assert (0 < h) by (unfold h; lra).
  assert (P : forall a, exists K, a <= h * 2 ^ K).
  { intros a. destruct (Pow_x_infinity 2) with (b := a / h) as (K & HK); [rewrite Rabs_pos_eq; lra|]. exists K. specialize (HK K (le_n K)). rewrite Rabs_pos_eq in HK by (apply pow_le; lra).
    apply Rge_le in HK. apply (Rmult_le_compat_l h) in HK; [|lra]. replace (h * (a / h)) with a in HK by (field; lra). exact HK. }
  destruct (P (right r - left r)) as (K1 & H1). destruct (P (top r - bot r)) as (K2 & H2). exists (K1 + K2)%nat. unfold sides. fold h. rewrite pow_add.
  assert (1 <= 2 ^ K1) by (apply pow_R1_Rle; lra). assert (1 <= 2 ^ K2) by (apply pow_R1_Rle; lra).
  assert (h * 2 ^ K1 <= h * (2 ^ K1 * 2 ^ K2)) by (apply Rmult_le_compat_l; [lra|]; rewrite <- (Rmult_1_r (2 ^ K1)) at 1; apply Rmult_le_compat_l; lra).
  assert (h * 2 ^ K2 <= h * (2 ^ K1 * 2 ^ K2)) by (apply Rmult_le_compat_l; [lra|]; rewrite <- (Rmult_1_l (2 ^ K2)) at 1; apply Rmult_le_compat_r; lra).
  lra.
Qed.

Lemma admissible_0 step w score : admissible step w score -> admissible_upto step 0 w score.
Proof.
  intros [A B]. split; [intros rot r c Rn P; specialize (A rot r c Rn P); lra|]. intros rot r l x y Rn L T. rewrite Rplus_0_r.
  assert (Lw := range_leaf_of step w _ l Rn L). apply Rle_trans with (score rot l); [now apply B|]. clear - A Rn L.
  induction L as [r L|r c l P L IH]; [lra|]. apply Rle_trans with (score rot c); [|now apply A]. apply IH, (r_part step w r c Rn P).
Qed.
Lemma m3_best score pop delta sigma fuel max_x max_y max_th ang_step step m :
  0 <= max_x -> 0 <= max_y -> 0 <= max_th -> 0 < ang_step -> 1 / IZR (2 ^ 52) <= step -> queue_ok (scored step (window max_x max_y) score) delta pop -> 0 <= sigma -> admissible_upto step sigma (window max_x max_y) score ->
  m3rsm_search score pop fuel max_x max_y max_th ang_step step = Ok m ->
  (exists x y, m_drift m = point_range x y /\ candidate step (window max_x max_y) x y /\ m_prob m = score (m_rot m) (point_range x y)) /\ 0 <= m_prob m /\
  rotation_near max_th ang_step (m_rot m) /\
  forall rot x y, rotation_tried max_th ang_step rot -> candidate step (window max_x max_y) x y -> score rot (point_range x y) <= m_prob m + Rmax 0 delta + sigma.
Proof.
  intros Hx Hy Ht Ha Hs Hq Sg Had E. unfold m3rsm_search in E. apply bind_Ok_inv in E as (e & ER & E).
  assert (E0 : dofZ 0 = INR 0 * ang_step) by (cbn; ring). rewrite E0 in ER at 2.
  assert (WP : proper (window max_x max_y)) by (unfold proper, window; cbn [bot top left right]; lra).
  destruct (request_spec score step max_x max_y max_th ang_step (conj Hx Hy) Ht Ha sigma Sg Had fuel 0 engine_new e (new_sound _ _ _ _ _ _) ER) as (S & _ & K).
  destruct (search_spec score pop delta step (window max_x max_y) WP Hs Hq sigma Sg Had (rotation_near max_th ang_step) fuel e m S E) as (Sm & Fm & B).
  destruct (finest_point score step (window max_x max_y) WP _ m Sm Fm) as (x & y & Ed).
  assert (Sm' := Sm). destruct Sm' as (P1 & P2 & P3 & P4).
  split; [|split; [exact P2|split; [exact P3|]]].
  - exists x, y. split; [exact Ed|]. split; [|rewrite <- Ed; exact P1].
    destruct P4 as [(x' & y' & Ed' & C)|Rn].
    + rewrite Ed in Ed'. assert (Ex : x = x') by exact (f_equal left Ed'). assert (Ey : y = y') by exact (f_equal bot Ed'). subst x' y'. exact C.
    + right. exists (m_drift m). split; [|rewrite Ed; left; cbn; auto]. apply (range_leaf_of step _ (m_drift m)); [exact Rn|]. apply l_self. rewrite Ed. now apply leaf_point.
  - intros rot x' y' (n & Hn & Hr) C. apply B. apply (K n); auto. lia.
Qed.

Lemma m3_total score pop delta sigma max_x max_y max_th ang_step step :
  0 <= max_x -> 0 <= max_y -> 0 <= max_th -> 0 < ang_step -> 1 / IZR (2 ^ 52) < step -> queue_ok (scored step (window max_x max_y) score) delta pop -> 0 <= sigma -> admissible_upto step sigma (window max_x max_y) score ->
  0 <= score 0 (point_range 0 0) -> exists n, forall fuel, (n <= fuel)%nat -> exists m, m3rsm_search score pop fuel max_x max_y max_th ang_step step = Ok m.
Proof.
  intros Hx Hy Ht Ha Hs Hq Sg Had H0. assert (WP : proper (window max_x max_y)) by (unfold proper, window; cbn [bot top left right]; lra).
  assert (J : exists j, max_th + 2 / 10000000 * (1 + max_th) < INR (1 + j) * ang_step).
  { destruct (archimed ((max_th + 2 / 10000000 * (1 + max_th)) / ang_step)) as [A _]. set (z := up ((max_th + 2 / 10000000 * (1 + max_th)) / ang_step)) in *. exists (Z.to_nat z). rewrite plus_INR, (INR_IZR_INZ (Z.to_nat z)). change (INR 1) with 1.
    assert (A' : max_th + 2 / 10000000 * (1 + max_th) < IZR z * ang_step) by (apply (Rmult_lt_compat_r ang_step) in A; [|exact Ha]; unfold Rdiv in A; rewrite Rmult_assoc, Rinv_l, Rmult_1_r in A by lra; exact A).
    assert (IZR z <= IZR (Z.of_nat (Z.to_nat z))) by (apply IZR_le; lia). assert (IZR z * ang_step <= (1 + IZR (Z.of_nat (Z.to_nat z))) * ang_step) by (apply Rmult_le_compat_r; lra). lra. }
  destruct J as (j & Hj). set (e1 := add_matches (dofZ 0) engine_new (ask score max_x max_y (rotation_pair (INR 0 * ang_step)))).
  destruct (request_ends score max_x max_y max_th ang_step (conj Hx Hy) Ht Ha j 1 Hj e1) as (e & HE).
  destruct (sides_exist step (window max_x max_y) Hs) as (K & HK).
  assert (F1 : has_finest e1) by (apply first_ask; assumption).
  destruct (adds_weight step _ _ (ask_weight score step max_x max_y K (rotation_pair (INR 0 * ang_step)) HK) engine_new 0%nat ltac:(constructor)) as (n1 & L1 & _). fold e1 in L1.
  assert (Q := HE (Datatypes.S j) (le_n _)).
  destruct (request_weight score step max_x max_y max_th ang_step (conj Hx Hy) K _ HK _ e1 e n1 L1 F1 Q) as ((n & L) & F).
  assert (R1 : forall fuel, (j < fuel)%nat -> request_loop score (Datatypes.S fuel) (dofZ 0) max_x max_y (dmul (dofZ 2) max_th) ang_step (INR 0 * ang_step) engine_new = Ok e).
  { intros fuel Hf. cbn [request_loop]. assert (T : less_or_equal (dmul (dofZ 2) (INR 0 * ang_step)) (dmul (dofZ 2) max_th) = true).
    { apply R_less_or_equal. cbn [INR dmul dofZ ROps]. assert (X := tol_pos (2 * (0 * ang_step)) (2 * max_th)). lra. }
    rewrite T, (mapM_rotation score max_x max_y (conj Hx Hy)). cbn [bind]. rewrite <- (HE fuel Hf). f_equal. cbn [dadd ROps INR]. ring. }
  exists (j + n + 3)%nat. intros fuel Hf. unfold m3rsm_search.
  assert (E0 : dofZ 0 = INR 0 * ang_step) by (cbn; ring). assert (R2 := R1). rewrite <- E0 in R2. destruct fuel as [|fuel]; [lia|]. rewrite R2 by lia. cbn [bind].
  apply (search_total score pop delta step (window max_x max_y) WP ltac:(lra) Hq sigma Sg Had (rotation_near max_th ang_step) (Datatypes.S fuel) e n); auto; [|lia].
  destruct (request_spec score step max_x max_y max_th ang_step (conj Hx Hy) Ht Ha sigma Sg Had _ 0 engine_new e (new_sound _ _ _ _ _ _) (R1 (Datatypes.S j) ltac:(lia))) as (S & _). exact S.
Qed.

(** every translation of the window is in a leaf *)
Definition inside (r : rect R) (x y : R) : Prop := left r <= x <= right r /\ bot r <= y <= top r.
Lemma inside_part step r x y : proper r -> ~ leaf step r -> inside r x y -> exists c, part step r c /\ inside c x y.
Proof.
  intros [P1 P2] NL [X Y]. assert (A := mid_bounds _ _ P1). assert (B := mid_bounds _ _ P2).
  assert (DH : long step (left r) (right r) \/ ~ long step (left r) (right r)) by (rewrite <- less_long; destruct (less step _); auto).
  assert (DV : long step (bot r) (top r) \/ ~ long step (bot r) (top r)) by (rewrite <- less_long; destruct (less step (dsub (top r) (bot r))); auto).
  destruct (Rle_lt_dec x (mid (left r) (right r))) as [Hx|Hx]; destruct (Rle_lt_dec y (mid (bot r) (top r))) as [Hy|Hy]; destruct DH as [DH|DH]; destruct DV as [DV|DV];
    try (exfalso; apply NL; split; assumption).
  1: exists (left_half (lower_half r)); split; [now apply (p_ll step r)|]. 2: exists (left_half r); split; [now apply (p_left step r)|]. 3: exists (lower_half r); split; [now apply (p_lower step r)|].
  4: exists (left_half (upper_half r)); split; [now apply (p_lu step r)|]. 5: exists (left_half r); split; [now apply (p_left step r)|]. 6: exists (upper_half r); split; [now apply (p_upper step r)|].
  7: exists (right_half (lower_half r)); split; [now apply (p_rl step r)|]. 8: exists (right_half r); split; [now apply (p_right step r)|]. 9: exists (lower_half r); split; [now apply (p_lower step r)|].
  10: exists (right_half (upper_half r)); split; [now apply (p_ru step r)|]. 11: exists (right_half r); split; [now apply (p_right step r)|]. 12: exists (upper_half r); split; [now apply (p_upper step r)|].
  all: unfold inside, left_half, right_half, lower_half, upper_half; cbn [bot top left right]; lra.
Qed.
Lemma inside_leaf step K : 1 / IZR (2 ^ 52) < step -> forall r x y, proper r -> sides step K r -> inside r x y -> exists l, leaf_of step r l /\ inside l x y /\ proper l.
Proof.
  intros Hs. induction K as [|K IH]; intros r x y P SK I.
  - exists r. split; [apply l_self, (sides0_leaf step r SK)|auto].
  - assert (DL : leaf step r \/ ~ leaf step r).
    { unfold leaf. rewrite <- !less_not_long. destruct (less step (dsub (right r) (left r))); destruct (less step (dsub (top r) (bot r))); intuition discriminate. }
    destruct DL as [L|NL]; [exists r; split; [now apply l_self|auto]|].
    destruct (inside_part step r x y P NL I) as (c & Pc & Ic). destruct (IH c x y (part_proper step r c P Pc)) as (l & L & Il); [|exact Ic|].
    + apply (part_sides step ltac:(lra) K r c P SK Pc).
    + exists l. split; [exact (l_part step r c l Pc L)|exact Il].
Qed.
Lemma candidates_dense step (W : rect R) x y : 1 / IZR (2 ^ 52) < step -> proper W -> inside W x y -> exists x' y', candidate step W x' y' /\ Rabs (x - x') <= step / 2 /\ Rabs (y - y') <= step / 2.
Proof.
  intros Hs P I. destruct (sides_exist step W Hs) as (K & SK). destruct (inside_leaf step K Hs W x y P SK I) as (l & L & [X Y] & [P1 P2]).
  destruct (leaf_of_range step W W l (r_self step W) L) as [_ [L1 L2]]. unfold long in L1, L2. assert (E := eps52).
  assert (HX : exists x', (x' = left l \/ x' = right l) /\ Rabs (x - x') <= step / 2).
  { destruct (Rle_lt_dec (x - left l) (right l - x)); [exists (left l)|exists (right l)]; (split; [auto|]); apply Rabs_le; lra. }
  assert (HY : exists y', (y' = bot l \/ y' = top l) /\ Rabs (y - y') <= step / 2).
  { destruct (Rle_lt_dec (y - bot l) (top l - y)); [exists (bot l)|exists (top l)]; (split; [auto|]); apply Rabs_le; lra. }
  destruct HX as (x' & Hx & Dx). destruct HY as (y' & Hy & Dy). exists x', y'. split; [|auto]. right. exists l. split; [exact L|]. left. auto.
Qed.

(** the comparison of matches *)
Lemma not_less_prob (m x : mtch R) : match_less m x = false -> m_prob x <= m_prob m + tol (m_prob m) (m_prob x).
Proof.
  unfold match_less. destruct (are_equal (m_prob m) (m_prob x)) eqn:E; cbn [negb].
  - intros _. apply R_are_equal in E. assert (X := Rle_abs (- (m_prob m - m_prob x))). rewrite Rabs_Ropp in X. lra.
  - intros L. destruct (Rle_lt_dec (m_prob x) (m_prob m)) as [H|H]; [assert (T := tol_pos (m_prob m) (m_prob x)); lra|].
    exfalso. assert (X : less (m_prob m) (m_prob x) = true) by (apply R_less; assert (Y := eps52); lra). congruence.
Qed.

Lemma are_equal_sep a b : separated a b -> are_equal a b = true <-> a = b.
Proof.
  intros [->|S]; rewrite R_are_equal.
  - split; [auto|]. intros _. rewrite Rminus_diag_eq, Rabs_R0 by reflexivity. assert (T := tol_pos b b). lra.
  - split; [lra|]. intros ->. rewrite Rminus_diag_eq, Rabs_R0 in S by reflexivity. assert (T := tol_pos b b). lra.
Qed.
Lemma match_less_sep a b : separated (m_prob a) (m_prob b) -> separated (drift_amount a) (drift_amount b) ->
  match_less a b = true <-> m_prob a < m_prob b \/ m_prob a = m_prob b /\ (drift_amount b < drift_amount a \/ drift_amount b = drift_amount a /\ Rabs (m_rot b) < Rabs (m_rot a)).
Proof.
  intros S1 S2. unfold match_less. destruct (are_equal (m_prob a) (m_prob b)) eqn:E; cbn [negb].
  - apply (are_equal_sep _ _ S1) in E. destruct (are_equal (drift_amount a) (drift_amount b)) eqn:E2; cbn [negb].
    + apply (are_equal_sep _ _ S2) in E2. cbn [dlt dabs ROps]. rewrite R_lt_true. split; [intros; right; split; [exact E|right; auto]|]. intros [L|(_ & [L|(_ & L)])]; [lra|lra|exact L].
    + cbn [dlt ROps]. rewrite R_lt_true. split; [intros; right; auto|]. intros [L|(_ & [L|(L & _)])]; [lra|exact L|].
      exfalso. symmetry in L. apply (are_equal_sep _ _ S2) in L. congruence.
  - rewrite R_less. destruct S1 as [S1|S1]; [exfalso; assert (X : are_equal (m_prob a) (m_prob b) = true) by (apply are_equal_sep; [now left|exact S1]); congruence|].
    assert (T := tol_pos (m_prob a) (m_prob b)). assert (E52 := eps52). split.
    + intros L. left. unfold Rabs in S1. destruct (Rcase_abs _) in S1; lra.
    + intros [L|(L & _)]; [lra|]. exfalso. rewrite L in S1. rewrite Rminus_diag_eq, Rabs_R0 in S1 by reflexivity. rewrite L in T. lra.
Qed.
Lemma match_swo l : (forall a b, In a l -> In b l -> separated (m_prob a) (m_prob b) /\ separated (drift_amount a) (drift_amount b)) -> strict_weak_order l match_less.
Proof.
  intros S. assert (M : forall a b, In a l -> In b l -> match_less a b = true <-> m_prob a < m_prob b \/ m_prob a = m_prob b /\ (drift_amount b < drift_amount a \/ drift_amount b = drift_amount a /\ Rabs (m_rot b) < Rabs (m_rot a))).
  { intros a b A B. destruct (S a b A B). now apply match_less_sep. }
  split; [|split].
  - intros a A. destruct (match_less a a) eqn:E; [|reflexivity]. apply (M a a A A) in E. lra.
  - intros a b c A B C. rewrite !M by assumption. lra.
  - intros a b c A B C. rewrite <- !not_true_iff_false. rewrite !M by assumption. lra.
Qed.
Lemma queue_exact step W score pop : priority_queue match_less pop ->
  (forall rot r rot' r', separated (score rot r) (score rot' r')) ->
  (forall a b, scored step W score a -> scored step W score b -> separated (drift_amount a) (drift_amount b)) ->
  queue_ok (scored step W score) 0 pop.
Proof.
  intros [P0 PN] S1 S2. split; [exact P0|]. intros q NE F. destruct (PN q NE) as (m & rest & E & P & Top). exists m, rest. split; [exact E|]. split; [exact P|].
  rewrite Forall_forall in F. assert (SS : forall a b, In a q -> In b q -> separated (m_prob a) (m_prob b) /\ separated (drift_amount a) (drift_amount b)).
  { intros a b A B. destruct (F a A) as (Ea & _). destruct (F b B) as (Eb & _). split; [rewrite Ea, Eb; apply S1|apply S2; now apply F]. }
  intros x I. assert (Im : In m q) by (apply (Permutation_in m (Permutation_sym P)); now left).
  assert (L := Top (match_swo q SS) x I). destruct (SS m x Im I) as [A B]. destruct (Rle_lt_dec (m_prob x) (m_prob m)); [lra|]. exfalso.
  assert (X : match_less m x = true) by (apply match_less_sep; auto). congruence.
Qed.
(** any queue that returns an element no other is greater than *)
Lemma queue_near step W score pop : pop [] = None ->
  (forall q, q <> [] -> Forall (scored step W score) q -> exists m rest, pop q = Some (m, rest) /\ Permutation q (m :: rest) /\ forall x, In x q -> match_less m x = false) ->
  (forall rot r, score rot r <= 1) -> queue_ok (scored step W score) (1 / 10000000) pop.
Proof.
  intros P0 PN S1. split; [exact P0|]. intros q NE F. destruct (PN q NE F) as (m & rest & E & P & Top). exists m, rest. split; [exact E|]. split; [exact P|].
  intros x I. assert (Im : In m q) by (apply (Permutation_in m (Permutation_sym P)); now left). rewrite Forall_forall in F. destruct (F x I) as (Ex & Px & _). destruct (F m Im) as (Em & Pm & _).
  assert (L := not_less_prob m x (Top x I)). assert (X1 := S1 (m_rot x) (m_drift x)). assert (X2 := S1 (m_rot m) (m_drift m)). rewrite <- Ex in X1. rewrite <- Em in X2.
  unfold tol in L. rewrite !Rabs_pos_eq in L by assumption. revert L. unfold Rmax. repeat destruct (Rle_dec _ _); lra.
Qed.
