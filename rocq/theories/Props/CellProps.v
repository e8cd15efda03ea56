(** C14-C19, C54: grid cells. *)
From Coq Require Import Reals ZArith List Lia Lra Bool.
From Flocq Require Import Core.
From Verif.Base Require Import Outcome Num XReal F64Facts.
From Verif.Model Require Import MathUtils Geometry PlainMap Cells.
From Verif.Spec Require Import CellSpec.
From Verif.Proofs Require Import MeanFloatProofs TbmProofs CellProofs TbmFloatProofs.
Import ListNotations.
Local Open Scope R_scope.

(** C14 (IEEE double arithmetic).  [f01 x]: x is a finite double of [0,1]; [obs01 a]: the observation is invalid (NaN)
    or has probability and quality in [0,1]. *)
Theorem C14_affine_cell_stays_a_probability :
  forall h : list (aoo F64), Forall obs01 h ->
  f01 (c_prob (fold_left affine_upd h affine_new)).
Proof. intros h. exact (affine_run01 h affine_new affine_new01). Qed.
Print Assumptions C14_affine_cell_stays_a_probability.

Theorem C14_affine_cell_extreme_qualities :
  forall (h : list (aoo F64)) (a : aoo F64), Forall obs01 h ->
  occ_valid (a_occ a) = true -> f01 (prob_occ (a_occ a)) -> F_fin (a_quality a) = true ->
  let c := fold_left affine_upd h affine_new in
  (F2R64 (a_quality a) = 0 -> F2R64 (c_prob (affine_upd c a)) = F2R64 (c_prob c)) /\
  (F2R64 (a_quality a) = 1 -> F2R64 (c_prob (affine_upd c a)) = F2R64 (prob_occ (a_occ a))).
Proof.
  intros h a Hh Hv Ho Fq c. assert (Hc : f01 (c_prob c)) by exact (affine_run01 h affine_new affine_new01 Hh).
  split; intros Hq; [apply affine_q0; auto; apply Ho|apply affine_q1; auto].
Qed.
Print Assumptions C14_affine_cell_extreme_qualities.

(** invalid observations change nothing *)
Theorem C14_affine_cell_ignores_invalid :
  forall (c : gcell F64) (a : aoo F64), occ_valid (a_occ a) = false -> affine_upd c a = c.
Proof. intros c a H. unfold affine_upd. rewrite H. reflexivity. Qed.
Print Assumptions C14_affine_cell_ignores_invalid.

Definition fobs (p q : F64) : aoo F64 := mkAoo true (mkOcc p (dofZ 1)) (dofZ 0, dofZ 0) q.
Lemma f01_lit (n d : Z) : (0 <= n <= d)%Z -> (0 < d <= 2 ^ 53)%Z -> f01 (dlit n d).
Proof.
  intros Hn Hd. assert (D : 0 < IZR d) by (apply (IZR_lt 0); lia).
  assert (B : 0 <= IZR n / IZR d <= 1).
  { split; [apply Rle_mult_inv_pos; auto; apply (IZR_le 0); lia|].
    apply Rmult_le_reg_r with (IZR d); auto. unfold Rdiv. rewrite Rmult_assoc, Rinv_l by lra.
    rewrite Rmult_1_r, Rmult_1_l. apply IZR_le; lia. }
  destruct (F_dlit_correct n d) as [E F]; try lia; [apply no_ovf_1; lra|].
  split; auto. rewrite E. unfold in01. apply rnd_between; [apply fmt_0|apply fmt_1|exact B].
Qed.
Example C14_case_hyps : Forall obs01 [fobs (dlit 9 10) (dlit 1 3); fobs (dlit 1 1) (dlit 1 1); fobs (dlit 1 7) (dlit 0 1)].
Proof.
  repeat (constructor; [right; split; apply f01_lit; lia|]). constructor.
Qed.

(** C15, exact arithmetic: [readings h] are the (probability, quality) pairs of the valid observations of [h] *)
Theorem C15_mean_cell_is_the_mean :
  forall h : list (aoo XR), Forall num_quality h ->
  c_prob (m_cell (fold_left mean_upd h mean_new))
  = Some (mean_or (/ 2) (map (fun r => quality_adjusted (fst r) (snd r)) (readings h))).
Proof.
  intros h Hh. assert (S0 : mean_state [] (mean_new : mcell XR)).
  { split; [reflexivity|]. apply xhalf. }
  apply (mean_run_state h [] mean_new S0 Hh).
Qed.
Print Assumptions C15_mean_cell_is_the_mean.

(** C15, IEEE doubles, histories of any length (the double counter saturates at 2^53) *)
Theorem C15_mean_cell_stays_a_probability :
  forall h : list (aoo F64), Forall obs01 h -> f01 (c_prob (m_cell (fold_left mean_upd h mean_new))).
Proof. intros h. exact (mean_run01 h mean_new 0 (proj1 mean_new01) (proj2 mean_new01)). Qed.
Print Assumptions C15_mean_cell_stays_a_probability.

(** ... and within 3/2 (n + 1) 2^-53 of the exact mean of the n valid observations *)
Theorem C15_mean_cell_is_near_the_mean_in_binary64 :
  forall h : list (aoo F64), Forall obs01 h -> (Z.of_nat (length h) <= 2 ^ 53)%Z ->
  let valid := filter (fun a => occ_valid (a_occ a)) h in
  Rabs (F2R64 (c_prob (m_cell (fold_left mean_upd h mean_new)))
        - mean_or (/ 2) (map (fun a => quality_adjusted (F2R64 (prob_occ (a_occ a))) (F2R64 (a_quality a))) valid))
  <= 3 / 2 * bpow radix2 (-53) * (INR (length valid) + 1).
Proof.
  intros h Hh Hl valid. destruct (mean_float_run h Hh Hl) as (_ & _ & _ & H). rewrite map_length in H. exact H.
Qed.
Print Assumptions C15_mean_cell_is_near_the_mean_in_binary64.

Theorem C15_mean_cell_ignores_invalid :
  forall (c : mcell F64) (a : aoo F64), occ_valid (a_occ a) = false -> mean_upd c a = c.
Proof. intros c a H. unfold mean_upd. rewrite H. reflexivity. Qed.
Print Assumptions C15_mean_cell_ignores_invalid.

Definition xobs_of (o e q x y : XR) : aoo XR := mkAoo true (mkOcc o e) (x, y) q.
Example C15_case :
  let h := [xobs_of (Some 1) (Some 1) (Some 1) None None; xobs_of None (Some 1) (Some 1) None None;
            xobs_of (Some 0) (Some 1) (Some (/ 2)) None None] in
  Forall num_quality h /\ readings h = [(1, 1); (0, / 2)] /\
  c_prob (m_cell (fold_left mean_upd h mean_new)) = Some (5 / 8).
Proof.
  cbv zeta. assert (H : Forall num_quality [xobs_of (Some 1) (Some 1) (Some 1) None None; xobs_of None (Some 1) (Some 1) None None;
            xobs_of (Some 0) (Some 1) (Some (/ 2)) None None]) by (repeat (constructor; [discriminate|]); constructor).
  split; [exact H|]. split; [reflexivity|]. rewrite C15_mean_cell_is_the_mean by exact H.
  f_equal. cbn. unfold Rmean, quality_adjusted. cbn. lra.
Qed.

(** C16, exact arithmetic.  [gm_readings h]: (probability, obstacle point) of the valid observations.  The occupancy
    is the mean over all of them of (probability if above 1/2, else 0); the obstacle is the mean hit point. *)
Theorem C16_gmapping_cell_statistics :
  forall h : list (aoo XR), Forall num_obst h -> (Z.of_nat (length h) < 2 ^ 31)%Z ->
  exists c, gm_run gm_new h = Ok c /\
    let l := gm_readings h in let hits := filter (fun r => negb (R_le (fst r) (/ 2))) l in
    c_prob (g_cell c) = Some (mean_or (-1) (map (fun r => if negb (R_le (fst r) (/ 2)) then fst r else 0) l)) /\
    g_obst c = (Some (mean_or 0 (map (fun r => fst (snd r)) hits)), Some (mean_or 0 (map (fun r => snd (snd r)) hits))) /\
    g_tries c = Z.of_nat (length l) /\ g_hits c = Z.of_nat (length hits).
Proof.
  intros h Hh Hl. destruct (gm_run_state h [] gm_new gm_new_state Hh Hl) as (c & E & H1 & H2 & H3 & H4).
  exists c. split; [exact E|]. cbv zeta. cbn [app] in *. auto.
Qed.
Print Assumptions C16_gmapping_cell_statistics.

(** with certain observations (probability 0 or 1, as the scan adder of GMapping produces) the occupancy is hits / tries *)
Theorem C16_gmapping_cell_hit_ratio :
  forall h : list (aoo XR), Forall num_obst h -> (Z.of_nat (length h) < 2 ^ 31)%Z ->
  (forall r, In r (gm_readings h) -> fst r = 0 \/ fst r = 1) -> gm_readings h <> [] ->
  exists c, gm_run gm_new h = Ok c /\ c_prob (g_cell c) = Some (IZR (g_hits c) / IZR (g_tries c)).
Proof.
  intros h Hh Hl H01 Hne. destruct (C16_gmapping_cell_statistics h Hh Hl) as (c & E & Ep & _ & Et & Eh).
  exists c. split; [exact E|]. rewrite Ep, Et, Eh. cbv zeta. f_equal.
  assert (M : forall l : list (R * (R * R)), (forall r, In r l -> fst r = 0 \/ fst r = 1) ->
     Rsum (map (fun r => if negb (R_le (fst r) (/ 2)) then fst r else 0) l)
     = IZR (Z.of_nat (length (filter (fun r => negb (R_le (fst r) (/ 2))) l)))).
  { induction l as [|r l IH]; intros Hl'; [reflexivity|]. cbn [map filter].
    assert (RC : forall x y, Rsum (x :: y) = x + Rsum y) by reflexivity. rewrite RC.
    rewrite IH by (intros; apply Hl'; right; auto).
    destruct (Hl' r (or_introl eq_refl)) as [Er|Er]; rewrite Er.
    - replace (R_le 0 (/ 2)) with true by (symmetry; apply R_le_true; lra). cbn [negb]. ring.
    - replace (R_le 1 (/ 2)) with false by (symmetry; apply R_le_false; lra). cbn [negb length].
      rewrite Nat2Z.inj_succ, succ_IZR. ring. }
  rewrite <- (M _ H01). destruct (gm_readings h) as [|r l]; [congruence|].
  cbn [map mean_or]. unfold Rmean. cbn [length]. rewrite map_length, INR_IZR_INZ. reflexivity.
Qed.
Print Assumptions C16_gmapping_cell_hit_ratio.

(** C16, IEEE doubles: after the first valid observation the occupancy is a probability *)
Theorem C16_gmapping_cell_stays_a_probability :
  forall h : list (aoo F64), Forall gm_obs01 h -> (Z.of_nat (length h) < 2 ^ 31)%Z ->
  Exists (fun a => occ_valid (a_occ a) = true) h ->
  exists c, gm_run gm_new h = Ok c /\ f01 (c_prob (g_cell c)).
Proof.
  intros h Hh Hl He. destruct (gm_run_ok h gm_new gm_new_ok Hh Hl) as (c & E & [_ H] & _ & HP).
  exists c. split; [exact E|]. specialize (HP He). destruct H as [[Z _]|[_ H]]; [lia|exact H].
Qed.
Print Assumptions C16_gmapping_cell_stays_a_probability.

(** ... within 3/2 (n + 1) 2^-53 of the exact mean over the n valid observations, and the obstacle is near the mean hit point:
    within 3/2 (m + 1) 2^(e-53) per coordinate for m hits whose coordinates are at most 2^e in magnitude *)
Theorem C16_gmapping_cell_is_near_the_means_in_binary64 :
  forall (e : Z) (h : list (aoo F64)), (-900 <= e <= 900)%Z -> (Z.of_nat (length h) < 2 ^ 31)%Z ->
  Forall gm_obs01 h ->
  Forall (fun a => F_fin (ptx (a_obst a)) = true /\ Rabs (F2R64 (ptx (a_obst a))) <= bpow radix2 e /\
                   F_fin (pty (a_obst a)) = true /\ Rabs (F2R64 (pty (a_obst a))) <= bpow radix2 e) h ->
  let valid := filter (fun a => occ_valid (a_occ a)) h in
  let above (a : aoo F64) := negb (dle (prob_occ (a_occ a)) dhalf) in
  let hits := filter (fun a => occ_valid (a_occ a) && above a) h in
  let near (x : F64) (unit mean : R) (n : nat) := F_fin x = true /\ Rabs (F2R64 x - mean) <= 3 / 2 * (bpow radix2 (-53) * unit) * (INR n + 1) in
  exists c, gm_run gm_new h = Ok c /\ g_tries c = Z.of_nat (length valid) /\ g_hits c = Z.of_nat (length hits) /\
    near (c_prob (g_cell c)) 1 (mean_or (-1) (map (fun a => if above a then F2R64 (prob_occ (a_occ a)) else 0) valid)) (length valid) /\
    near (ptx (g_obst c)) (bpow radix2 e) (mean_or 0 (map (fun a => F2R64 (ptx (a_obst a))) hits)) (length hits) /\
    near (pty (g_obst c)) (bpow radix2 e) (mean_or 0 (map (fun a => F2R64 (pty (a_obst a))) hits)) (length hits).
Proof.
  intros e h He Hl Hh Ho valid above hits near. destruct (gm_float_run e h He Hh Ho Hl) as (c & E & Ht & Hn & (P1 & _ & _ & P2) & (X1 & _ & _ & X2) & (Y1 & _ & _ & Y2)).
  rewrite map_length in P2, X2, Y2. exists c. split; [exact E|]. split; [exact Ht|]. split; [exact Hn|]. split; [|split; split; assumption].
  split; [exact P1|]. erewrite map_ext; [exact P2|]. intros a. unfold above, contrF. now destruct (dle (prob_occ (a_occ a)) dhalf).
Qed.
Print Assumptions C16_gmapping_cell_is_near_the_means_in_binary64.

Example C16_case :
  let h := [xobs_of (Some 1) (Some 1) (Some 1) (Some 2) (Some 4); xobs_of None None (Some 1) (Some 9) (Some 9);
            xobs_of (Some 0) (Some 1) (Some 1) (Some 7) (Some 7); xobs_of (Some 1) (Some 1) (Some 1) (Some 4) (Some 6)] in
  Forall num_obst h /\ gm_readings h = [(1, (2, 4)); (0, (7, 7)); (1, (4, 6))].
Proof.
  cbv zeta. split; [|reflexivity]. repeat (constructor; [split; discriminate|]). constructor.
Qed.

(** C17.  Every belief assignment that can be built from observations ([good_obs]: probability and qualities in
    [0,1], or invalid) with the operations of the code has masses in [0,1] summing to one (exact arithmetic; the masses
    are numbers: no division by zero happened on the way). *)
Inductive built : tbm XR -> Prop :=
| built_default : built tbm_default
| built_obs a : good_obs a -> built (aoo2tbm a)
| built_conj a b : built a -> built b -> built (conjunctive a b)
| built_disj a b : built a -> built b -> built (disjunctive a b)
| built_norm a : built a -> built (tbm_normalize a)
| built_normc a : built a -> built (tbm_normalize_conflict a)
| built_cell conv c h : built (tc_belief c) -> Forall good_obs h -> built (tc_belief (fold_left (tcell_upd conv) h c)).
Theorem C17_masses_stay_normalised :
  forall t, built t -> exists u e o c, t = mkTbm (Some u) (Some e) (Some o) (Some c) /\
    0 <= u <= 1 /\ 0 <= e <= 1 /\ 0 <= o <= 1 /\ 0 <= c <= 1 /\ u + e + o + c = 1.
Proof.
  intros t H. assert (K : tbm_ok t).
  { induction H.
    - apply default_ok.
    - apply aoo2tbm_ok; auto.
    - apply conj_ok; auto.
    - apply disj_ok; auto.
    - apply norm_ok; auto.
    - apply normconf_ok; auto.
    - apply tcell_run_ok; auto. }
  destruct K as (u & e & o & c & -> & H1 & H2 & H3 & H4 & HS).
  exists u, e, o, c. split; [reflexivity|]. repeat split; lra.
Qed.
Print Assumptions C17_masses_stay_normalised.
(** C17, IEEE doubles: [fgood_obs a]: the observation is invalid or its probability and qualities are finite doubles of
    [0,1].  No operation of the code ever produces a NaN, an infinity or a mass outside [0,1]; the sum of the four masses
    is within 2^-50 of one, however long the history. *)
Inductive fbuilt : tbm F64 -> Prop :=
| fbuilt_default : fbuilt tbm_default
| fbuilt_obs a : fgood_obs a -> fbuilt (aoo2tbm a)
| fbuilt_conj a b : fbuilt a -> fbuilt b -> fbuilt (conjunctive a b)
| fbuilt_disj a b : fbuilt a -> fbuilt b -> fbuilt (disjunctive a b)
| fbuilt_norm a : fbuilt a -> fbuilt (tbm_normalize a)
| fbuilt_normc a : fbuilt a -> fbuilt (tbm_normalize_conflict a)
| fbuilt_cell conv c h : fbuilt (tc_belief c) -> Forall fgood_obs h -> fbuilt (tc_belief (fold_left (tcell_upd conv) h c)).
Theorem C17_masses_binary64 :
  forall t, fbuilt t ->
  f01 (t_unknown t) /\ f01 (t_empty t) /\ f01 (t_occupied t) /\ f01 (t_conflict t) /\
  Rabs (F2R64 (t_unknown t) + F2R64 (t_empty t) + F2R64 (t_occupied t) + F2R64 (t_conflict t) - 1) <= / 2 ^ 50.
Proof.
  intros t H. assert (K : tok t).
  { induction H.
    - apply default_tok.
    - apply aoo2tbm_tok; auto.
    - apply combine_tok; [apply IHfbuilt1|apply IHfbuilt2].
    - apply combine_tok; [apply IHfbuilt1|apply IHfbuilt2].
    - apply (norm_tok 1); [lia|apply IHfbuilt].
    - apply normconf_tok. apply IHfbuilt.
    - apply tcell_run_tok; auto. }
  destruct K as [(H1 & H2 & H3 & H4) HS]. do 4 (split; [assumption|]).
  apply Rle_trans with (1 := HS). rewrite hh_2_53. replace (2 ^ 53) with (2 ^ 50 * 8) by ring. apply Req_le. field.
Qed.
Print Assumptions C17_masses_binary64.
(** a cell never keeps a conflict mass: after an update it is exactly zero *)
Theorem C17_no_conflict_kept :
  forall conv (c : tcell F64) (a : aoo F64), fbuilt (tc_belief c) -> fgood_obs a -> occ_valid (a_occ a) = true ->
  F2R64 (t_conflict (tc_belief (tcell_upd conv c a))) = 0.
Proof.
  intros conv c a Hc Ha V. unfold tcell_upd. rewrite V. cbn [tc_belief].
  destruct (C17_masses_binary64 _ Hc) as (U & E & O & C & _).
  unfold conjunctive. rewrite (proj2 (normconf_tok _ (proj1 (combine_tok Z.lor (tc_belief c) (aoo2tbm a) (conj U (conj E (conj O C))) (proj1 (aoo2tbm_tok a Ha)))))).
  apply F_zero.
Qed.
Print Assumptions C17_no_conflict_kept.
Definition C17_fobs (n d : Z) : aoo F64 := fobs (dlit n d) (dlit 9 10).
Lemma C17_fobs_good n d : (0 <= n <= d)%Z -> (0 < d <= 2 ^ 53)%Z -> fgood_obs (C17_fobs n d).
Proof.
  intros Hn Hd. right. split; [apply f01_lit; auto|]. split; [exact f01_1|apply f01_lit; lia].
Qed.
Example C17_case_binary64 : fbuilt (tc_belief (fold_left (tcell_upd occ_consistent) [C17_fobs 1 3; C17_fobs 6 7] tcell_new)).
Proof.
  apply fbuilt_cell; [apply fbuilt_default|]. constructor; [apply C17_fobs_good; lia|].
  constructor; [apply C17_fobs_good; lia|constructor].
Qed.

Definition C17_obs := xobs_of (Some (9 / 10)) (Some (1 / 2)) (Some 1) None None.
Lemma C17_obs_good : good_obs C17_obs.
Proof. left. exists (9 / 10), (1 / 2), 1. unfold in01. repeat split; try reflexivity; lra. Qed.
Example C17_case : built (tc_belief (fold_left (tcell_upd occ_consistent) [C17_obs; C17_obs] tcell_new)) /\
  t_conflict (conjunctive (mkTbm (Some 0) (Some 0) (Some 1) (Some 0)) (mkTbm (Some 0) (Some 1) (Some 0) (Some 0))) = Some 1.
Proof.
  split.
  - apply built_cell; [apply built_default|]. constructor; [exact C17_obs_good|]. constructor; [exact C17_obs_good|constructor].
  - fold (xt 0 0 1 0) (xt 0 1 0 0). rewrite conj_xt by lra. unfold xt. cbn [t_conflict]. f_equal. ring.
Qed.

(** C18.  The combination rules are those of Dempster-Shafer theory over the frame {empty, occupied}: *)
Theorem C18_conjunctive_is_intersection :
  forall m1 m2, bba m1 -> bba m2 ->
  conjunctive (tbm_of m1) (tbm_of m2) = tbm_of (combine inter m1 m2) /\ bba (combine inter m1 m2).
Proof. exact conj_is_set_theoretic. Qed.
Print Assumptions C18_conjunctive_is_intersection.
Theorem C18_disjunctive_is_union :
  forall m1 m2, bba m1 -> bba m2 ->
  disjunctive (tbm_of m1) (tbm_of m2) = tbm_of (combine union m1 m2) /\ bba (combine union m1 m2).
Proof. exact disj_is_set_theoretic. Qed.
Print Assumptions C18_disjunctive_is_union.
Theorem C18_algebra :
  forall m1 m2 m3, bba m1 -> bba m2 -> bba m3 ->
  let a := tbm_of m1 in let b := tbm_of m2 in let c := tbm_of m3 in
  conjunctive a b = conjunctive b a /\ conjunctive a (conjunctive b c) = conjunctive (conjunctive a b) c /\
  conjunctive a (tbm_of vacuous) = a /\ conjunctive a (tbm_of contradiction_mass) = tbm_of contradiction_mass /\
  disjunctive a b = disjunctive b a /\ disjunctive a (disjunctive b c) = disjunctive (disjunctive a b) c /\
  disjunctive a (tbm_of contradiction_mass) = a /\ disjunctive a (tbm_of vacuous) = tbm_of vacuous /\
  tbm_of vacuous = tbm_default.
Proof.
  intros m1 m2 m3 H1 H2 H3 a b c.
  assert (A : tbm_ok a) by (apply tbm_of_ok; auto). assert (B : tbm_ok b) by (apply tbm_of_ok; auto).
  assert (C : tbm_ok c) by (apply tbm_of_ok; auto).
  split; [apply conj_comm; auto|]. split; [apply conj_assoc; auto|]. split; [apply (conj_default a A)|].
  split; [apply (conj_conflict a A)|]. split; [apply disj_comm; auto|]. split; [apply disj_assoc; auto|].
  split; [apply (disj_conflict a A)|]. split; [apply (disj_default a A)|reflexivity].
Qed.
Print Assumptions C18_algebra.
Example C18_case_bba : bba (fun s => if st_eqb s (mkStates true true) then 1 / 4 else
                                     if st_eqb s (mkStates false true) then 3 / 4 else 0).
Proof. split; [intros [[|] [|]]; cbn; lra|cbn; lra]. Qed.

(** C19.  TbmUnknownEvenOccCell and CredibilistCell always report a number of [0,1] *)
Theorem C19_unknown_even_cells_report_probability :
  forall h : list (aoo XR), Forall good_obs h ->
  (exists p, c_prob (tc_cell (fold_left (tcell_upd occ_unknown_even) h tcell_new)) = Some p /\ 0 <= p <= 1) /\
  (exists p, c_prob (tc_cell (fold_left (tcell_upd occ_unknown_even) h cred_new)) = Some p /\ 0 <= p <= 1).
Proof.
  intros h Hh. split.
  - apply (unknown_even_run h tcell_new); auto; [apply default_ok|].
    exists (/ 2). split; [exact xhalf|unfold in01; lra].
  - apply (unknown_even_run h cred_new); auto; [apply default_ok|]. apply (unknown_even_ok tbm_default). apply default_ok.
Qed.
Print Assumptions C19_unknown_even_cells_report_probability.

(** the same in IEEE doubles *)
Theorem C19_unknown_even_cells_report_probability_binary64 :
  forall h : list (aoo F64), Forall fgood_obs h ->
  f01 (c_prob (tc_cell (fold_left (tcell_upd occ_unknown_even) h tcell_new))) /\
  f01 (c_prob (tc_cell (fold_left (tcell_upd occ_unknown_even) h cred_new))).
Proof.
  intros h Hh. split; apply even_run; auto; try apply default_tok.
  - unfold tcell_new, gcell_new, c_prob. cbn [tc_cell c_occ prob_occ]. destruct F_half as [E F]. split; auto. rewrite E.
    unfold in01; lra.
  - unfold cred_new, gcell_new, c_prob. cbn [tc_cell c_occ].
    destruct (normconf_spec _ (proj1 default_tok)) as [E|_].
    + rewrite <- E. apply even_normconf. apply default_tok.
    + unfold occ_unknown_even, tbm_default. cbn [prob_occ t_occupied t_unknown].
      destruct (F_half_mul (dofZ 1) f01_1) as [A B]. rewrite (proj1 F_one) in B.
      replace (1 / 2) with (/ 2) in B by lra. rewrite rnd_id in B by apply fmt_half.
      destruct (fnn_add 1 1 (dofZ 0) (dmul dhalf (dofZ 1)) ltac:(lia) ltac:(lia) f01_0 A) as [[F G] E].
      split; [exact F|]. rewrite E, B, (proj1 F_zero), Rplus_0_l, rnd_id by apply fmt_half. unfold in01; lra.
Qed.
Print Assumptions C19_unknown_even_cells_report_probability_binary64.

Lemma tcell_upd_prob conv (c : tcell F64) a : occ_valid (a_occ a) = true ->
  c_prob (tc_cell (tcell_upd conv c a)) = prob_occ (conv (tc_belief (tcell_upd conv c a))).
Proof. intros V. unfold tcell_upd. rewrite V. cbn [tc_cell tc_belief]. reflexivity. Qed.
(** in IEEE doubles the consistent cell reports a number of [0,1] exactly when not all its mass is unknown *)
Theorem C19_consistent_cell_binary64_partial :
  forall (h : list (aoo F64)) (a : aoo F64), Forall fgood_obs h -> fgood_obs a -> occ_valid (a_occ a) = true ->
  let c := tcell_upd occ_consistent (fold_left (tcell_upd occ_consistent) h tcell_new) a in
  (f01 (c_prob (tc_cell c)) <-> F2R64 (t_occupied (tc_belief c)) <> 0 \/ F2R64 (t_empty (tc_belief c)) <> 0) /\
  (disnan (c_prob (tc_cell c)) = true <-> F2R64 (t_occupied (tc_belief c)) = 0 /\ F2R64 (t_empty (tc_belief c)) = 0).
Proof.
  intros h a Hh Ha V c.
  assert (K : fok c) by (apply tcell_upd_tok; auto; apply tcell_run_tok; auto; apply default_tok).
  assert (Ep : c_prob (tc_cell c) = prob_occ (occ_consistent (tc_belief c))).
  { apply tcell_upd_prob. exact V. }
  destruct (consistent_prob _ (proj1 K)) as [Z|P].
  - assert (N : disnan (c_prob (tc_cell c)) = true) by (rewrite Ep; apply consistent_nan; [apply K|exact Z]).
    split; split; auto.
    + intros [F _]. apply F_fin_nan in F. congruence.
    + intros [?|?]; tauto.
  - rewrite Ep in *. assert (N : disnan (prob_occ (occ_consistent (tc_belief c))) = false) by (apply F_fin_nan; apply P).
    assert (Q : ~ (F2R64 (t_occupied (tc_belief c)) = 0 /\ F2R64 (t_empty (tc_belief c)) = 0)).
    { intros Z. rewrite (consistent_nan _ (proj1 K) Z) in N. discriminate. }
    split; split; auto; try tauto; try congruence.
Qed.
Print Assumptions C19_consistent_cell_binary64_partial.

(** TbmOccConsistentCell reports a number when every observation has total quality (estimation quality x quality)
    below 1 and at least one had it positive *)
Theorem C19_consistent_cell_reports_probability_partial :
  forall h : list (aoo XR), Forall weak_obs h -> Exists informative h ->
  exists p, c_prob (tc_cell (fold_left (tcell_upd occ_consistent) h tcell_new)) = Some p /\ 0 <= p <= 1.
Proof.
  intros h Hw Hi. apply (weak_run h tcell_new False); auto; [|tauto].
  exists 1, 0, 0. split; [reflexivity|]. unfold nn4. repeat split; try lra; tauto.
Qed.
Print Assumptions C19_consistent_cell_reports_probability_partial.
Example C19_case_hyps : Forall weak_obs [C17_obs; C17_obs] /\ Exists informative [C17_obs; C17_obs].
Proof.
  assert (W : weak_obs C17_obs).
  { right. exists (9 / 10), (1 / 2), 1. unfold in01. repeat split; try reflexivity; lra. }
  split; [constructor; [exact W|constructor; [exact W|constructor]]|].
  apply Exists_cons_hd. split; [reflexivity|]. exists (1 / 2 * 1). split; [reflexivity|lra].
Qed.

(** it does not otherwise: one observation of quality zero makes it NaN, in IEEE doubles and in exact arithmetic; so do
    two contradicting observations of quality one *)
Theorem C19_consistent_cell_refuted :
  (exists a : aoo F64, f01 (prob_occ (a_occ a)) /\ f01 (est_quality (a_occ a)) /\ f01 (a_quality a) /\
     disnan (c_prob (tc_cell (tcell_upd occ_consistent tcell_new a))) = true) /\
  (exists a b : aoo F64,
     f01 (prob_occ (a_occ a)) /\ f01 (a_quality a) /\ f01 (prob_occ (a_occ b)) /\ f01 (a_quality b) /\
     disnan (c_prob (tc_cell (fold_left (tcell_upd occ_consistent) [a] tcell_new))) = false /\
     disnan (c_prob (tc_cell (fold_left (tcell_upd occ_consistent) [a; b] tcell_new))) = true).
Proof.
  split.
  - exists (fobs (dlit 1 2) (dlit 0 1)). split; [apply f01_lit; lia|]. split; [|split; [apply f01_lit; lia|vm_compute; reflexivity]].
    destruct F_one as [E F]. split; auto. cbn [fobs a_occ est_quality]. rewrite E. unfold in01; lra.
  - exists (fobs (dlit 1 1) (dlit 1 1)), (fobs (dlit 0 1) (dlit 1 1)).
    do 4 (split; [apply f01_lit; lia|]). split; vm_compute; reflexivity.
Qed.
Print Assumptions C19_consistent_cell_refuted.

(** C54: the discrepancy of a cell and an observation is in [0,1] for every cell kind, whatever its history *)
Theorem C54_tbm_discrepancy_in_01 :
  forall conv (h : list (aoo XR)) (a : aoo XR), Forall good_obs h -> good_obs a ->
  (exists d, tcell_discrepancy (fold_left (tcell_upd conv) h tcell_new) a = Some d /\ 0 <= d <= 1) /\
  (exists d, cred_discrepancy (fold_left (tcell_upd conv) h cred_new) a = Some d /\ 0 <= d <= 1).
Proof.
  intros conv h a Hh Ha. split.
  - apply tcell_discrepancy_ok; auto. apply tcell_run_ok; auto. apply default_ok.
  - apply cred_discrepancy_ok; auto. apply tcell_run_ok; auto. apply default_ok.
Qed.
Print Assumptions C54_tbm_discrepancy_in_01.

Theorem C54_gmapping_discrepancy_in_01 :
  forall (h : list (aoo XR)) (a : aoo XR), Forall num_obst h -> num_obst a -> (Z.of_nat (length h) < 2 ^ 31)%Z ->
  exists c d, gm_run gm_new h = Ok c /\ gm_discrepancy xexp c a = Some d /\ 0 <= d < 1.
Proof.
  intros h a Hh [Hx Hy] Hl. destruct (gm_run_state h [] gm_new gm_new_state Hh Hl) as (c & E & _ & _ & _ & Ho).
  destruct a as [i oc [ox oy] q]. cbn [a_obst ptx pty fst snd] in Hx, Hy.
  destruct ox as [x|]; [|congruence]. destruct oy as [y|]; [|congruence].
  destruct (gm_discrepancy_ok c (mkAoo i oc (Some x, Some y) q) _ _ x y Ho eq_refl) as (d & Ed & Hd).
  exists c, d. auto.
Qed.
Print Assumptions C54_gmapping_discrepancy_in_01.

Theorem C54_plain_discrepancy_in_01 :
  forall (c : gcell XR) (a : aoo XR) p o, c_prob c = Some p -> prob_occ (a_occ a) = Some o ->
  0 <= p <= 1 -> 0 <= o <= 1 -> exists d, gcell_discrepancy c a = Some d /\ 0 <= d <= 1.
Proof. exact gcell_discrepancy_ok. Qed.
Print Assumptions C54_plain_discrepancy_in_01.

(** C54, IEEE doubles (the GMapping cell's discrepancy uses exp, which is not modelled in binary64) *)
Theorem C54_tbm_discrepancy_in_01_binary64 :
  forall conv (h : list (aoo F64)) (a : aoo F64), Forall fgood_obs h -> fgood_obs a ->
  f01 (tcell_discrepancy (fold_left (tcell_upd conv) h tcell_new) a) /\
  f01 (cred_discrepancy (fold_left (tcell_upd conv) h cred_new) a).
Proof.
  intros conv h a Hh Ha. split.
  - apply tcell_disc_f01; auto. apply tcell_run_tok; auto. apply default_tok.
  - apply cred_disc_f01; auto. apply tcell_run_tok; auto. apply default_tok.
Qed.
Print Assumptions C54_tbm_discrepancy_in_01_binary64.
Theorem C54_plain_discrepancy_in_01_binary64 :
  forall (h : list (aoo F64)) (a : aoo F64), Forall obs01 h -> f01 (prob_occ (a_occ a)) ->
  f01 (gcell_discrepancy (fold_left affine_upd h affine_new) a) /\
  f01 (gcell_discrepancy (m_cell (fold_left mean_upd h mean_new)) a).
Proof.
  intros h a Hh Ha. split; apply plain_disc_f01; auto.
  - apply C14_affine_cell_stays_a_probability; auto.
  - apply C15_mean_cell_stays_a_probability; auto.
Qed.
Print Assumptions C54_plain_discrepancy_in_01_binary64.
Example C54_case_binary64 : Forall fgood_obs [C17_fobs 1 3; C17_fobs 6 7] /\ fgood_obs (C17_fobs 0 1) /\
  Forall obs01 [C17_fobs 1 3; C17_fobs 6 7] /\
  dlt (dofZ 0) (tcell_discrepancy (fold_left (tcell_upd occ_consistent) [C17_fobs 1 3; C17_fobs 6 7] tcell_new) (C17_fobs 0 1)) = true.
Proof.
  split; [constructor; [apply C17_fobs_good; lia|constructor; [apply C17_fobs_good; lia|constructor]]|].
  split; [apply C17_fobs_good; lia|]. split; [|vm_compute; reflexivity].
  constructor; [right; split; apply f01_lit; lia|constructor; [right; split; apply f01_lit; lia|constructor]].
Qed.

(** C66: the quality a cell reports with its occupancy.  Exact arithmetic: a number of [0,1] *)
Theorem C66_reported_quality_exact :
  forall h : list (aoo XR), Forall good_obs h ->
  (exists q, est_quality (c_occ (tc_cell (fold_left (tcell_upd occ_consistent) h tcell_new))) = Some q /\ 0 <= q <= 1) /\
  est_quality (c_occ (tc_cell (fold_left (tcell_upd occ_unknown_even) h tcell_new))) = Some 1.
Proof.
  intros h Hh.
  assert (A : forall h c, Forall good_obs h -> tbm_ok (tc_belief c) ->
     (exists q, est_quality (c_occ (tc_cell c)) = Some q /\ 0 <= q <= 1) ->
     exists q, est_quality (c_occ (tc_cell (fold_left (tcell_upd occ_consistent) h c))) = Some q /\ 0 <= q <= 1).
  { clear. induction h as [|a h IH]; intros c Hh Hc Hq; [exact Hq|]. inversion_clear Hh. cbn [fold_left].
    apply IH; auto; [apply tcell_upd_ok; auto|]. destruct (occ_valid (a_occ a)) eqn:V.
    - assert (K := tcell_upd_ok occ_consistent c a Hc H). rewrite (tcell_upd_cell _ _ _ V) in *. cbn [tc_cell tc_belief c_occ] in *.
      destruct K as (u & e & o & k & -> & H1 & H2 & H3 & H4 & HS). cbn. exists (o + e). split; [reflexivity|lra].
    - rewrite (tcell_upd_invalid _ _ _ V). exact Hq. }
  assert (B : forall h c, est_quality (c_occ (tc_cell c)) = Some 1 ->
     est_quality (c_occ (tc_cell (fold_left (tcell_upd occ_unknown_even) h c))) = Some (1 : R)).
  { clear. induction h as [|a h IH]; intros c Hc; [exact Hc|]. cbn [fold_left]. apply IH. unfold tcell_upd.
    destruct (occ_valid (a_occ a)); [reflexivity|exact Hc]. }
  split; [|apply B; reflexivity]. apply A; auto; [apply default_ok|]. exists 1. split; [reflexivity|lra].
Qed.
Print Assumptions C66_reported_quality_exact.
Lemma tcell_upd_occ conv (c : tcell F64) a : occ_valid (a_occ a) = true ->
  c_occ (tc_cell (tcell_upd conv c a)) = conv (tc_belief (tcell_upd conv c a)).
Proof. intros V. unfold tcell_upd. rewrite V. cbn [tc_cell tc_belief]. reflexivity. Qed.
(** in IEEE doubles it can exceed one: two observations "probability 1/3, quality 1" do it; it never exceeds 1 + 2^-49 *)
Theorem C66_reported_quality_refuted :
  exists h : list (aoo F64), Forall fgood_obs h /\
  dlt (dofZ 1) (est_quality (c_occ (tc_cell (fold_left (tcell_upd occ_consistent) h tcell_new)))) = true.
Proof.
  exists [fobs (dlit 1 3) (dlit 1 1); fobs (dlit 1 3) (dlit 1 1)].
  split; [|vm_compute; reflexivity].
  assert (G : fgood_obs (fobs (dlit 1 3) (dlit 1 1))).
  { right. split; [apply f01_lit; lia|]. split; [exact f01_1|apply f01_lit; lia]. }
  constructor; [exact G|]. constructor; [exact G|constructor].
Qed.
Print Assumptions C66_reported_quality_refuted.
Theorem C66_reported_quality_binary64_partial :
  forall h : list (aoo F64), Forall fgood_obs h ->
  F_fin (est_quality (c_occ (tc_cell (fold_left (tcell_upd occ_consistent) h tcell_new)))) = true /\
  0 <= F2R64 (est_quality (c_occ (tc_cell (fold_left (tcell_upd occ_consistent) h tcell_new)))) <= 1 + / 2 ^ 49.
Proof.
  intros h Hh. rewrite p49.
  assert (A : forall h c, Forall fgood_obs h -> fok c -> q_ok (c_occ (tc_cell c)) ->
     q_ok (c_occ (tc_cell (fold_left (tcell_upd occ_consistent) h c)))).
  { clear. induction h as [|a h IH]; intros c Hh Hc Hq; [exact Hq|]. inversion_clear Hh. cbn [fold_left].
    apply IH; auto; [apply tcell_upd_tok; auto|]. destruct (occ_valid (a_occ a)) eqn:V.
    - assert (K := tcell_upd_tok occ_consistent c a Hc H). rewrite (tcell_upd_occ occ_consistent c a V). apply consistent_quality. exact K.
    - unfold tcell_upd. rewrite V. exact Hq. }
  apply A; auto; [apply default_tok|]. unfold tcell_new, gcell_new, q_ok. cbn [tc_cell c_occ est_quality].
  destruct F_one as [E F]. split; [exact F|]. rewrite E. assert (P := hh_pos). lra.
Qed.
Print Assumptions C66_reported_quality_binary64_partial.
