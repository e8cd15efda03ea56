(** C35-C38 particle filter, C39 worlds and observers, C55 GMapping odometry. *)
From Coq Require Import Reals ZArith List Lia Lra Bool.
From Flocq Require Import Core.
From Verif.Base Require Import Outcome Num OrdLaws F64Facts.
From Verif.Model Require Import MathUtils Geometry Sensor Histogram World ParticleFilter Gmapping.
From Verif.Spec Require Import WorldSpec ParticleSpec ParticleScanSpec.
From Verif.Proofs Require Import TbmFloatProofs NormFloatProofs ParticleProofs WorldProofs ParticleScanProofs.
Import ListNotations.
Local Open Scope R_scope.

(** C35.  [xs]: the filter's particles, in order; any particle type with a weight. *)
Theorem C35_weights_are_normalised :
  forall (P : Type) (weight : P -> R) (set_weight : R -> P -> P), (forall w x, weight (set_weight w x) = w) ->
  forall (f : pf P) (xs : list P), NoDup (pf_ptrs f) -> objects (pf_heap f) (pf_ptrs f) = Ok xs ->
  Forall (fun x => 0 <= weight x) xs -> 0 < Rsum (map weight xs) ->
  exists f' ys, normalize_weights weight set_weight f = Ok f' /\ pf_ptrs f' = pf_ptrs f /\ objects (pf_heap f') (pf_ptrs f') = Ok ys /\
    ys = map (fun x => set_weight (weight x / Rsum (map weight xs)) x) xs /\
    Forall (fun y => 0 <= weight y) ys /\ Rsum (map weight ys) = 1.
Proof.
  intros P weight set_weight HW f xs ND F N S. apply objects_refs in F.
  destruct (normalize_spec weight set_weight f xs F ND) as (f' & E & HP & _ & R). rewrite total_weight_R in R.
  cbn [dofZ ROps] in R. rewrite Rplus_0_l in R. cbn [ddiv ROps] in R.
  eexists f', _. split; [exact E|]. split; [exact HP|]. split; [apply objects_refs; exact R|]. split; [reflexivity|]. split.
  - apply Forall_map. eapply Forall_impl; [|exact N]. intros x Hx. cbn. rewrite HW. apply Rmult_le_pos; [exact Hx|].
    left. now apply Rinv_0_lt_compat.
  - rewrite map_map. erewrite map_ext; [|intros; apply HW]. rewrite <- (map_map weight (fun w => w / Rsum (map weight xs))), Rsum_scale. now field; lra.
Qed.
Print Assumptions C35_weights_are_normalised.

(** binary64: when the weights' sum, added up in order, is a finite positive double, every new weight is a finite double between
    0 and 1 at most 2^-54 away from the exact quotient, the order of the weights stays as it was, and the exact sum of [n] new
    weights differs from 1 by at most 3/2 n 2^-53 *)
Theorem C35_weights_are_normalised_in_binary64 :
  forall (P : Type) (weight : P -> F64) (set_weight : F64 -> P -> P), (forall w x, weight (set_weight w x) = w) ->
  forall (f : pf P) (xs : list P), NoDup (pf_ptrs f) -> objects (pf_heap f) (pf_ptrs f) = Ok xs ->
  Forall (fun x => 0 <= F2R64 (weight x)) xs ->
  let total := sum_in_order (map weight xs) in
  F_fin total = true -> 0 < F2R64 total ->
  exists f' ys, normalize_weights weight set_weight f = Ok f' /\ pf_ptrs f' = pf_ptrs f /\ objects (pf_heap f') (pf_ptrs f') = Ok ys /\
    Forall2 (fun x y => y = set_weight (weight y) x /\ F_fin (weight y) = true /\ 0 <= F2R64 (weight y) <= 1 /\
      Rabs (F2R64 (weight y) - F2R64 (weight x) / F2R64 total) <= bpow radix2 (-54)) xs ys /\
    (forall i j x x' y y', nth_error xs i = Some x -> nth_error ys i = Some y -> nth_error xs j = Some x' -> nth_error ys j = Some y' ->
      F2R64 (weight x) <= F2R64 (weight x') -> F2R64 (weight y) <= F2R64 (weight y')) /\
    Rabs (Rsum (map (fun y => F2R64 (weight y)) ys) - 1) <= INR (length xs) * (3 / 2 * bpow radix2 (-53)).
Proof.
  intros P weight set_weight HW f xs ND F N total FT PT. apply objects_refs in F.
  destruct (normalize_spec weight set_weight f xs F ND) as (f' & E & HP & _ & R). rewrite total_sum in R. fold (sum_in_order (map weight xs)) in R. fold total in R.
  destruct (norm_F (map weight xs)) as (K1 & K2 & _ & K4); [now apply Forall_map|exact FT|exact PT|]. fold total in K1, K2, K4.
  set (g := fun x => set_weight (ddiv (weight x) total) x) in *.
  eexists f', _. split; [exact E|]. split; [exact HP|]. split; [apply objects_refs; exact R|].
  rewrite Forall_map, Forall_forall in K1. split; [|split].
  - assert (G : forall l, incl l xs -> Forall2 (fun x y => y = set_weight (weight y) x /\ F_fin (weight y) = true /\ 0 <= F2R64 (weight y) <= 1 /\
      Rabs (F2R64 (weight y) - F2R64 (weight x) / F2R64 total) <= bpow radix2 (-54)) l (map g l)).
    { induction l as [|x l IH]; intros I; cbn [map]; constructor.
      - unfold g. rewrite HW. split; [reflexivity|]. rewrite b54. apply K1. apply I. now left.
      - apply IH. intros z Hz. apply I. now right. }
    apply G, incl_refl.
  - intros i j x x' y y' Hx Hy Hx' Hy' L. rewrite nth_error_map, Hx in Hy. rewrite nth_error_map, Hx' in Hy'. cbn in Hy, Hy'. injection Hy as <-. injection Hy' as <-.
    unfold g. rewrite !HW. apply K2; [apply in_map; eapply nth_error_In; eassumption|apply in_map; eapply nth_error_In; eassumption|exact L].
  - rewrite map_map in *. rewrite map_length in K4. erewrite map_ext; [exact K4|]. intros x. cbv beta. unfold g. now rewrite HW.
Qed.
Print Assumptions C35_weights_are_normalised_in_binary64.

(** the positive sum is needed: if every scan probability was 0, all the weights turn into NaN (binary64) ... *)
Theorem C35_all_zero_weights_turn_into_nan :
  forall (P : Type) (weight : P -> F64) (set_weight : F64 -> P -> P), (forall w x, weight (set_weight w x) = w) ->
  forall (f : pf P) (xs : list P), NoDup (pf_ptrs f) -> objects (pf_heap f) (pf_ptrs f) = Ok xs ->
  Forall (fun x => is_zero (weight x)) xs ->
  exists f' ys, normalize_weights weight set_weight f = Ok f' /\ objects (pf_heap f') (pf_ptrs f') = Ok ys /\
    Forall (fun y => disnan (weight y) = true) ys.
Proof.
  intros P weight set_weight HW f xs ND F N. apply objects_refs in F.
  destruct (normalize_spec weight set_weight f xs F ND) as (f' & E & HP & _ & R).
  eexists f', _. split; [exact E|]. split; [apply objects_refs; exact R|].
  apply Forall_map. eapply Forall_impl; [|exact N]. intros x Hx. cbv beta. rewrite HW. apply F_zero_div_zero; [exact Hx|].
  apply F_total_zero; [exists false; reflexivity|now apply Forall_map].
Qed.
Print Assumptions C35_all_zero_weights_turn_into_nan.

(** ... and one NaN weight makes all of them NaN *)
Theorem C35_one_nan_weight_spoils_all :
  forall (P : Type) (weight : P -> F64) (set_weight : F64 -> P -> P), (forall w x, weight (set_weight w x) = w) ->
  forall (f : pf P) (xs : list P), NoDup (pf_ptrs f) -> objects (pf_heap f) (pf_ptrs f) = Ok xs ->
  Exists (fun x => disnan (weight x) = true) xs ->
  exists f' ys, normalize_weights weight set_weight f = Ok f' /\ objects (pf_heap f') (pf_ptrs f') = Ok ys /\
    Forall (fun y => disnan (weight y) = true) ys.
Proof.
  intros P weight set_weight HW f xs ND F N. apply objects_refs in F.
  destruct (normalize_spec weight set_weight f xs F ND) as (f' & E & HP & _ & R).
  eexists f', _. split; [exact E|]. split; [apply objects_refs; exact R|].
  apply Forall_map. apply Forall_forall. intros x _. rewrite HW. apply F_nan_div_r. apply F_total_nan. right.
  clear - N. induction N; cbn [map]; [now left|now right].
Qed.
Print Assumptions C35_one_nan_weight_spoils_all.

Example C35_case : NoDup (pf_ptrs (mkPF [1; 3; 0] [0; 1; 2]%nat)) /\ objects [1; 3; 0] [0; 1; 2]%nat = Ok [1; 3; 0] /\
  Forall (fun x => 0 <= x) [1; 3; 0] /\ 0 < Rsum (map (fun x => x) [1; 3; 0]).
Proof.
  split; [repeat constructor; cbn; lia|]. split; [reflexivity|]. split; [repeat constructor; lra|]. unfold Rsum; cbn; lra.
Qed.

(** three doubles whose sum is rounded *)
Example C35_binary64_case : let ws : list F64 := map (fun z => ddiv (dofZ z) (dofZ 10)) [1; 2; 4]%Z in
  Forall (fun w => 0 <= F2R64 w) ws /\ F_fin (sum_in_order ws) = true /\ 0 < F2R64 (sum_in_order ws).
Proof.
  assert (G : forall x : F64, (F_fin x && dle (dofZ 0) x)%bool = true -> 0 <= F2R64 x).
  { intros x H. apply andb_true_iff in H as [H1 H2]. destruct F_zero as [Z0 Z1]. apply F_le_fin in H2; lra || auto. }
  assert (G' : forall x : F64, (F_fin x && dlt (dofZ 0) x)%bool = true -> 0 < F2R64 x).
  { intros x H. apply andb_true_iff in H as [H1 H2]. destruct F_zero as [Z0 Z1]. apply F_lt_fin in H2; lra || auto. }
  cbv zeta. split; [|split].
  - apply Forall_map. repeat (apply Forall_cons; [apply G; vm_cast_no_check (eq_refl true)|]). apply Forall_nil.
  - vm_cast_no_check (eq_refl true).
  - apply G'. vm_cast_no_check (eq_refl true).
Qed.

(** C36.  Resampling [n] distinct particles gives [n] distinct particles: the k-th is the i-th old one (its first use) or a
    sampled duplicate of it (later uses), where [i] is the particle drawn with the k-th random number; weights are rescaled by
    their total.  Any arithmetic, any particle type, any random numbers. *)
Theorem C36_resampling_copies_the_drawn_particles :
  forall (D P : Type) (ops : DOps D) (weight : P -> D) (set_weight : D -> P -> P) (sample : P -> P) (f : pf P) (xs : list P) (u : nat -> D),
  NoDup (pf_ptrs f) -> objects (pf_heap f) (pf_ptrs f) = Ok xs -> xs <> [] -> resampling_is_required (map weight xs) = true ->
  exists f' copies, pf_try_resample weight set_weight sample f u = Ok (f', true) /\ NoDup (pf_ptrs f') /\
    objects (pf_heap f') (pf_ptrs f') = Ok (map (fun c => set_weight (ddiv (weight c) (total_weight (map weight copies) (dofZ 0))) c) copies) /\
    length copies = length xs /\
    forall k, (k < length xs)%nat ->
      let drawn j := draw (map weight xs) 0 (dofZ 0) (u j) in
      exists x, nth_error xs (drawn k) = Some x /\
        nth_error copies k = Some (if existsb (fun j => Nat.eqb (drawn k) (drawn j)) (seq 0 k) then sample x else x).
Proof.
  intros D P ops weight set_weight sample f xs u ND F NE RR. apply objects_refs in F.
  assert (T := try_resample_spec weight set_weight sample f xs u F ND NE). rewrite RR in T.
  destruct T as (f' & E & ND' & R). cbv zeta in R. set (inds := resample (map weight xs) u) in *.
  set (ts := taken sample xs inds []) in *.
  assert (NEw : map weight xs <> []) by (destruct xs; [easy|discriminate]).
  assert (B := resample_bound (map weight xs) u NEw). rewrite map_length in B. fold inds in B.
  assert (LI : length inds = length xs) by (unfold inds; now rewrite resample_length, map_length).
  exists f', ts. split; [exact E|]. split; [exact ND'|]. split; [apply objects_refs; exact R|].
  split; [unfold ts; now rewrite taken_length by exact B|].
  intros k Hk. cbv beta zeta.
  assert (NI : nth_error inds k = Some (draw (map weight xs) 0 (dofZ 0) (u k))).
  { unfold inds, resample. rewrite nth_error_map, map_length.
    rewrite (nth_error_nth' (seq 0 (length xs)) 0%nat) by (rewrite seq_length; exact Hk). rewrite seq_nth by exact Hk. reflexivity. }
  destruct (nth_error xs (draw (map weight xs) 0 (dofZ 0) (u k))) as [x|] eqn:Nx.
  2: { apply nth_error_None in Nx. rewrite Forall_forall in B. assert (X := B _ (nth_error_In _ _ NI)). cbv beta in X. lia. }
  exists x. split; [reflexivity|]. unfold ts. rewrite (taken_nth sample xs inds [] k _ x B NI Nx). cbn [app].
  assert (FE : firstn k inds = map (fun i => draw (map weight xs) 0 (dofZ 0) (u i)) (seq 0 k)).
  { unfold inds, resample. rewrite map_length, firstn_map. f_equal. clear - Hk.
    replace (length xs) with (k + (length xs - k))%nat by lia. rewrite seq_app, firstn_app, seq_length, Nat.sub_diag, firstn_O, app_nil_r.
    rewrite <- (seq_length k 0) at 1. apply firstn_all. }
  rewrite FE. set (q := draw _ _ _ (u k)).
  replace (existsb (Nat.eqb q) (map _ (seq 0 k))) with (existsb (fun j => Nat.eqb q (draw (map weight xs) 0 (dofZ 0) (u j))) (seq 0 k)).
  2: { generalize (seq 0 k). intros l. induction l; cbn; congruence. }
  reflexivity.
Qed.
Print Assumptions C36_resampling_copies_the_drawn_particles.

(** exact arithmetic: with normalised weights, a particle is drawn exactly when the random number falls in its interval, so
    only particles of positive weight are drawn *)
Theorem C36_a_particle_is_drawn_in_its_interval :
  forall (ws : list R) (s : R) (i : nat), Forall (fun w => 0 <= w) ws -> Rsum ws = 1 -> 0 <= s < 1 ->
  (draw ws 0 (dofZ 0) s = i <-> owns ws i s) /\ exists w, nth_error ws (draw ws 0 (dofZ 0) s) = Some w /\ 0 < w.
Proof.
  intros ws s i N H1 Hs. cbn [dofZ ROps]. split; [now apply draw_owns|].
  assert (O := proj1 (draw_owns ws s _ N H1 Hs) eq_refl).
  assert (NE : ws <> []) by (intros ->; unfold Rsum in H1; cbn in H1; lra).
  assert (L := draw_lt ws s NE). cbn [dofZ ROps] in L. destruct (nth_error ws (draw ws 0 0 s)) as [w|] eqn:E; [|apply nth_error_None in E; lia].
  exists w. split; [reflexivity|]. eapply owns_positive; eauto.
Qed.
Print Assumptions C36_a_particle_is_drawn_in_its_interval.

(** resampling happens exactly when twice the effective number of particles is below their number; in particular never when
    the weights are equal *)
Theorem C36_resampling_needs_uneven_weights :
  (forall ws : list R, resampling_is_required ws = true <-> 2 * n_eff ws < INR (length ws)) /\
  (forall n : nat, (0 < n)%nat -> resampling_is_required (repeat (1 / INR n) n) = false).
Proof.
  assert (A : forall ws : list R, resampling_is_required ws = true <-> 2 * n_eff ws < INR (length ws)).
  { intros ws. unfold resampling_is_required. rewrite sum_squares_R. cbn [dlt ddiv dmul dofZ ROps]. rewrite R_lt_true, <- INR_IZR_INZ, Rplus_0_l.
    unfold n_eff, Rdiv. rewrite Rmult_1_l, Rmult_comm. tauto. }
  split; [exact A|]. intros n Hn. apply not_true_is_false. rewrite A, repeat_length. unfold n_eff.
  assert (P : 0 < INR n) by (apply lt_0_INR; exact Hn).
  replace (map (fun w => w * w) (repeat (1 / INR n) n)) with (repeat (1 / INR n * (1 / INR n)) n) by (generalize (1 / INR n); clear; intros c; induction n; cbn; congruence).
  rewrite Rsum_repeat. replace (INR n * (1 / INR n * (1 / INR n))) with (/ INR n) by (field; lra). rewrite Rinv_inv. lra.
Qed.
Print Assumptions C36_resampling_needs_uneven_weights.

(** binary64, any finite nonnegative weights with a finite sum: the random number [s] draws the particle whose interval between
    the rounded running sums holds it, a particle of positive weight; an [s] not below the rounded sum draws particle 0 *)
Theorem C36_draws_in_binary64 :
  forall (ws : list F64) (s : F64), Forall (fun w => 0 <= F2R64 w) ws -> F_fin (sum_in_order ws) = true -> F_fin s = true -> 0 <= F2R64 s ->
  (F2R64 s < F2R64 (sum_in_order ws) ->
    (forall i, draw ws 0 (dofZ 0) s = i <-> F2R64 (sum_in_order (firstn i ws)) <= F2R64 s < F2R64 (sum_in_order (firstn (S i) ws))) /\
    exists w, nth_error ws (draw ws 0 (dofZ 0) s) = Some w /\ 0 < F2R64 w) /\
  (F2R64 (sum_in_order ws) <= F2R64 s -> draw ws 0 (dofZ 0) s = O).
Proof. exact draws_F. Qed.
Print Assumptions C36_draws_in_binary64.

(** after the normalisation of [n] weights the fault needs a random number within 5/2 n 2^-53 of 1: any smaller one draws a
    particle of positive weight *)
Theorem C36_only_random_numbers_next_to_1_draw_wrongly :
  forall (ws : list F64) (s : F64), Forall (fun w => 0 <= F2R64 w) ws -> F_fin (sum_in_order ws) = true -> 0 < F2R64 (sum_in_order ws) ->
  (Z.of_nat (length ws) <= 2 ^ 53)%Z ->
  F_fin s = true -> 0 <= F2R64 s < 1 - INR (length ws) * (5 / 2 * bpow radix2 (-53)) ->
  let vs := map (fun w => ddiv w (sum_in_order ws)) ws in
  exists v, nth_error vs (draw vs 0 (dofZ 0) s) = Some v /\ 0 < F2R64 v.
Proof.
  intros ws s N F P L Fs Hs vs. destruct (norm_F ws N F P) as (K1 & _ & _ & K4).
  assert (B : Forall (fun w => F_fin w = true /\ 0 <= F2R64 w <= 1) vs) by (apply Forall_map; eapply Forall_impl; [|exact K1]; intros w X; cbv beta in X; tauto).
  assert (PN : 0 <= INR (length ws) * (3 / 2 * bpow radix2 (-53))) by (apply Rmult_le_pos; [apply pos_INR|assert (X := bpow_gt_0 radix2 (-53)); lra]).
  destruct (sum_near_1 vs (INR (length ws) * (3 / 2 * bpow radix2 (-53)))) as [F1 L1]; [unfold vs; now rewrite map_length|exact B|unfold vs; rewrite map_map; exact K4|exact PN|].
  assert (LL : length vs = length ws) by apply map_length. rewrite LL in L1.
  destruct (draws_F vs s) as [D1 _]; [eapply Forall_impl; [|exact B]; intros w X; cbv beta in X; lra|exact F1|exact Fs|lra|].
  apply D1. lra.
Qed.
Print Assumptions C36_only_random_numbers_next_to_1_draw_wrongly.

(** in binary64 the weights may add up to less than 1 and a random number above their sum draws particle 0, whatever its
    weight: here 0 of (0, 1, 20, 1) / 22, with the random number 1 - 2^-53 *)
Theorem C36_zero_weight_particle_is_drawn_refuted :
  let ws : list F64 := map (fun w => ddiv w (total_weight (map dofZ [0; 1; 20; 1]%Z) (dofZ 0))) (map dofZ [0; 1; 20; 1]%Z) in
  let s : F64 := dsub (dofZ 1) (dlit 1 (2 ^ 53)) in
  (dlt s (dofZ 1) && resampling_is_required ws && Nat.eqb (draw ws 0 (dofZ 0) s) 0 && deq (nth 0 ws (dofZ 1)) (dofZ 0))%bool = true.
Proof. vm_compute. reflexivity. Qed.
Print Assumptions C36_zero_weight_particle_is_drawn_refuted.

Example C36_case : Forall (fun w => 0 <= w) [0; 1 / 4; 3 / 4] /\ Rsum [0; 1 / 4; 3 / 4] = 1 /\ owns [0; 1 / 4; 3 / 4] 2 (1 / 2) /\
  resampling_is_required [0; 1 / 20; 19 / 20] = true.
Proof.
  split; [repeat constructor; lra|]. split; [unfold Rsum; cbn; lra|]. split; [unfold owns, Rsum; cbn; lra|].
  apply (proj1 C36_resampling_needs_uneven_weights). unfold n_eff, Rsum. cbn.
  apply Rmult_lt_reg_r with (0 * 0 + (1 / 20 * (1 / 20) + (19 / 20 * (19 / 20) + 0))); [lra|]. rewrite Rmult_assoc, Rinv_l by lra. lra.
Qed.

(** C37.  Whatever the arithmetic, the random numbers, the scan matcher, the scan adder and the history, a GMapping filter
    made with at least one particle has exactly one master. *)
Theorem C37_exactly_one_master :
  forall (D S M SM G RV : Type) (ops : DOps D) (dcos dsin : D -> D) (rv_sample : RV -> G -> pose D * RV * G) (rv_copy : RV -> RV) (rv_zero : RV)
    (sm : SM -> S -> pose D -> M -> outcome (D * pose D * SM)) (adder : M -> pose D -> S -> D -> D -> outcome M)
    (guess lim : RV) (seeds : nat -> G) (m0 : M) (sm0 : SM) (n : nat) (f0 : gfilter D M SM G RV),
  (0 < n)%nat -> gf_new rv_sample rv_copy rv_zero guess lim seeds m0 sm0 n = Ok f0 ->
  forall o history o' f notes, gf_run dcos dsin rv_sample rv_copy rv_zero sm adder o f0 history = Ok (o', f, notes) ->
  exists xs, objects (pf_heap (gf_pf f)) (pf_ptrs (gf_pf f)) = Ok xs /\ length (filter gp_master xs) = 1%nat.
Proof.
  intros. destruct (gf_new_inv rv_sample rv_copy rv_zero guess lim seeds m0 sm0 n H) as (f1 & E & I & _).
  rewrite H0 in E. injection E as <-. apply (gf_run_inv dcos dsin rv_sample rv_copy rv_zero sm adder 0) in H1; [|exact I].
  destruct H1 as (xs & R & _ & _ & H1 & _). exists xs. split; [now apply objects_refs|exact H1].
Qed.
Print Assumptions C37_exactly_one_master.

(** with no particle, construction is undefined (null dereference) *)
Theorem C37_no_particle_no_filter :
  forall (D M SM G RV : Type) (ops : DOps D) (rv_sample : RV -> G -> pose D * RV * G) (rv_copy : RV -> RV) (rv_zero guess lim : RV)
    (seeds : nat -> G) (m0 : M) (sm0 : SM), gf_new rv_sample rv_copy rv_zero guess lim seeds m0 sm0 0 = UB.
Proof. reflexivity. Qed.
Print Assumptions C37_no_particle_no_filter.

(** C38.  The particles never have maps of their own: in every reachable filter, any two particles have the very same map, and
    what one particle's scan does to its map is what the other sees. *)
Theorem C38_all_particles_share_one_map_refuted :
  forall (D S M SM G RV : Type) (ops : DOps D) (dcos dsin : D -> D) (rv_sample : RV -> G -> pose D * RV * G) (rv_copy : RV -> RV) (rv_zero : RV)
    (sm : SM -> S -> pose D -> M -> outcome (D * pose D * SM)) (adder : M -> pose D -> S -> D -> D -> outcome M)
    (guess lim : RV) (seeds : nat -> G) (m0 : M) (sm0 : SM) (n : nat) (f0 : gfilter D M SM G RV),
  (0 < n)%nat -> gf_new rv_sample rv_copy rv_zero guess lim seeds m0 sm0 n = Ok f0 ->
  forall o history o' f notes, gf_run dcos dsin rv_sample rv_copy rv_zero sm adder o f0 history = Ok (o', f, notes) ->
  forall xs x y, objects (pf_heap (gf_pf f)) (pf_ptrs (gf_pf f)) = Ok xs -> In x xs -> In y xs ->
  let map_of p maps := nth_error maps (gp_map p) in
  map_of x (gf_maps f) = map_of y (gf_maps f) /\
  forall s maps' sm' x', gp_observe rv_sample sm adder (gf_maps f) (gf_sm f) x s = Ok (maps', sm', x') ->
    map_of x' maps' = map_of y maps'.
Proof.
  intros. destruct (gf_new_inv rv_sample rv_copy rv_zero guess lim seeds m0 sm0 n H) as (f1 & E & I & _).
  rewrite H0 in E. injection E as <-. apply (gf_run_inv dcos dsin rv_sample rv_copy rv_zero sm adder 0) in H1; [|exact I].
  destruct H1 as (zs & R & _ & _ & _ & HM & _). apply objects_refs in R. rewrite R in H2. injection H2 as <-.
  rewrite Forall_forall in HM. assert (Mx := HM x H3). assert (My := HM y H4). unfold map_of. rewrite Mx, My. split; [reflexivity|].
  intros s maps' sm' x' E. apply gp_observe_keeps in E as [[_ K] _]. now rewrite K, Mx.
Qed.
Print Assumptions C38_all_particles_share_one_map_refuted.

(** two particles, one scan, a map that counts the scans added to it: each particle's map has two *)
Definition ex_rv (_ _ : unit) : pose F64 * unit * unit := (delta_zero, tt, tt).
Definition ex_sm (_ : unit) (_ : unit) (_ : pose F64) (_ : nat) : outcome (F64 * pose F64 * unit) := Ok (dofZ 1, delta_zero, tt).
Definition ex_adder (m : nat) (_ : pose F64) (_ : unit) (_ _ : F64) : outcome nat := Ok (S m).
Definition ex_filter : outcome (gfilter F64 nat unit unit unit) := gf_new ex_rv (fun x => x) tt tt tt (fun _ => tt) 0%nat tt 2.
Example C38_case : match ex_filter with
  | Ok f => match gf_run (fun x => x) (fun x => x) ex_rv (fun x => x) tt ex_sm ex_adder wo_new f [EScan (mkTS delta_zero (tt, fun _ => dofZ 0) (dofZ 1))] with
            | Ok (_, f', _) =>
                (match gf_maps f' with [m] => Nat.eqb m 2 | _ => false end) &&
                (match objects (pf_heap (gf_pf f')) (pf_ptrs (gf_pf f')) with Ok xs => Nat.eqb (length xs) 2 && Nat.eqb (length (filter gp_master xs)) 1 | _ => false end)
            | _ => false end
  | _ => false end = true.
Proof. vm_compute. reflexivity. Qed.

(** C39.  Any world (single state or GMapping: [update]/[observe]/[pose]/[map] are arbitrary), any history ending with a scan:
    the scan's notifications are those of the pose observers subscribed and still alive, in subscription order, with the pose
    after the update, followed by those of the map observers with the map after the update. *)
Theorem C39_observers_see_each_scan_once :
  forall (D S M W : Type) (update : W -> pose D -> outcome W) (observe : W -> tr_scan D S -> outcome W)
    (get_pose : W -> outcome (pose D)) (get_map : W -> outcome M) (w : W) (before : list (wevent D S)) (s : tr_scan D S) o' w' notes,
  world_run update observe get_pose get_map wo_new w (before ++ [EScan s]) = Ok (o', w', notes) ->
  exists o1 w1 notes1 w2 p m, world_run update observe get_pose get_map wo_new w before = Ok (o1, w1, notes1) /\
    update w1 (ts_delta s) = Ok w2 /\ observe w2 s = Ok w' /\ get_pose w' = Ok p /\ get_map w' = Ok m /\
    notes = notes1 ++ map (fun id => NPose id p) (alive_in before (pose_subscribers before))
                   ++ map (fun id => NMap id m) (alive_in before (map_subscribers before)).
Proof.
  intros D S M W update observe get_pose get_map w before s o' w' notes E.
  apply world_run_app in E as (o1 & w1 & n1 & n' & E1 & E & ->). cbn [world_run] in E.
  apply bind_Ok_inv in E as ([w3 n3] & E2 & E). cbn [bind] in E. injection E as <- <- <-. rewrite app_nil_r.
  unfold handle_sensor_data in E2. apply bind_Ok_inv in E2 as (w2 & U & E2). apply bind_Ok_inv in E2 as (w4 & O & E2).
  apply bind_Ok_inv in E2 as (p & HP & E2). apply bind_Ok_inv in E2 as (m & HM & E2). injection E2 as <- <-.
  exists o1, w1, n1, w2, p, m. do 5 (split; [assumption|]). f_equal.
  apply world_run_observers in E1 as (A & B & C). cbn in A, B, C. unfold notify_with_pose, notify_with_map. rewrite A, B.
  assert (L : forall id, locks o1 id = negb (is_destroyed before id)) by (intros id; unfold locks; now rewrite C).
  assert (FM : forall (K : nat -> wnote D M) l, flat_map (fun id => if locks o1 id then [K id] else []) l = map K (alive_in before l)).
  { intros K l. induction l as [|id l IH]; [reflexivity|]. cbn [flat_map]. rewrite L, IH. unfold alive_in. cbn [filter].
    destruct (is_destroyed before id); reflexivity. }
  now rewrite !FM.
Qed.
Print Assumptions C39_observers_see_each_scan_once.

(** calls that are not scans notify nobody, and every scan's notifications are kept: a history's notifications are those of its
    beginning followed by those of its end *)
Theorem C39_only_scans_notify :
  forall (D S M W : Type) (update : W -> pose D -> outcome W) (observe : W -> tr_scan D S -> outcome W)
    (get_pose : W -> outcome (pose D)) (get_map : W -> outcome M) (w : W) (before : list (wevent D S)) (e : wevent D S) o' w' notes,
  (forall s, e <> EScan s) -> world_run update observe get_pose get_map wo_new w (before ++ [e]) = Ok (o', w', notes) ->
  exists o1, world_run update observe get_pose get_map wo_new w before = Ok (o1, w', notes).
Proof.
  intros D S M W update observe get_pose get_map w before e o' w' notes NS E.
  apply world_run_app in E as (o1 & w1 & n1 & n' & E1 & E & ->). exists o1.
  destruct e as [id|id|id|s]; cbn [world_run] in E; [..|now elim (NS s)]; injection E as <- <- <-; now rewrite app_nil_r.
Qed.
Print Assumptions C39_only_scans_notify.

(** the pose of the single-hypothesis world: initial pose plus odometry and corrections, alternating; [ss_log] lists the
    corrections the scan matcher returned *)
Theorem C39_pose_accumulates_odometry_and_corrections :
  forall (S M SM : Type) (sm_reset : SM -> SM) (sm : SM -> S -> pose R -> M -> outcome (R * pose R * SM)) (adder : M -> pose R -> S -> R -> R -> outcome M)
    (q_loc q_raw margin : R) o (w : ss_world R M SM) history o' w' notes,
  ss_log w = [] -> ss_run sm_reset sm adder q_loc q_raw margin o w history = Ok (o', w', notes) ->
  length (ss_log w') = length (scan_deltas history) /\
  let total f := f (ss_pose w) + Rsum (map f (scan_deltas history)) + Rsum (map f (ss_log w')) in
  px (ss_pose w') = total px /\ py (ss_pose w') = total py /\ pth (ss_pose w') = total pth.
Proof.
  intros S M SM sm_reset sm adder q_loc q_raw margin o w history o' w' notes L0 E.
  apply ss_run_pose in E as (cs & L & LC & HP). rewrite L0 in L. cbn [app] in L. rewrite L. split; [exact LC|]. cbv zeta.
  assert (G : forall ds cs p, length cs = length ds ->
    px (fold_left pose_add (interleave ds cs) p) = px p + Rsum (map px ds) + Rsum (map px cs) /\
    py (fold_left pose_add (interleave ds cs) p) = py p + Rsum (map py ds) + Rsum (map py cs) /\
    pth (fold_left pose_add (interleave ds cs) p) = pth p + Rsum (map pth ds) + Rsum (map pth cs)).
  { unfold Rsum. induction ds as [|d ds IH]; intros [|c ds'] p HL; try discriminate; cbn [interleave fold_left map fold_right]; [lra|].
    destruct (IH ds' (pose_add (pose_add p d) c)) as (A & B & C); [now injection HL|].
    rewrite A, B, C. cbn [pose_add px py pth dadd ROps]. lra. }
  rewrite HP. now apply G.
Qed.
Print Assumptions C39_pose_accumulates_odometry_and_corrections.

(** the pose and the map GMapping reports are those of a particle no other particle outweighs (weights not NaN; any arithmetic
    with C++'s order laws, binary64 included) *)
Theorem C39_gmapping_reports_a_heaviest_particle :
  forall (D M SM G RV : Type) (ops : DOps D) (laws : OrdLaws ops) (f : gfilter D M SM G RV) (xs : list (gparticle D G RV)) (p : pose D),
  objects (pf_heap (gf_pf f)) (pf_ptrs (gf_pf f)) = Ok xs -> Forall (fun x => disnan (gp_weight x) = false) xs ->
  gf_pose f = Ok p ->
  exists x, In x xs /\ p = gp_pose x /\ (forall y, In y xs -> dlt (gp_weight x) (gp_weight y) = false) /\
    gf_map f = match nth_error (gf_maps f) (gp_map x) with Some m => Ok m | None => UB end.
Proof.
  intros D M SM G RV ops laws f xs p F N E. apply objects_refs in F. unfold gf_pose in E.
  assert (NE : xs <> []).
  { intros ->. unfold heaviest_ptr in E. rewrite (proj2 (objects_refs _ _ _) F) in E. discriminate. }
  destruct (heaviest_ptr_ok gp_weight (gf_pf f) xs F NE) as (i & q & x & E1 & E2 & E3 & E4 & E5).
  rewrite E1 in E. cbn [bind] in E. unfold deref in E. rewrite E5 in E. cbn [bind] in E. injection E as <-.
  exists x. split; [eapply nth_error_In; eauto|]. split; [reflexivity|]. split.
  - apply heaviest_is_max in E2 as (rw & A & B); [|now apply Forall_map]. rewrite nth_error_map, E4 in A. cbn in A. injection A as <-.
    intros y Hy. apply B. now apply in_map.
  - unfold gf_map. rewrite E1. cbn [bind]. unfold deref. now rewrite E5.
Qed.
Print Assumptions C39_gmapping_reports_a_heaviest_particle.

Example C39_case :
  exists o' w', ss_run (fun u : unit => u) (fun _ (_ : unit) _ (_ : nat) => Ok (1, mkPose 1 0 0, tt)) (fun m _ _ _ _ => Ok (S m)) 1 1 0
    wo_new (mkSS (mkPose 0 0 0) 0%nat tt []) [ESubPose 3; ESubPose 4; ESubMap 5; EDestroy 4; EScan (mkTS (mkPose 2 0 0) tt 1)]
  = Ok (o', w', [NPose 3 (mkPose (0 + 2 + 1) (0 + 0 + 0) (0 + 0 + 0)); NMap 5 1%nat]).
Proof. eexists _, _. reflexivity. Qed.

(** C55.  GMapping applies odometry in the particle's frame: an odometry step moves a particle by the same length and turns it
    by the same angle, rotated by the heading difference between the particle and the raw odometry; so a particle whose
    heading was never corrected follows the raw odometry exactly. *)
Theorem C55_odometry_step_keeps_its_length :
  forall (G RV : Type) (p : gparticle R G RV) (d : pose R),
  let p' := gp_update_robot_pose cos sin d p in
  (px (gp_pose p') - px (gp_pose p)) ^ 2 + (py (gp_pose p') - py (gp_pose p)) ^ 2 = px d ^ 2 + py d ^ 2 /\
  pth (gp_pose p') = pth (gp_pose p) + pth d /\
  (px (gp_raw p'), py (gp_raw p'), pth (gp_raw p')) = (px (gp_raw p) + px d, py (gp_raw p) + py d, pth (gp_raw p) + pth d) /\
  (pth (gp_pose p) = pth (gp_raw p) -> px (gp_pose p') = px (gp_pose p) + px d /\ py (gp_pose p') = py (gp_pose p) + py d) /\
  pth (gp_pose p') - pth (gp_raw p') = pth (gp_pose p) - pth (gp_raw p) /\
  gp_weight p' = gp_weight p /\ gp_map p' = gp_map p.
Proof.
  intros G RV p d p'. unfold p', gp_update_robot_pose, gp_move.
  cbn [gp_pose gp_raw gp_weight gp_map px py pth pose_add pose_sub dadd dsub dmul ROps].
  set (a := pth (gp_pose p) - pth (gp_raw p)). assert (H := sin2_cos2 a). unfold Rsqr in H.
  repeat split; try ring.
  - assert (K : (px d ^ 2 + py d ^ 2) * (sin a * sin a + cos a * cos a) = px d ^ 2 + py d ^ 2) by (rewrite H; ring). rewrite <- K. ring.
  - replace a with 0 by (unfold a; lra). rewrite sin_0, cos_0. ring.
  - replace a with 0 by (unfold a; lra). rewrite sin_0, cos_0. ring.
  - unfold a; ring.
Qed.
Print Assumptions C55_odometry_step_keeps_its_length.
