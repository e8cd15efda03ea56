(** C52: the caching observation estimator of GMapping. *)
From Coq Require Import Reals ZArith List Bool Lia Lra.
From Flocq Require Import Core.
From Verif.Base Require Import Outcome Num F64Facts.
From Verif.Model Require Import MathUtils Geometry Grid Cells GmappingOope.
From Verif.Spec Require Import OopeSpec.
From Verif.Proofs Require Import OopeProofs.
Import ListNotations.

(** Without the cache: the best agreement exp(-d^2/0.05) of a full enough cell of the window with the observed obstacle; it is
    a probability. *)
Theorem C52_window_value :
  forall (th : R) (window : Z) (m : gmap R) (sp : coord) (a : aoo R), (0 <= window)%Z ->
  best_agreement (fun c => th <= c_prob (g_cell (gm_at m c)))%R
    (fun c => exp (- ((fst (g_obst (gm_at m c)) - fst (a_obst a)) ^ 2 + (snd (g_obst (gm_at m c)) - snd (a_obst a)) ^ 2) / (5 / 100)))%R
    window sp (oope_window exp th window m sp a) /\
  (0 <= oope_window exp th window m sp a <= 1)%R.
Proof.
  intros th window m sp a Hw. assert (X := fold_best m sp a th (window_offsets window) 0%R). cbn zeta in X.
  change (fold_left (oope_step exp th m sp a) (window_offsets window) 0%R) with (oope_window exp th window m sp a) in X. destruct X as (A & B & C).
  assert (Ag : forall c, agreement m a c = exp (- ((fst (g_obst (gm_at m c)) - fst (a_obst a)) ^ 2 + (snd (g_obst (gm_at m c)) - snd (a_obst a)) ^ 2) / (5 / 100))%R).
  { intros c. unfold agreement, dist_sq, ptx, pty. cbn [dadd dsub dmul ROps]. f_equal. f_equal. f_equal. ring. }
  assert (Off : forall c, near window sp c <-> exists d, In d (window_offsets window) /\ c = coord_add sp d).
  { intros c. unfold near. split.
    - intros [X Y]. exists (fst c - fst sp, snd c - snd sp)%Z. split; [apply window_in; [exact Hw|cbn; lia]|].
      unfold coord_add, cx, cy. destruct c. cbn. f_equal; lia.
    - intros (d & I & ->). apply window_in in I; [|exact Hw]. unfold coord_add, cx, cy. cbn. lia. }
  split; [split|split; [exact A|]].
  - intros c Nc Fc. apply Off in Nc. destruct Nc as (d & I & ->). rewrite <- Ag. apply B; assumption.
  - destruct C as [C|(d & I & F & C)]; [right; exact C|left]. exists (coord_add sp d). split; [apply Off; exists d; split; [exact I|reflexivity]|]. split; [exact F|].
    rewrite <- Ag. exact C.
  - destruct C as [C|(d & I & F & C)]; rewrite C; [change (0 <= 1)%R; lra|].
    rewrite Ag. apply Rle_trans with (exp 0); [|rewrite exp_0; lra].
    match goal with |- (exp ?x <= _)%R => destruct (Rle_lt_or_eq_dec x 0) as [L|L] end.
    + assert (Sq1 := pow2_ge_0 (fst (g_obst (gm_at m (coord_add sp d))) - fst (a_obst a))).
      assert (Sq2 := pow2_ge_0 (snd (g_obst (gm_at m (coord_add sp d))) - snd (a_obst a))). unfold Rdiv. apply Ropp_le_cancel. rewrite Ropp_0.
      rewrite <- Ropp_mult_distr_l, Ropp_involutive. apply Rmult_le_pos; [lra|]. left. apply Rinv_0_lt_compat. lra.
    + left. apply exp_increasing. exact L.
    + rewrite L. lra.
Qed.
Print Assumptions C52_window_value.

(** With the cache, for every history of queries (each on the map as it is then) and in both arithmetics: a query is answered
    afresh when its obstacle is in another cell than that of the query before (or it is the first one), and otherwise with the
    answer to the query before, whatever happened to the map and wherever in the cell the obstacle is. *)
Definition cached_answers {D} {ops : DOps D} (dexp : D -> D) (th : D) (window : Z) (qs : list (gmap D * aoo D)) (rs : list D) : Prop :=
  let cell q := world_to_cell (gm_scale (fst q)) (a_obst (snd q)) in
  let fresh q sp := oope_window dexp th window (fst q) sp (snd q) in
  length rs = length qs /\
  (forall q sp r, nth_error qs 0 = Some q -> nth_error rs 0 = Some r -> cell q = Ok sp -> r = fresh q sp) /\
  (forall i q0 q1 r0 r1, nth_error qs i = Some q0 -> nth_error qs (S i) = Some q1 -> nth_error rs i = Some r0 -> nth_error rs (S i) = Some r1 ->
     (cell q0 = cell q1 -> r1 = r0) /\ (cell q0 <> cell q1 -> forall sp, cell q1 = Ok sp -> r1 = fresh q1 sp)).
Theorem C52_answers_partial :
  (forall dexp th window (qs : list (gmap R * aoo R)) rs, oope_run dexp th window oope_new qs = Ok rs -> cached_answers dexp th window qs rs) /\
  (forall dexp th window (qs : list (gmap F64 * aoo F64)) rs, oope_run dexp th window oope_new qs = Ok rs -> cached_answers dexp th window qs rs).
Proof.
  split; intros dexp th window qs rs E.
  - destruct (run_spec dexp th window (window_set_R dexp th window) qs oope_new rs E) as (L & _ & _ & F0 & S0). split; [exact L|]. split; [|exact S0].
    intros q sp r Hq Hr Hc. apply (F0 q sp r Hq Hr Hc). left. cbn. apply R_eq_true. reflexivity.
  - destruct (run_spec dexp th window (window_set_F dexp th window) qs oope_new rs E) as (L & _ & _ & F0 & S0). split; [exact L|]. split; [|exact S0].
    intros q sp r Hq Hr Hc. apply (F0 q sp r Hq Hr Hc). left. reflexivity.
Qed.
Print Assumptions C52_answers_partial.

(** The property is false: with one full cell (mean obstacle at its middle) and nothing else, a second obstacle in the same cell
    gets the probability of the first one; and so does the same obstacle after the cell was emptied. *)
Local Open Scope R_scope.
Definition ex_full : gmcell R := mkGm (mkGCell (mkOcc 1%R 1%R) false) 1%Z 1%Z (/ 2, / 2)%R.
Definition ex_map (c0 : gmcell R) : gmap R := mkGMap 1%R (fun c => if coord_eqb c (0, 0)%Z then c0 else gm_new).
Definition ex_obs (x y : R) : aoo R := mkAoo true (mkOcc 1%R 1%R) (x, y) 1%R.
Lemma ex_cell x y c : (0 <= x < 1)%R -> (0 <= y < 1)%R -> world_to_cell (gm_scale (ex_map c)) (a_obst (ex_obs x y)) = Ok (0, 0)%Z.
Proof.
  intros Hx Hy. unfold world_to_cell, ex_map, ex_obs. cbn [gm_scale a_obst ptx pty fst snd dispinf ROps negb andb assert_ bind].
  assert (F : forall v : R, (0 <= v < 1)%R -> floor_int (ddiv v 1%R) = Ok 0%Z).
  { intros v Hv. unfold floor_int. cbn [dfloor ddiv ROps]. rewrite (Zfloor_imp 0%Z) by (cbn; unfold Rdiv; rewrite Rinv_1; lra). reflexivity. }
  cbn [ptx pty fst snd]. rewrite (F x Hx), (F y Hy). reflexivity.
Qed.
Lemma ex_value (c0 : gmcell R) x y : oope_window exp (1 / 10) 0%Z (ex_map c0) (0, 0)%Z (ex_obs x y) =
  if Rlt_dec (c_prob (g_cell c0)) (1 / 10) then 0%R else Rmax 0 (exp (- ((fst (g_obst c0) - x) * (fst (g_obst c0) - x) + (snd (g_obst c0) - y) * (snd (g_obst c0) - y)) / (5 / 100))).
Proof.
  unfold oope_window. change (window_offsets 0) with [(0, 0)%Z]. cbn [fold_left]. unfold oope_step.
  change (coord_add (0, 0) (0, 0))%Z with (0, 0)%Z. change (gm_at (ex_map c0) (0, 0)%Z) with c0.
  destruct (dlt (c_prob (g_cell c0)) (1 / 10)) eqn:E.
  - change (R_lt (c_prob (g_cell c0)) (1 / 10) = true) in E. apply R_lt_true in E. destruct (Rlt_dec (c_prob (g_cell c0)) (1 / 10)); [reflexivity|contradiction].
  - change (R_lt (c_prob (g_cell c0)) (1 / 10) = false) in E. apply R_lt_false in E. destruct (Rlt_dec (c_prob (g_cell c0)) (1 / 10)) as [L|_]; [lra|].
    rewrite R_dmax. f_equal. change (dsub (dofZ 1) (gm_discrepancy exp c0 (ex_obs x y))) with (1 - gm_discrepancy exp (gm_at (ex_map c0) (0, 0)%Z) (ex_obs x y))%R. rewrite agreement_eq.
    unfold agreement, dist_sq. reflexivity.
Qed.
Theorem C52_cache_refuted :
  exists (th : R) (window : Z) (full emptied : gmap R) (first second : aoo R) (r : R),
    (* two queries on one map: the second answer is not the one computed afresh *)
    oope_run exp th window oope_new [(full, first); (full, second)] = Ok [r; r] /\
    oope_run exp th window oope_new [(full, second)] = Ok [oope_window exp th window full (0, 0)%Z second] /\
    oope_window exp th window full (0, 0)%Z second <> r /\
    (* the same query twice, the map having changed in between *)
    oope_run exp th window oope_new [(full, first); (emptied, first)] = Ok [r; r] /\
    oope_run exp th window oope_new [(emptied, first)] = Ok [oope_window exp th window emptied (0, 0)%Z first] /\
    oope_window exp th window emptied (0, 0)%Z first <> r.
Proof.
  exists (1 / 10)%R, 0%Z, (ex_map ex_full), (ex_map (mkGm (mkGCell (mkOcc 0%R 1%R) false) 1%Z 20%Z (/ 2, / 2)%R)), (ex_obs (/ 2) (/ 2)), (ex_obs (/ 4) (/ 2)), 1%R.
  assert (V1 : oope_window exp (1 / 10) 0%Z (ex_map ex_full) (0, 0)%Z (ex_obs (/ 2) (/ 2)) = 1%R).
  { rewrite ex_value. cbn [ex_full c_prob g_cell c_occ prob_occ g_obst fst snd]. unfold c_prob. cbn. destruct (Rlt_dec 1 (1 / 10)); [lra|].
    replace (- ((/ 2 - / 2) * (/ 2 - / 2) + (/ 2 - / 2) * (/ 2 - / 2)) / (5 / 100))%R with 0%R by field. rewrite exp_0. apply Rmax_right. lra. }
  assert (V2 : (oope_window exp (1 / 10) 0%Z (ex_map ex_full) (0, 0)%Z (ex_obs (/ 4) (/ 2)) < 1)%R).
  { rewrite ex_value. unfold c_prob. cbn. destruct (Rlt_dec 1 (1 / 10)); [lra|].
    apply Rmax_lub_lt; [lra|]. rewrite <- exp_0. apply exp_increasing. lra. }
  assert (V3 : oope_window exp (1 / 10) 0%Z (ex_map (mkGm (mkGCell (mkOcc 0%R 1%R) false) 1%Z 20%Z (/ 2, / 2)%R)) (0, 0)%Z (ex_obs (/ 2) (/ 2)) = 0%R).
  { rewrite ex_value. unfold c_prob. cbn. destruct (Rlt_dec 0 (1 / 10)); [reflexivity|lra]. }
  assert (First : forall m a, world_to_cell (gm_scale m) (a_obst a) = Ok (0, 0)%Z -> a_is_occ a = true ->
    oope_probability exp (1 / 10)%R 0%Z oope_new m a = Ok (oope_window exp (1 / 10) 0%Z m (0, 0)%Z a, mkOope (0, 0)%Z (oope_window exp (1 / 10) 0%Z m (0, 0)%Z a))).
  { intros m a Hc Ho. unfold oope_probability. rewrite Ho, Hc. cbn [assert_ bind]. assert (deq (o_prob (oope_new (D := R))) (dofZ (-1)) = true) as -> by (cbn; apply R_eq_true; reflexivity).
    rewrite andb_false_r. reflexivity. }
  assert (Again : forall m a, world_to_cell (gm_scale m) (a_obst a) = Ok (0, 0)%Z -> a_is_occ a = true ->
    oope_probability exp (1 / 10)%R 0%Z (mkOope (0, 0)%Z 1%R) m a = Ok (1%R, mkOope (0, 0)%Z 1%R)).
  { intros m a Hc Ho. unfold oope_probability. rewrite Ho, Hc. cbn [assert_ bind o_prob]. assert (deq 1%R (dofZ (-1)) = false) as -> by (cbn; apply R_eq_false; lra). reflexivity. }
  assert (H2 : (0 <= / 2 < 1)%R) by lra. assert (H4 : (0 <= / 4 < 1)%R) by lra.
  split; [|split; [|split; [|split; [|split]]]].
  - cbn [oope_run]. rewrite First by (try apply ex_cell; auto). rewrite V1. cbn [bind]. rewrite Again by (try apply ex_cell; auto). reflexivity.
  - cbn [oope_run]. rewrite First by (try apply ex_cell; auto). reflexivity.
  - lra.
  - cbn [oope_run]. rewrite First by (try apply ex_cell; auto). rewrite V1. cbn [bind]. rewrite Again by (try apply ex_cell; auto). reflexivity.
  - cbn [oope_run]. rewrite First by (try apply ex_cell; auto). reflexivity.
  - rewrite V3. lra.
Qed.
Print Assumptions C52_cache_refuted.
