(** Proofs about worlds and observers, and about weights in exact arithmetic. *)
From Coq Require Import Reals ZArith List Lia Lra Bool.
From Flocq Require Import Core IEEE754.Binary IEEE754.Bits.
From Verif.Base Require Import Outcome Num OrdLaws.
From Verif.Model Require Import MathUtils Geometry Sensor Histogram World ParticleFilter.
From Verif.Spec Require Import WorldSpec ParticleSpec.
Import ListNotations.

Section W.
  Context {D S M W : Type} {ops : DOps D}.
  Variables (w_update : W -> pose D -> outcome W) (w_observe : W -> tr_scan D S -> outcome W).
  Variables (w_pose : W -> outcome (pose D)) (w_map : W -> outcome M).
  Local Notation run := (world_run w_update w_observe w_pose w_map).

  Lemma world_run_app h1 : forall o w h2 o2 w2 n2, run o w (h1 ++ h2) = Ok (o2, w2, n2) ->
    exists o1 w1 n1 n', run o w h1 = Ok (o1, w1, n1) /\ run o1 w1 h2 = Ok (o2, w2, n') /\ n2 = n1 ++ n'.
  Proof.
    induction h1 as [|[id|id|id|s] h1 IH]; intros o w h2 o2 w2 n2 E; cbn [app world_run] in *; eauto.
    - exists o, w, [], n2. auto.
    - apply bind_Ok_inv in E as ([w1 n1] & E1 & E). apply bind_Ok_inv in E as ([[o3 w3] n3] & E2 & E). injection E as <- <- <-.
      apply IH in E2 as (o4 & w4 & n4 & n' & A & B & ->). exists o4, w4, (n1 ++ n4), n'. rewrite E1. cbn [bind]. rewrite A. cbn [bind].
      split; [reflexivity|]. split; [exact B|]. now rewrite app_assoc.
  Qed.
  Lemma world_run_observers h : forall o w o' w' n, run o w h = Ok (o', w', n) ->
    wo_pose o' = wo_pose o ++ pose_subscribers h /\ wo_map o' = wo_map o ++ map_subscribers h /\
    (forall id, existsb (Nat.eqb id) (wo_dead o') = (existsb (Nat.eqb id) (wo_dead o) || is_destroyed h id)%bool).
  Proof.
    induction h as [|[id|id|id|s] h IH]; intros o w o' w' n E; cbn [world_run] in E.
    - injection E as <- <- <-. unfold pose_subscribers, map_subscribers, is_destroyed. cbn. rewrite !app_nil_r. repeat split. intros. now rewrite orb_false_r.
    - apply IH in E as (A & B & C). cbn in *. rewrite A, <- app_assoc. auto.
    - apply IH in E as (A & B & C). cbn in *. rewrite B, <- app_assoc. auto.
    - apply IH in E as (A & B & C). cbn in *. split; [exact A|]. split; [exact B|]. intros k. rewrite C. unfold is_destroyed. cbn [existsb]. now destruct (k =? id)%nat, (existsb (Nat.eqb k) (wo_dead o)), (existsb _ h).
    - apply bind_Ok_inv in E as ([w1 n1] & E1 & E). apply bind_Ok_inv in E as ([[o3 w3] n3] & E2 & E). injection E as <- <- <-.
      apply IH in E2. exact E2.
  Qed.
End W.

Section SS.
  Context {D S M SM : Type} {ops : DOps D}.
  Variables (sm_reset : SM -> SM) (sm_process : SM -> S -> pose D -> M -> outcome (D * pose D * SM)).
  Variable adder : M -> pose D -> S -> D -> D -> outcome M.
  Variables (q1 q2 margin : D).
  Local Notation run := (ss_run sm_reset sm_process adder q1 q2 margin).
  (** odometry and corrections, alternating *)
  Fixpoint interleave (ds cs : list (pose D)) : list (pose D) :=
    match ds, cs with d :: ds, c :: cs => d :: c :: interleave ds cs | _, _ => [] end.
  Lemma ss_run_pose h : forall o (w : ss_world D M SM) o' w' n, run o w h = Ok (o', w', n) ->
    exists cs, ss_log w' = ss_log w ++ cs /\ length cs = length (scan_deltas h) /\
      ss_pose w' = fold_left pose_add (interleave (scan_deltas h) cs) (ss_pose w).
  Proof.
    unfold ss_run. induction h as [|[id|id|id|s] h IH]; intros o w o' w' n E; cbn [world_run] in E; eauto.
    - injection E as <- <- <-. exists []. rewrite app_nil_r. auto.
    - apply bind_Ok_inv in E as ([w1 n1] & E1 & E). apply bind_Ok_inv in E as ([[o3 w3] n3] & E2 & E). injection E as <- <- <-.
      apply IH in E2 as (cs & L & LC & P). unfold handle_sensor_data in E1. cbn [bind] in E1. apply bind_Ok_inv in E1 as (w2 & E3 & E1).
      injection E1 as <- <-. unfold ss_observe in E3. cbn [ss_update ss_pose ss_map ss_sm ss_log] in E3.
      apply bind_Ok_inv in E3 as ([[prob d] sm] & E4 & E3). apply bind_Ok_inv in E3 as (m & E5 & E3). injection E3 as <-.
      cbn [ss_log ss_pose ss_update] in *. exists (d :: cs). rewrite L, <- app_assoc. split; [reflexivity|]. cbn [scan_deltas flat_map app length].
      split; [cbn [length]; now rewrite LC|]. cbn [interleave fold_left]. exact P.
  Qed.
End SS.

Section Heaviest.
  Context {D : Type} {ops : DOps D} {laws : OrdLaws ops}.
  Lemma heaviest_max ws : forall i b bw r done, Forall (fun w => disnan w = false) ws -> disnan bw = false ->
    (forall u, In u done -> dlt bw u = false) ->
    heaviest ws i (Some (b, bw)) = Some r ->
    exists rw, (r = b /\ rw = bw \/ (i <= r)%nat /\ nth_error ws (r - i) = Some rw) /\ (forall u, In u done \/ In u ws -> dlt rw u = false).
  Proof.
    induction ws as [|w ws IH]; intros i b bw r done N Nb HD E; cbn [heaviest] in E.
    - injection E as <-. exists bw. split; [now left|]. intros u [H|[]]. auto.
    - inversion N; subst. destruct (dlt w bw) eqn:L.
      + destruct (IH (Datatypes.S i) b bw r (w :: done)) as (rw & A & B); auto.
        { intros u [<-|H]; auto. destruct (dlt bw w) eqn:L'; [|reflexivity]. rewrite <- (lt_irrefl_ w). symmetry. now apply lt_trans_ with bw. }
        exists rw. split.
        * destruct A as [A|[A A']]; [now left|right]. split; [lia|]. replace (r - i)%nat with (Datatypes.S (r - Datatypes.S i)) by lia. exact A'.
        * intros u [H|[<-|H]]; apply B; cbn; auto.
      + destruct (IH (Datatypes.S i) i w r (w :: done)) as (rw & A & B); auto.
        { intros u [<-|H]; [apply lt_irrefl_|]. destruct (dlt w u) eqn:L'; [|reflexivity].
          destruct (lt_cotrans_ w bw u Nb L') as [X|X]; [congruence|]. rewrite HD in X by exact H. discriminate. }
        exists rw. split.
        * right. destruct A as [[-> ->]|[A A']]; [split; [lia|]; now rewrite Nat.sub_diag|]. split; [lia|].
          replace (r - i)%nat with (Datatypes.S (r - Datatypes.S i)) by lia. exact A'.
        * intros u [H|[<-|H]]; apply B; cbn; auto.
  Qed.
  Lemma heaviest_is_max ws r : Forall (fun w => disnan w = false) ws -> heaviest ws 0 None = Some r ->
    exists rw, nth_error ws r = Some rw /\ forall u, In u ws -> dlt rw u = false.
  Proof.
    destruct ws as [|w ws]; [discriminate|]. intros N E. cbn [heaviest] in E. inversion N; subst.
    destruct (heaviest_max ws 1 0 w r [w]) as (rw & A & B); auto.
    { intros u [<-|[]]. apply lt_irrefl_. }
    exists rw. split.
    - destruct A as [[-> ->]|[A A']]; [reflexivity|]. destruct r; [lia|]. cbn [nth_error]. now rewrite Nat.sub_succ, Nat.sub_0_r in A'.
    - intros u [<-|H]; apply B; cbn; auto.
  Qed.
End Heaviest.

Local Open Scope R_scope.
Lemma total_weight_R ws : forall acc, total_weight ws acc = acc + Rsum ws.
Proof. unfold Rsum. induction ws as [|w ws IH]; intros acc; cbn [total_weight fold_right]; [lra|]. rewrite IH. cbn. lra. Qed.
Lemma sum_squares_R ws : forall acc, sum_squares ws acc = acc + Rsum (map (fun w => w * w) ws).
Proof. unfold Rsum. induction ws as [|w ws IH]; intros acc; cbn [sum_squares map fold_right]; [lra|]. rewrite IH. cbn. lra. Qed.
Lemma Rsum_scale c ws : Rsum (map (fun w => w / c) ws) = Rsum ws / c.
Proof. unfold Rsum. induction ws as [|w ws IH]; cbn [map fold_right]; [lra|]. rewrite IH. lra. Qed.
Lemma Rsum_app a b : Rsum (a ++ b) = Rsum a + Rsum b.
Proof. unfold Rsum. induction a; cbn; lra. Qed.
Lemma Rsum_nonneg ws : Forall (fun w => 0 <= w) ws -> 0 <= Rsum ws.
Proof. unfold Rsum. induction 1; cbn; lra. Qed.
Lemma Rsum_repeat c n : Rsum (repeat c n) = INR n * c.
Proof. unfold Rsum. induction n as [|n IH]; [cbn; lra|]. rewrite S_INR. cbn [repeat fold_right]. rewrite IH. lra. Qed.

(** drawing, exact reals *)
Lemma draw_R ws : forall j tot s, Forall (fun w => 0 <= w) ws -> tot <= s < tot + Rsum ws ->
  exists i, draw ws j tot s = (j + i)%nat /\ (i < length ws)%nat /\ tot + Rsum (firstn i ws) <= s < tot + Rsum (firstn (S i) ws).
Proof.
  induction ws as [|w ws IH]; intros j tot s N H; [unfold Rsum in H; cbn in H; lra|]. inversion N; subst. cbn [draw].
  cbn [dlt dadd ROps]. change (Rsum (w :: ws)) with (w + Rsum ws) in H.
  destruct (R_lt s (tot + w)) eqn:L.
  - apply R_lt_true in L. exists O. split; [lia|]. split; [cbn; lia|]. unfold Rsum. cbn. lra.
  - apply R_lt_false in L. destruct (IH (S j) (tot + w) s) as (i & E & B & R); [assumption|lra|].
    exists (S i). split; [rewrite E; lia|]. split; [cbn; lia|].
    change (firstn (S i) (w :: ws)) with (w :: firstn i ws). change (firstn (S (S i)) (w :: ws)) with (w :: firstn (S i) ws).
    change (Rsum (w :: firstn i ws)) with (w + Rsum (firstn i ws)). change (Rsum (w :: firstn (S i) ws)) with (w + Rsum (firstn (S i) ws)). lra.
Qed.
Lemma firstn_mono_sum ws i k : Forall (fun w => 0 <= w) ws -> (i <= k)%nat -> Rsum (firstn i ws) <= Rsum (firstn k ws).
Proof.
  intros N H. replace (firstn i ws) with (firstn i (firstn k ws)) by (rewrite firstn_firstn; f_equal; lia).
  rewrite <- (firstn_skipn i (firstn k ws)) at 2. rewrite Rsum_app.
  assert (0 <= Rsum (skipn i (firstn k ws))); [|lra]. apply Rsum_nonneg. rewrite Forall_forall in *. intros x Hx. apply N.
  rewrite <- (firstn_skipn k ws). apply in_or_app. left. rewrite <- (firstn_skipn i (firstn k ws)). apply in_or_app. now right.
Qed.
Lemma draw_owns ws s i : Forall (fun w => 0 <= w) ws -> Rsum ws = 1 -> 0 <= s < 1 ->
  draw ws 0 0 s = i <-> owns ws i s.
Proof.
  intros N H1 Hs. destruct (draw_R ws 0 0 s N) as (k & E & B & R); [lra|]. unfold owns. rewrite E, Nat.add_0_l. split.
  - intros <-. lra.
  - intros O. destruct (Nat.lt_trichotomy k i) as [L|[L|L]]; [|exact L|].
    + assert (X := firstn_mono_sum ws (S k) i N L). lra.
    + assert (X := firstn_mono_sum ws (S i) k N L). lra.
Qed.
Lemma owns_positive ws i s w : nth_error ws i = Some w -> owns ws i s -> 0 < w.
Proof.
  unfold owns. intros E O. assert (X : firstn (S i) ws = firstn i ws ++ [w]).
  { clear O. revert i E. induction ws as [|v ws IH]; intros [|i] E; try discriminate; cbn [nth_error] in E; [injection E as ->; reflexivity|].
    change (firstn (S (S i)) (v :: ws)) with (v :: firstn (S i) ws). now rewrite (IH i E). }
  rewrite X, Rsum_app in O. unfold Rsum at 3 in O. cbn in O. lra.
Qed.

(** zero and NaN weights in binary64 *)
Local Notation dzero s := (B754_zero 53 1024 s).
Definition is_zero (x : F64) : Prop := exists s, x = dzero s.
Lemma F_total_zero ws : forall acc : F64, is_zero acc -> Forall is_zero ws -> is_zero (total_weight ws acc).
Proof.
  induction ws as [|w ws IH]; intros acc A H; cbn [total_weight]; [exact A|]. inversion H as [|? ? [s1 E1] H']; subst.
  apply IH; [|exact H']. destruct A as [s2 ->]. destruct s1, s2; unfold is_zero; (eexists; reflexivity).
Qed.
Lemma F_zero_div_zero (x y : F64) : is_zero x -> is_zero y -> disnan (ddiv x y) = true.
Proof. intros [s ->] [s' ->]. destruct s, s'; reflexivity. Qed.
Lemma F_nan_add_l (x y : F64) : disnan x = true -> disnan (dadd x y) = true.
Proof. destruct x, y; cbn; try discriminate; reflexivity. Qed.
Lemma F_nan_add_r (x y : F64) : disnan y = true -> disnan (dadd x y) = true.
Proof. destruct x, y; cbn; try discriminate; reflexivity. Qed.
Lemma F_nan_div_r (x y : F64) : disnan y = true -> disnan (ddiv x y) = true.
Proof. destruct x, y; cbn; try discriminate; reflexivity. Qed.
Lemma F_total_nan ws : forall acc : F64, disnan acc = true \/ Exists (fun w => disnan w = true) ws -> disnan (total_weight ws acc) = true.
Proof.
  induction ws as [|w ws IH]; intros acc H; cbn [total_weight]; [destruct H as [H|H]; [exact H|inversion H]|].
  apply IH. destruct H as [H|H]; [left; now apply F_nan_add_l|]. inversion H; subst; [left; now apply F_nan_add_r|now right].
Qed.
