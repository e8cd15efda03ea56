(** Angle histograms (C51). *)
From Coq Require Import Reals ZArith List Lia Lra Bool.
From Flocq Require Import Core.
From Verif.Base Require Import Outcome Num.
From Verif.Model Require Import MathUtils Geometry Sensor Trig LaserObserver Histogram.
From Verif.Spec Require Import DirectionSpec.
Import ListNotations.
Local Open Scope R_scope.

Lemma ox_angle_range (base sp : scan_point R) : 0 <= ox_angle cos sin acos PI base sp < PI.
Proof.
  unfold ox_angle. cbn [deq dlt dsub dadd dmul ddiv dsqrt dofZ ROps].
  set (dx := sp_x cos sp - sp_x cos base). set (dy := sp_y sin sp - sp_y sin base).
  assert (P := PI_RGT_0). destruct (R_eq dy 0) eqn:E; [lra|]. apply R_eq_false in E.
  assert (Q : 0 < dy * dy) by nra. assert (S : 0 < dx * dx + dy * dy) by nra.
  assert (Sp : 0 < sqrt (dx * dx + dy * dy)) by now apply sqrt_lt_R0.
  assert (L : Rabs dx < sqrt (dx * dx + dy * dy)).
  { rewrite <- sqrt_Rsqr_abs. apply sqrt_lt_1_alt. unfold Rsqr. nra. }
  apply Rabs_def2 in L.
  assert (B : -1 < dx / sqrt (dx * dx + dy * dy) < 1).
  { split; (apply Rmult_lt_reg_r with (sqrt (dx * dx + dy * dy)); [exact Sp|]); unfold Rdiv; rewrite Rmult_assoc, Rinv_l by lra; lra. }
  assert (A := acos_bound_lt _ B). destruct (R_lt dy 0 && negb (R_eq dx 0))%bool; lra.
Qed.

Lemma hist_index_R (n : nat) (a : R) : (0 < n)%nat -> 0 <= a < PI ->
  exists k, hist_index PI n a = Ok k /\ (k < n)%nat /\ INR k * (PI / INR n) <= a < (INR k + 1) * (PI / INR n).
Proof.
  intros Hn Ha. unfold hist_index. cbn [dle dlt dofZ ROps]. assert (P := PI_RGT_0).
  replace (R_le 0 a) with true by (symmetry; apply R_le_true; lra).
  replace (R_lt a PI) with true by (symmetry; apply R_lt_true; lra). cbn [andb assert_ bind].
  unfold angle_step, deg2rad. cbn [dmul ddiv dofZ dfloor ROps].
  assert (PN : 0 < INR n) by (apply lt_0_INR; lia).
  replace (180 * PI / 180 / IZR (Z.of_nat n)) with (PI / INR n) by (rewrite <- INR_IZR_INZ; field; lra).
  assert (PS : 0 < PI / INR n) by (apply Rmult_lt_0_compat; [lra|now apply Rinv_0_lt_compat]).
  set (s := PI / INR n) in *. set (q := a / s).
  assert (Eq : a = q * s) by (unfold q; field; lra).
  assert (q0 : 0 <= q) by (apply Rmult_le_pos; [lra|left; now apply Rinv_0_lt_compat]).
  assert (qn : q < INR n).
  { apply Rmult_lt_reg_r with s; [exact PS|]. rewrite <- Eq. replace (INR n * s) with PI by (unfold s; field; lra). lra. }
  assert (F0 : (0 <= Zfloor q)%Z) by (apply Zfloor_lub; exact q0).
  assert (Fn : (Zfloor q < Z.of_nat n)%Z) by (apply lt_IZR; rewrite <- INR_IZR_INZ; apply Rle_lt_trans with q; [apply Zfloor_lb|exact qn]).
  destruct (Z.ltb_spec (Zfloor q) 0); [lia|]. destruct (Z.ltb_spec (Zfloor q) (Z.of_nat n)); [|lia]. cbn [assert_ bind].
  exists (Z.to_nat (Zfloor q)). split; [reflexivity|]. split; [lia|].
  rewrite INR_IZR_INZ, Z2Nat.id by lia. assert (L := Zfloor_lb q). assert (U := Zfloor_ub q). rewrite Eq. 
  split; [apply Rmult_le_compat_r; lra|apply Rmult_lt_compat_r; lra].
Qed.

Lemma upd_nth {A} (l : list A) i f k : (i < length l)%nat ->
  nth_error (upd l i f) k = if Nat.eqb k i then option_map f (nth_error l i) else nth_error l k.
Proof.
  intros Hi. unfold upd. destruct (nth_error l i) as [x|] eqn:E; [|apply nth_error_None in E; lia].
  destruct (Nat.eqb_spec k i) as [->|Hne].
  - rewrite nth_error_app2 by (rewrite firstn_length; lia). rewrite firstn_length, Nat.min_l, Nat.sub_diag by lia. reflexivity.
  - destruct (Nat.lt_ge_cases k i).
    + rewrite nth_error_app1 by (rewrite firstn_length; lia).
      rewrite <- (firstn_skipn i l) at 2. rewrite nth_error_app1 by (rewrite firstn_length; lia). reflexivity.
    + rewrite nth_error_app2 by (rewrite firstn_length; lia). rewrite firstn_length, Nat.min_l by lia.
      replace (k - i)%nat with (S (k - S i)) by lia. cbn [nth_error].
      rewrite <- (firstn_skipn (S i) l) at 2. rewrite (nth_error_app2 (firstn (S i) l)) by (rewrite firstn_length; lia).
      rewrite firstn_length, Nat.min_l by lia. reflexivity.
Qed.
Lemma upd_length {A} (l : list A) i f : length (upd l i f) = length l.
Proof.
  unfold upd. destruct (nth_error l i) as [x|] eqn:E; [|reflexivity].
  assert (i < length l)%nat by (apply nth_error_Some; congruence).
  rewrite app_length, firstn_length. cbn [length]. rewrite skipn_length. lia.
Qed.

Lemma edges_length {A} (l : list A) : forall p, length (edges p l) = length l.
Proof. induction l; intros; cbn; auto. Qed.

Definition edge_angle (e : scan_point R * scan_point R) : R := ox_angle cos sin acos PI (fst e) (snd e).

Lemma hist_loop_R (n : nat) pts : (0 < n)%nat -> forall prev cols (sums : list R), length cols = n ->
  exists cols' sums' idx, hist_loop cos sin acos PI n prev pts cols sums = Ok (cols', sums', map edge_angle (edges prev pts)) /\
    Forall2 (fun e k => hist_index PI n (edge_angle e) = Ok k /\ (k < n)%nat) (edges prev pts) idx /\ length cols' = n /\
    forall k, nth_error cols' k = option_map (fun v => (v + Z.of_nat (count_occ Nat.eq_dec idx k))%Z) (nth_error cols k).
Proof.
  intros Hn. induction pts as [|p pts IH]; intros prev cols sums HL; cbn [hist_loop edges map].
  - exists cols, sums, []. split; [reflexivity|]. split; [constructor|]. split; [exact HL|].
    intros k. destruct (nth_error cols k); cbn; [f_equal; lia|reflexivity].
  - destruct (hist_index_R n (ox_angle cos sin acos PI prev p) Hn (ox_angle_range prev p)) as (k & Ek & Hk & _).
    rewrite Ek. cbn [bind].
    destruct (IH p (upd cols k Z.succ) (upd sums k (fun s => dadd s (ox_angle cos sin acos PI prev p)))) as (cols' & sums' & idx & E & F & HL' & HC);
      [now rewrite upd_length|].
    rewrite E. cbn [bind]. exists cols', sums', (k :: idx). split; [reflexivity|]. split; [constructor; auto|]. split; [exact HL'|].
    intros j. rewrite HC, upd_nth by lia. cbn [count_occ].
    destruct (Nat.eqb_spec j k) as [->|Hne]; destruct (Nat.eq_dec k _) as [Hq|Hq]; try congruence; destruct (nth_error cols _); cbn; try reflexivity.
    f_equal. lia.
Qed.

Lemma zsum_app_count n idx : (forall k, In k idx -> (k < n)%nat) ->
  fold_right Z.add 0%Z (map (fun k => Z.of_nat (count_occ Nat.eq_dec idx k)) (seq 0 n)) = Z.of_nat (length idx).
Proof.
  induction idx as [|i idx IH]; intros H.
  - cbn [length]. clear H. induction (seq 0 n) as [|x l IHl]; [reflexivity|cbn in *; lia].
  - assert (G : forall l, NoDup l -> fold_right Z.add 0%Z (map (fun k => Z.of_nat (count_occ Nat.eq_dec (i :: idx) k)) l) =
        (fold_right Z.add 0 (map (fun k => Z.of_nat (count_occ Nat.eq_dec idx k)) l) + (if in_dec Nat.eq_dec i l then 1 else 0))%Z).
    { clear IH H. induction l as [|x l IHl]; intros ND; [reflexivity|]. inversion ND as [|? ? NI ND']; subst. cbn [map fold_right].
      rewrite IHl by exact ND'. cbn [count_occ]. destruct (Nat.eq_dec i x) as [->|Hne].
      - destruct (in_dec Nat.eq_dec x l); [contradiction|]. destruct (in_dec Nat.eq_dec x (x :: l)); [lia|exfalso; apply n1; now left].
      - destruct (in_dec Nat.eq_dec i l), (in_dec Nat.eq_dec i (x :: l)); try lia.
        + exfalso. apply n0. now right.
        + exfalso. destruct i0; congruence. }
    rewrite G by apply seq_NoDup. rewrite IH by (intros; apply H; now right).
    destruct (in_dec Nat.eq_dec i (seq 0 n)) as [_|NI]; [cbn [length]; lia|].
    exfalso. apply NI. apply in_seq. assert (i < n)%nat by (apply H; now left). lia.
Qed.
