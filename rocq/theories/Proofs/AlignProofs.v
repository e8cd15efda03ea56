(** The dominating direction of a scan (C51, C99). *)
From Coq Require Import Reals ZArith List Lia Lra Bool.
From Flocq Require Import Core.
From Verif.Base Require Import Outcome Num.
From Verif.Model Require Import MathUtils Geometry Sensor Histogram HcAlign.
From Verif.Spec Require Import CellSpec DirectionSpec.
From Verif.Proofs Require Import HistProofs.
Import ListNotations.
Local Open Scope R_scope.

Lemma heads_unique e a b : heads e a -> heads e b -> a = b.
Proof.
  intros [A1 [(d & X1 & Y1) Z1]] [B1 [(c & X2 & Y2) Z2]].
  set (dx := at_x (snd e) - at_x (fst e)) in *. set (dy := at_y (snd e) - at_y (fst e)) in *.
  destruct (Req_dec dx 0) as [Hx|Hx]; [destruct (Req_dec dy 0) as [Hy|Hy]|].
  - rewrite Z1, Z2 by auto. reflexivity.
  - assert (S : sin (a - b) = 0).
    { rewrite sin_minus. assert (d <> 0) by (intros ->; lra). assert (c <> 0) by (intros ->; lra).
      assert (E : d * c * (sin a * cos b - cos a * sin b) = 0) by (replace (d * c * (sin a * cos b - cos a * sin b)) with ((d * sin a) * (c * cos b) - (d * cos a) * (c * sin b)) by ring; rewrite <- Y1, <- X2, <- X1, <- Y2; ring).
      apply Rmult_integral in E as [E|E]; [apply Rmult_integral in E as [E|E]; contradiction|exact E]. }
    destruct (Rtotal_order a b) as [L|[L|L]]; [|exact L|].
    + assert (P := sin_gt_0 (b - a) ltac:(lra) ltac:(lra)). replace (b - a) with (- (a - b)) in P by ring. rewrite sin_neg, S in P. lra.
    + assert (P := sin_gt_0 (a - b) ltac:(lra) ltac:(lra)). lra.
  - assert (S : sin (a - b) = 0).
    { rewrite sin_minus. assert (d <> 0) by (intros ->; lra). assert (c <> 0) by (intros ->; lra).
      assert (E : d * c * (sin a * cos b - cos a * sin b) = 0) by (replace (d * c * (sin a * cos b - cos a * sin b)) with ((d * sin a) * (c * cos b) - (d * cos a) * (c * sin b)) by ring; rewrite <- Y1, <- X2, <- X1, <- Y2; ring).
      apply Rmult_integral in E as [E|E]; [apply Rmult_integral in E as [E|E]; contradiction|exact E]. }
    destruct (Rtotal_order a b) as [L|[L|L]]; [|exact L|].
    + assert (P := sin_gt_0 (b - a) ltac:(lra) ltac:(lra)). replace (b - a) with (- (a - b)) in P by ring. rewrite sin_neg, S in P. lra.
    + assert (P := sin_gt_0 (a - b) ltac:(lra) ltac:(lra)). lra.
Qed.

(** the angle the code computes is the direction of the edge *)
Lemma ox_angle_heads (p q : scan_point R) : heads (p, q) (ox_angle cos sin acos PI p q).
Proof.
  unfold heads. cbn [fst snd]. change (at_x q) with (sp_x cos q). change (at_x p) with (sp_x cos p).
  change (at_y q) with (sp_y sin q). change (at_y p) with (sp_y sin p).
  split; [apply ox_angle_range|]. unfold ox_angle. cbn [deq dlt dsub dadd dmul ddiv dsqrt dofZ ROps].
  set (dx := sp_x cos q - sp_x cos p). set (dy := sp_y sin q - sp_y sin p).
  destruct (R_eq dy 0) eqn:E.
  - apply R_eq_true in E. rewrite cos_0, sin_0. split; [exists dx; split; lra|auto].
  - apply R_eq_false in E. split; [|intros [_ H]; contradiction].
    assert (Q : 0 < dy * dy) by nra. assert (S2 : 0 < dx * dx + dy * dy) by nra.
    set (d := sqrt (dx * dx + dy * dy)). assert (Sp : 0 < d) by now apply sqrt_lt_R0.
    assert (DD : d * d = dx * dx + dy * dy) by (apply sqrt_sqrt; lra).
    assert (B : -1 <= dx / d <= 1).
    { split; (apply Rmult_le_reg_r with d; [exact Sp|]); unfold Rdiv; rewrite Rmult_assoc, Rinv_l by lra; nra. }
    assert (C : cos (acos (dx / d)) = dx / d) by now apply cos_acos.
    assert (SS : sin (acos (dx / d)) = Rabs dy / d).
    { rewrite sin_acos by exact B. replace (1 - (dx / d)²) with ((Rabs dy / d)²).
      - apply sqrt_Rsqr. apply Rmult_le_pos; [apply Rabs_pos|left; now apply Rinv_0_lt_compat].
      - unfold Rsqr. replace (Rabs dy / d * (Rabs dy / d)) with ((Rabs dy * Rabs dy) / (d * d)) by (field; lra).
        rewrite <- Rabs_mult, Rabs_pos_eq by nra. rewrite DD.
        replace (dx / d * (dx / d)) with (dx * dx / (d * d)) by (field; lra). rewrite DD. field. nra. }
    destruct (R_lt dy 0) eqn:L; cbn [andb].
    + apply R_lt_true in L. destruct (R_eq dx 0) eqn:Ex; cbn [negb].
      * apply R_eq_true in Ex. exists (- d). rewrite C, SS, Rabs_left by exact L. split; [rewrite Ex; field; lra|field; lra].
      * exists (- d). rewrite Rtrigo_facts.cos_pi_minus, Rtrigo_facts.sin_pi_minus, C, SS, Rabs_left by exact L. split; field; lra.
    + apply R_lt_false in L. exists d. rewrite C, SS, Rabs_pos_eq by lra. split; field; lra.
Qed.

(** sums and counts of the columns *)
Lemma in_column (n k j : nat) (a : R) : (0 < n)%nat -> INR k * (PI / INR n) <= a < (INR k + 1) * (PI / INR n) ->
  (R_le (INR j * (PI / INR n)) a && R_lt a ((INR j + 1) * (PI / INR n)))%bool = Nat.eqb j k.
Proof.
  intros Hn Ha. assert (PN : 0 < INR n) by (apply lt_0_INR; lia).
  assert (PS : 0 < PI / INR n) by (apply Rmult_lt_0_compat; [apply PI_RGT_0|now apply Rinv_0_lt_compat]).
  set (s := PI / INR n) in *. destruct (Nat.eqb_spec j k) as [->|Hne].
  - apply andb_true_iff. split; [apply R_le_true|apply R_lt_true]; lra.
  - apply not_true_is_false. rewrite andb_true_iff, R_le_true, R_lt_true. intros [A B].
    assert (INR j < INR k + 1) by (apply Rmult_lt_reg_r with s; lra).
    assert (INR k < INR j + 1) by (apply Rmult_lt_reg_r with s; lra).
    apply Hne. assert (j < S k)%nat by (apply INR_lt; rewrite S_INR; lra). assert (k < S j)%nat by (apply INR_lt; rewrite S_INR; lra). lia.
Qed.

Lemma hist_loop_columns (n : nat) pts : (0 < n)%nat -> forall prev cols (sums : list R), length cols = n -> length sums = n ->
  exists cols' sums', hist_loop cos sin acos PI n prev pts cols sums = Ok (cols', sums', map edge_angle (edges prev pts)) /\
    length cols' = n /\ length sums' = n /\
    (forall k, nth_error cols' k = option_map (fun v => (v + Z.of_nat (length (column n k (map edge_angle (edges prev pts)))))%Z) (nth_error cols k)) /\
    (forall k, nth_error sums' k = option_map (fun v => v + Rsum (column n k (map edge_angle (edges prev pts)))) (nth_error sums k)).
Proof.
  intros Hn. induction pts as [|p pts IH]; intros prev cols sums HL HS; cbn [hist_loop edges map].
  - exists cols, sums. split; [reflexivity|]. split; [exact HL|]. split; [exact HS|]. unfold column. cbn [filter length Rsum fold_right].
    split; intros k.
    + destruct (nth_error cols k); cbn [option_map]; [f_equal; lia|reflexivity].
    + destruct (nth_error sums k); cbn [option_map]; [f_equal; lra|reflexivity].
  - destruct (hist_index_R n (ox_angle cos sin acos PI prev p) Hn (ox_angle_range prev p)) as (k & Ek & Hk & Rk).
    rewrite Ek. cbn [bind].
    destruct (IH p (upd cols k Z.succ) (upd sums k (fun s => dadd s (ox_angle cos sin acos PI prev p)))) as (cols' & sums' & E & L1 & L2 & HC & HU);
      [now rewrite upd_length|now rewrite upd_length|].
    rewrite E. cbn [bind]. exists cols', sums'. split; [reflexivity|]. split; [exact L1|]. split; [exact L2|].
    assert (CS : forall j l, column n j (ox_angle cos sin acos PI prev p :: l) = if Nat.eqb j k then ox_angle cos sin acos PI prev p :: column n j l else column n j l).
    { intros j l. unfold column. cbn [filter]. rewrite (in_column n k j _ Hn Rk). reflexivity. }
    split; intros j; [rewrite HC, upd_nth by lia|rewrite HU, upd_nth by lia]; unfold edge_angle at 2; cbn [fst snd]; rewrite CS;
      destruct (Nat.eqb_spec j k) as [->|Hne]; try reflexivity.
    + destruct (nth_error cols k); cbn [option_map length]; [f_equal; lia|reflexivity].
    + destruct (nth_error sums k); cbn [option_map Rsum fold_right dadd ROps]; [unfold Rsum; cbn [fold_right]; f_equal; lra|reflexivity].
Qed.

Lemma max_from_spec (l : list Z) : forall best bi i, (bi < i)%nat ->
  let k := max_from best bi i l in
  (k = bi /\ forall j x, nth_error l j = Some x -> (x <= best)%Z) \/
  (exists m, k = (i + m)%nat /\ exists v, nth_error l m = Some v /\ (best < v)%Z /\ (forall j x, nth_error l j = Some x -> (x <= v)%Z) /\
     forall j x, (j < m)%nat -> nth_error l j = Some x -> (x < v)%Z).
Proof.
  induction l as [|x l IH]; intros best bi i Hi; cbn [max_from].
  - left. split; [reflexivity|]. intros [|j] y E; discriminate.
  - destruct (Z.ltb_spec best x) as [Hx|Hx].
    + destruct (IH x i (S i) ltac:(lia)) as [[-> H]|(m & -> & v & Ev & Hv & H1 & H2)].
      * right. exists 0%nat. split; [lia|]. exists x. split; [reflexivity|]. split; [exact Hx|]. split; [|intros; lia].
        intros [|j] y E; cbn in E; [injection E as <-; lia|now apply H in E].
      * right. exists (S m). split; [lia|]. exists v. split; [exact Ev|]. split; [lia|]. split.
        -- intros [|j] y E; cbn in E; [injection E as <-; lia|now apply H1 in E].
        -- intros [|j] y Hj E; cbn in E; [injection E as <-; lia|]. apply H2 in E; lia.
    + destruct (IH best bi (S i) ltac:(lia)) as [[-> H]|(m & -> & v & Ev & Hv & H1 & H2)].
      * left. split; [reflexivity|]. intros [|j] y E; cbn in E; [injection E as <-; lia|now apply H in E].
      * right. exists (S m). split; [lia|]. exists v. split; [exact Ev|]. split; [lia|]. split.
        -- intros [|j] y E; cbn in E; [injection E as <-; lia|now apply H1 in E].
        -- intros [|j] y Hj E; cbn in E; [injection E as <-; lia|]. apply H2 in E; lia.
Qed.

Lemma hist_max_i_spec (h : hist R) : h_cols h <> [] -> exists i v, hist_max_i h = Ok i /\ nth_error (h_cols h) i = Some v /\
  (forall j x, nth_error (h_cols h) j = Some x -> (x <= v)%Z) /\ (forall j x, (j < i)%nat -> nth_error (h_cols h) j = Some x -> (x < v)%Z).
Proof.
  intros H. unfold hist_max_i. destruct (h_cols h) as [|x l]; [contradiction|].
  destruct (max_from_spec l x 0 1 ltac:(lia)) as [[-> M]|(m & -> & v & Ev & Hv & H1 & H2)].
  - exists 0%nat, x. split; [reflexivity|]. split; [reflexivity|]. split; [|intros; lia].
    intros [|j] y E; cbn in E; [injection E as <-; lia|now apply M in E].
  - exists (1 + m)%nat, v. split; [reflexivity|]. split; [exact Ev|]. split.
    + intros [|j] y E; cbn in E; [injection E as <-; lia|now apply H1 in E].
    + intros [|j] y Hj E; cbn in E; [injection E as <-; lia|]. apply H2 in E; lia.
Qed.

Lemma major_direction_dominates (n : nat) (p q : scan_point R) (pts : list (scan_point R)) : (0 < n)%nat ->
  exists h phi, hist_reset cos sin acos PI n (p :: q :: pts) = Ok h /\ major_direction h = Ok phi /\
    dominating n (map edge_angle (edges p (q :: pts))) phi.
Proof.
  intros Hn. set (rest := q :: pts). set (angles := map edge_angle (edges p rest)).
  destruct (hist_loop_columns n rest Hn p (repeat 0%Z n) (repeat 0 n) (repeat_length _ _) (repeat_length _ _)) as (cols & sums & E & LC & LS & HC & HS).
  fold angles in E, HC, HS. unfold hist_reset. fold rest. change (repeat (dofZ 0) n) with (repeat 0 n). rewrite E. cbn [bind].
  set (h := mkHist n cols sums (dofZ 0 :: angles)). exists h.
  destruct (hist_max_i_spec h) as (i & v & Ei & Ev & M1 & M2).
  { cbn [h h_cols]. destruct cols; [cbn in LC; lia|discriminate]. }
  cbn [h h_cols] in Ev, M1, M2.
  assert (Hi : (i < n)%nat) by (rewrite <- LC; apply nth_error_Some; congruence).
  assert (CC : forall j, (j < n)%nat -> nth_error cols j = Some (Z.of_nat (length (column n j angles)))).
  { intros j Hj. rewrite HC, (nth_error_repeat _ Hj). reflexivity. }
  assert (Vi : v = Z.of_nat (length (column n i angles))) by (rewrite CC in Ev by exact Hi; congruence).
  exists (Rmean (column n i angles)). split; [reflexivity|]. unfold major_direction. rewrite Ei. cbn [bind]. unfold mean_bin_angle. cbn [h h_sums h_cols].
  rewrite Ev, HS, (nth_error_repeat _ Hi). cbn [option_map ddiv dofZ ROps]. split.
  { f_equal. unfold Rmean. rewrite Vi, <- INR_IZR_INZ, Rplus_0_l. reflexivity. }
  exists i. split; [exact Hi|].
  assert (LE : forall j, (j < n)%nat -> (length (column n j angles) <= length (column n i angles))%nat).
  { intros j Hj. specialize (M1 j _ (CC j Hj)). lia. }
  split; [|split; [exact LE|split; [|reflexivity]]].
  - intros N. cbn [angles rest edges map] in *.
    destruct (hist_index_R n (edge_angle (p, q)) Hn (ox_angle_range p q)) as (k & Ek & Hk & Rk).
    specialize (LE k Hk). rewrite N in LE. unfold column in LE. cbn [filter] in LE. rewrite (in_column n k k _ Hn Rk), Nat.eqb_refl in LE. cbn [length] in LE. lia.
  - intros j Hj. specialize (M2 j _ Hj (CC j ltac:(lia))). lia.
Qed.
