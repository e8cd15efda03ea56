(** C105: helpers offered by the headers that the program itself never calls. *)
From Coq Require Import Reals ZArith List Bool Lia Lra.
From Flocq Require Import Core IEEE754.BinarySingleNaN IEEE754.Binary IEEE754.Bits.
From Verif.Base Require Import Outcome Num F64Facts.
From Verif.Model Require Import MathUtils Geometry Sensor Histogram HcAlign Helpers.
From Verif.Spec Require Import CellSpec DirectionSpec HelperSpec.
From Verif.Proofs Require Import CompareProofs HistProofs AlignProofs.
Import ListNotations.
Local Open Scope R_scope.
Local Open Scope outcome_scope.

(** is_prob_unknown compares with a NaN: it answers "known" for every double, the unknown probability included *)
Theorem C105_unknown_probability_is_never_recognised_refuted :
  forall nan v : F64, disnan nan = true -> is_prob_unknown nan v = false /\ is_prob_unknown nan nan = false.
Proof.
  intros nan v. destruct nan as [s|s|s pl H|s m e H]; try discriminate. intros _. unfold is_prob_unknown.
  split; [destruct v as [s'|s'|s' pl' H'|s' m' e' H']; reflexivity|reflexivity].
Qed.
Print Assumptions C105_unknown_probability_is_never_recognised_refuted.

(** it never calls a known probability unknown *)
Theorem C105_known_probabilities_partial :
  forall (nan v : F64), disnan nan = true -> disnan v = false -> is_prob_unknown nan v = false.
Proof. intros nan v N _. now apply C105_unknown_probability_is_never_recognised_refuted. Qed.
Print Assumptions C105_known_probabilities_partial.

Lemma trunc_abs (q : R) : Rabs (IZR (Ztrunc q)) <= Rabs q.
Proof.
  destruct (Rle_or_lt 0 q) as [H|H].
  - rewrite Ztrunc_floor by exact H. assert (F := Zfloor_lb q). assert (P : (0 <= Zfloor q)%Z) by (apply Zfloor_lub; exact H). apply IZR_le in P.
    rewrite !Rabs_pos_eq by lra. exact F.
  - rewrite Ztrunc_ceil by lra. assert (F := Zceil_ub q). assert (P : (Zceil q <= 0)%Z) by (apply Zceil_glb; lra). apply IZR_le in P.
    rewrite !Rabs_left1 by lra. lra.
Qed.
Lemma trunc_nearest (q : R) (k : Z) : Rabs (IZR k) <= Rabs q -> Rabs (q - IZR (Ztrunc q)) <= Rabs (q - IZR k).
Proof.
  intros Hk. destruct (Rle_or_lt 0 q) as [H|H].
  - rewrite Ztrunc_floor by exact H. rewrite (Rabs_pos_eq q) in Hk by exact H. assert (K := Rle_abs (IZR k)).
    assert (L : (k <= Zfloor q)%Z) by (apply Zfloor_lub; lra). apply IZR_le in L. assert (F := Zfloor_lb q). rewrite !Rabs_pos_eq by lra. lra.
  - rewrite Ztrunc_ceil by lra. rewrite (Rabs_left q) in Hk by exact H. assert (K := Rabs_le_inv _ _ Hk).
    assert (L : (Zceil q <= k)%Z) by (apply Zceil_glb; lra). apply IZR_le in L. assert (F := Zceil_ub q). rewrite !Rabs_left1 by lra. lra.
Qed.
Lemma multiple_R (v f : R) : is_multiple_of v f = true <-> Rabs (v / f - IZR (Ztrunc (v / f))) <= 1 / 10000000 * Rmax 1 (Rabs (v / f)).
Proof.
  unfold is_multiple_of, trunc_double. cbn [dtrunc ddiv dofZ ROps]. rewrite R_are_equal. unfold tol.
  rewrite (Rmax_left (Rabs (v / f))) by apply trunc_abs. reflexivity.
Qed.

(** is_multiple_of, exact reals: a value is accepted iff its quotient by the factor is beyond an integer (away from zero) by no
    more than the comparison tolerance; so every multiple is, and nothing farther from all multiples than the tolerance *)
Theorem C105_multiples_partial :
  forall v f : R,
  (is_multiple_of v f = true <->
   exists k : Z, Rabs (IZR k) <= Rabs (v / f) /\ Rabs (v / f - IZR k) <= 1 / 10000000 * Rmax 1 (Rabs (v / f))) /\
  (forall k : Z, f <> 0 -> is_multiple_of (IZR k * f) f = true).
Proof.
  intros v f. split.
  - rewrite multiple_R. split.
    + intros H. exists (Ztrunc (v / f)). split; [apply trunc_abs|exact H].
    + intros (k & Hk & H). eapply Rle_trans; [apply trunc_nearest; exact Hk|exact H].
  - intros k Hf. apply multiple_R. replace (IZR k * f / f) with (IZR k) by (field; exact Hf). rewrite Ztrunc_IZR, Rminus_diag_eq, Rabs_R0 by reflexivity.
    assert (M := Rmax_l 1 (Rabs (IZR k))). lra.
Qed.
Print Assumptions C105_multiples_partial.

(** a value as little below a multiple as one likes is rejected (exact reals), and in binary64 0.3 is not a multiple of 0.1 *)
Theorem C105_value_below_a_multiple_is_rejected_refuted :
  (forall (k : Z) (d f : R), (1 <= k <= 1000000)%Z -> f <> 0 -> 0 < d <= 1 / 2 -> is_multiple_of ((IZR k - d) * f) f = false) /\
  is_multiple_of (dlit 3 10 : F64) (dlit 1 10) = false.
Proof.
  split; [|vm_compute; reflexivity]. intros k d f Hk Hf Hd. apply not_true_is_false. rewrite multiple_R.
  replace ((IZR k - d) * f / f) with (IZR k - d) by (field; exact Hf).
  destruct Hk as [K1 K2]. apply IZR_le in K1, K2.
  assert (T : Ztrunc (IZR k - d) = (k - 1)%Z).
  { rewrite Ztrunc_floor by lra. apply Zfloor_imp. rewrite plus_IZR, minus_IZR. lra. }
  rewrite T, minus_IZR. rewrite !Rabs_pos_eq by lra. intros C.
  assert (M : Rmax 1 (IZR k - d) <= 1000000) by (apply Rmax_lub; lra). lra.
Qed.
Print Assumptions C105_value_below_a_multiple_is_rejected_refuted.

(** the first least element *)
Lemma min_from_max (l : list Z) : forall best bi i, min_from best bi i l = max_from (- best) bi i (map Z.opp l).
Proof.
  induction l as [|x l IH]; intros best bi i; cbn [min_from max_from map]; [reflexivity|].
  destruct (Z.ltb_spec x best), (Z.ltb_spec (- best) (- x)); try lia; apply IH.
Qed.
Lemma hist_min_i_spec {D} (h : hist D) : h_cols h <> [] -> exists i v, hist_min_i h = Ok i /\ nth_error (h_cols h) i = Some v /\
  (forall j x, nth_error (h_cols h) j = Some x -> (v <= x)%Z) /\ (forall j x, (j < i)%nat -> nth_error (h_cols h) j = Some x -> (v < x)%Z).
Proof.
  intros H. unfold hist_min_i. destruct (h_cols h) as [|x l]; [contradiction|]. rewrite min_from_max.
  assert (N : forall j y, nth_error l j = Some y -> nth_error (map Z.opp l) j = Some (- y)%Z).
  { intros j y E. rewrite nth_error_map, E. reflexivity. }
  destruct (max_from_spec (map Z.opp l) (- x) 0 1 ltac:(lia)) as [[-> M]|(m & -> & v & Ev & Hv & H1 & H2)].
  - exists 0%nat, x. split; [reflexivity|]. split; [reflexivity|]. split; [|intros; lia].
    intros [|j] y E; cbn in E; [injection E as <-; lia|]. apply N, M in E. lia.
  - rewrite nth_error_map in Ev. destruct (nth_error l m) as [w|] eqn:Ew; [|discriminate]. cbn in Ev. injection Ev as <-.
    exists (1 + m)%nat, w. split; [reflexivity|]. split; [exact Ew|]. split.
    + intros [|j] y E; cbn in E; [injection E as <-; lia|]. apply N, H1 in E. lia.
    + intros [|j] y Hj E; cbn in E; [injection E as <-; lia|]. apply N, H2 in E; lia.
Qed.

(** exact reals, every scan and number of columns: when every column holds an edge the minor direction is the mean direction of
    the least populated one *)
Theorem C105_minor_direction_partial :
  forall (n : nat) (p : scan_point R) (pts : list (scan_point R)), (0 < n)%nat ->
  exists h angles, hist_reset cos sin acos PI n (p :: pts) = Ok h /\ Forall2 heads (edges p pts) angles /\
    ((forall j, (j < n)%nat -> column n j angles <> []) ->
     exists phi, minor_direction h = Ok phi /\ least_populated n angles phi).
Proof.
  intros n p pts Hn. set (angles := map edge_angle (edges p pts)).
  destruct (hist_loop_columns n pts Hn p (repeat 0%Z n) (repeat 0 n) (repeat_length _ _) (repeat_length _ _)) as (cols & sums & E & LC & LS & HC & HS).
  fold angles in E, HC, HS. unfold hist_reset. change (repeat (dofZ 0) n) with (repeat 0 n). rewrite E. cbn [bind].
  set (h := mkHist n cols sums (dofZ 0 :: angles)). exists h, angles. split; [reflexivity|]. split.
  { unfold angles. clear. generalize (edges p pts). intros l. induction l as [|[a b] l IH]; cbn [map]; constructor; [apply ox_angle_heads|exact IH]. }
  intros _. destruct (hist_min_i_spec h) as (i & v & Ei & Ev & M1 & M2).
  { cbn [h h_cols]. destruct cols; [cbn in LC; lia|discriminate]. }
  cbn [h h_cols] in Ev, M1, M2.
  assert (Hi : (i < n)%nat) by (rewrite <- LC; apply nth_error_Some; congruence).
  assert (CC : forall j, (j < n)%nat -> nth_error cols j = Some (Z.of_nat (length (column n j angles)))).
  { intros j Hj. rewrite HC, (nth_error_repeat _ Hj). reflexivity. }
  assert (Vi : v = Z.of_nat (length (column n i angles))) by (rewrite CC in Ev by exact Hi; congruence).
  exists (Rmean (column n i angles)). unfold minor_direction. rewrite Ei. cbn [bind]. unfold mean_bin_angle. cbn [h h_sums h_cols].
  rewrite Ev, HS, (nth_error_repeat _ Hi). cbn [option_map ddiv dofZ ROps]. split.
  { f_equal. unfold Rmean. rewrite Vi, <- INR_IZR_INZ, Rplus_0_l. reflexivity. }
  exists i. split; [exact Hi|]. split; [|split; [|reflexivity]].
  - intros j Hj. specialize (M1 j _ (CC j Hj)). lia.
  - intros j Hj. specialize (M2 j _ Hj (CC j ltac:(lia))). lia.
Qed.
Print Assumptions C105_minor_direction_partial.

(** ... but an empty column is the least populated one, and its mean is 0/0: in binary64, with any libm, the minor direction of
    every histogram with an empty column is NaN, in particular of every scan with fewer edges than columns *)
Local Open Scope Z_scope.
Definition total (l : list Z) : Z := fold_right Z.add 0 l.
Lemma upd_total (l : list Z) i : total (upd l i Z.succ) <= total l + 1.
Proof.
  unfold upd. destruct (nth_error l i) as [x|] eqn:E; [|lia]. apply nth_error_split in E as (l1 & l2 & -> & <-).
  rewrite firstn_app, Nat.sub_diag, firstn_all, firstn_O, app_nil_r.
  replace (skipn (S (length l1)) (l1 ++ x :: l2)) with l2.
  - unfold total. rewrite !fold_right_app. cbn [fold_right].
    assert (A : forall l a b, fold_right Z.add (a + b) l = a + fold_right Z.add b l) by (clear; induction l as [|y l IH]; intros; cbn; [reflexivity|rewrite IH; lia]).
    replace (Z.succ x + fold_right Z.add 0 l2) with (1 + (x + fold_right Z.add 0 l2)) by lia. rewrite A. lia.
  - clear. induction l1 as [|y l1 IH]; [reflexivity|exact IH].
Qed.
Lemma upd_at {A} (l : list A) i f j : nth_error (upd l i f) j = if Nat.eqb j i then option_map f (nth_error l j) else nth_error l j.
Proof.
  destruct (lt_dec i (length l)) as [H|H].
  - rewrite upd_nth by exact H. destruct (Nat.eqb_spec j i); [subst j|]; reflexivity.
  - unfold upd. replace (nth_error l i) with (@None A) by (symmetry; apply nth_error_None; lia).
    destruct (Nat.eqb_spec j i) as [->|]; [|reflexivity]. replace (nth_error l i) with (@None A) by (symmetry; apply nth_error_None; lia). reflexivity.
Qed.
Definition fresh (cols : list Z) (sums : list F64) : Prop :=
  length cols = length sums /\ (forall j c, nth_error cols j = Some c -> 0 <= c) /\
  (forall j, nth_error cols j = Some 0 -> nth_error sums j = Some (dofZ 0)).
Lemma loop_fresh (dcos dsin dacos : F64 -> F64) (mpi : F64) (n : nat) pts : forall prev cols (sums : list F64) cols' sums' dirs,
  fresh cols sums -> hist_loop dcos dsin dacos mpi n prev pts cols sums = Ok (cols', sums', dirs) ->
  fresh cols' sums' /\ length cols' = length cols /\ total cols' <= total cols + Z.of_nat (length pts).
Proof.
  induction pts as [|p pts IH]; intros prev cols sums cols' sums' dirs F E; cbn [hist_loop] in E.
  - injection E as <- <- _. cbn [length]. split; [exact F|]. split; [reflexivity|lia].
  - apply bind_Ok_inv in E as (i & _ & E). apply bind_Ok_inv in E as ([[c2 s2] d2] & EL & E). injection E as <- <- _.
    apply IH in EL as (F2 & L2 & T2).
    + split; [exact F2|]. rewrite L2, upd_length. split; [reflexivity|]. assert (T := upd_total cols i). cbn [length]. lia.
    + destruct F as (L & P & Z0). split; [rewrite !upd_length; exact L|]. split.
      * intros j c. rewrite upd_at. destruct (Nat.eqb j i); [|apply P]. destruct (nth_error cols j) as [x|] eqn:Ex; [|discriminate].
        cbn. intros E'. injection E' as <-. apply P in Ex. lia.
      * intros j. rewrite !upd_at. destruct (Nat.eqb j i); [|apply Z0]. destruct (nth_error cols j) as [x|] eqn:Ex; [|discriminate].
        cbn. intros E'. injection E' as E'. apply P in Ex. lia.
Qed.
Lemma reset_fresh (dcos dsin dacos : F64 -> F64) (mpi : F64) (n : nat) pts (h : hist F64) :
  hist_reset dcos dsin dacos mpi n pts = Ok h ->
  fresh (h_cols h) (h_sums h) /\ length (h_cols h) = n /\ total (h_cols h) <= Z.of_nat (length pts - 1).
Proof.
  assert (F0 : fresh (repeat 0 n) (repeat (dofZ 0 : F64) n)).
  { split; [now rewrite !repeat_length|]. split; intros j.
    - intros c E. apply nth_error_In, repeat_spec in E. lia.
    - intros E. assert (H : (j < n)%nat) by (rewrite <- (repeat_length 0 n); apply nth_error_Some; congruence). apply nth_error_repeat. exact H. }
  assert (T0 : total (repeat 0 n) = 0) by (unfold total; clear; induction n; cbn; auto).
  unfold hist_reset. destruct pts as [|p pts].
  - intros E. injection E as <-. cbn [h_cols h_sums length]. rewrite repeat_length, T0. auto with zarith.
  - intros E. apply bind_Ok_inv in E as ([[c s] d] & EL & E). injection E as <-. cbn [h_cols h_sums].
    apply loop_fresh in EL as (F & L & T); [|exact F0]. rewrite repeat_length in L. rewrite T0 in T. cbn [length]. split; [exact F|]. split; [exact L|]. lia.
Qed.
Lemma total_ge (l : list Z) : (forall j c, nth_error l j = Some c -> 1 <= c) -> Z.of_nat (length l) <= total l.
Proof.
  induction l as [|x l IH]; intros H; cbn [length]; [unfold total; cbn; lia|]. unfold total in *. cbn [fold_right].
  assert (A := H 0%nat x eq_refl). assert (B := IH (fun j c => H (S j) c)). lia.
Qed.
Theorem C105_minor_direction_of_a_histogram_with_an_empty_column_refuted :
  forall (dcos dsin dacos : F64 -> F64) (mpi : F64) (n : nat) (pts : list (scan_point F64)) (h : hist F64),
  (0 < n)%nat -> hist_reset dcos dsin dacos mpi n pts = Ok h ->
  (exists j, nth_error (h_cols h) j = Some 0) \/ (length pts <= n)%nat ->
  exists phi, minor_direction h = Ok phi /\ disnan phi = true.
Proof.
  intros dcos dsin dacos mpi n pts h Hn E HE. apply reset_fresh in E as ((L & P & Z0) & LC & T).
  assert (EX : exists j, nth_error (h_cols h) j = Some 0).
  { destruct HE as [HE|HL]; [exact HE|]. destruct (in_dec Z.eq_dec 0 (h_cols h)) as [I|I]; [now apply In_nth_error|exfalso].
    assert (G : Z.of_nat (length (h_cols h)) <= total (h_cols h)).
    { apply total_ge. intros j c Ej. assert (Q := P j c Ej). destruct (Z.eq_dec c 0) as [->|]; [exfalso; apply I; eapply nth_error_In; exact Ej|lia]. }
    rewrite LC in G. lia. }
  destruct EX as (j & Ej).
  destruct (hist_min_i_spec h) as (i & v & Ei & Ev & M1 & _). { intros N. rewrite N in Ej. destruct j; discriminate. }
  assert (V0 : v = 0) by (assert (A := M1 j 0 Ej); assert (B := P i v Ev); lia). subst v.
  unfold minor_direction. rewrite Ei. cbn [bind]. unfold mean_bin_angle. rewrite (Z0 i Ev), Ev. eexists. split; [reflexivity|]. vm_compute. reflexivity.
Qed.
Print Assumptions C105_minor_direction_of_a_histogram_with_an_empty_column_refuted.
Close Scope Z_scope.

(** cases meeting the hypotheses *)
Example multiples_example : is_multiple_of (dlit 7 2 : F64) (dlit 1 2) = true /\ is_multiple_of (dlit 7 2 : F64) (dofZ 2) = false /\
  is_multiple_of (dlit 35000001 10000000 : F64) (dlit 1 2) = true.
Proof. vm_compute. auto. Qed.
(** two columns, an edge in each: horizontal and vertical *)
Example minor_example :
  exists h phi, hist_reset cos sin acos PI 1 [mkSP false 0 0 1 true; mkSP false 1 0 1 true] = Ok h /\ minor_direction h = Ok phi.
Proof.
  destruct (C105_minor_direction_partial 1 (mkSP false 0 0 1 true) [mkSP false 1 0 1 true] ltac:(lia)) as (h & angles & E & H2 & H).
  exists h. destruct H as (phi & Ep & _); [|exists phi; auto]. intros j Hj. assert (j = 0)%nat by lia. subst j.
  inversion H2 as [|e a l l' Ha HN]; subst. inversion HN; subst. destruct Ha as [[A1 A2] _].
  unfold column. cbn [filter]. replace (INR 0 * (PI / INR 1)) with 0 by (cbn [INR]; lra). replace ((INR 0 + 1) * (PI / INR 1)) with PI by (cbn [INR]; field).
  replace (R_le 0 a) with true by (symmetry; apply R_le_true; exact A1). replace (R_lt a PI) with true by (symmetry; apply R_lt_true; exact A2). discriminate.
Qed.
(** a scan of two points, and its histogram of twenty columns: nineteen are empty *)
Example empty_column_example : match hist_reset (fun x => x) (fun x => x) (fun x => x) (dlit 314159 100000 : F64) 20
    [mkSP false (dofZ 0) (dofZ 0) (dofZ 1) true; mkSP false (dofZ 1) (dofZ 0) (dofZ 1) true] with
  | Ok h => match minor_direction h, major_direction h with Ok a, Ok b => disnan a && negb (disnan b) | _, _ => false end | _ => false end = true.
Proof. vm_compute. reflexivity. Qed.
