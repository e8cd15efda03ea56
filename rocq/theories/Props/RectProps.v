(** C45-C47: rectangles and approximate comparisons. *)
From Coq Require Import Reals ZArith List Lia Lra Bool.
From Flocq Require Import Core IEEE754.Binary IEEE754.Bits.
From Verif.Base Require Import Outcome Num F64Facts OrdLaws.
From Verif.Model Require Import MathUtils Geometry Grid Sensor Spe.
From Verif.Spec Require Import RectSpec.
From Verif.Proofs Require Import CompareProofs RectProofs.
Import ListNotations.
Local Open Scope R_scope.

(** C45.  Coordinates of the two rectangles are equal or differ by more than the comparison tolerance [tol] ([clear],
    Proofs/RectProofs.v).  If the rectangles meet and do not cross, [intersect] has exactly the common points. *)
Theorem C45_intersection_is_the_set_intersection_partial :
  forall a b : rect R, proper a -> proper b -> clear a b -> meet a b -> ~ crosses a b -> ~ crosses b a ->
  exists q, rect_intersect a b = Ok q /\ proper q /\ forall p, in_rect q p <-> in_rect a p /\ in_rect b p.
Proof.
  intros a b Pa Pb C M N1 N2. rewrite (rect_intersect_clear a b Pa Pb C).
  assert (M' := proj1 (meet_iff a b Pa Pb) M). destruct M' as (M1 & M2 & M3 & M4).
  assert (B : (R_le (left a) (right b) && R_le (left b) (right a) && R_le (bot a) (top b) && R_le (bot b) (top a))%bool = true)
    by (rewrite !andb_true_iff, !R_le_true; tauto).
  assert (X1 : (R_lt (left a) (left b) && R_lt (right b) (right a) && R_lt (bot b) (bot a) && R_lt (top a) (top b))%bool = false).
  { apply not_true_is_false. rewrite !andb_true_iff, !R_lt_true. unfold crosses in N1. tauto. }
  assert (X2 : (R_lt (left b) (left a) && R_lt (right a) (right b) && R_lt (bot a) (bot b) && R_lt (top b) (top a))%bool = false).
  { apply not_true_is_false. rewrite !andb_true_iff, !R_lt_true. unfold crosses in N2. tauto. }
  rewrite B, X1, X2. cbn [andb negb]. exists (clip a b). split; [reflexivity|]. split; [|apply in_clip].
  unfold proper, clip in *. cbn [left right bot top]. unfold Rmax, Rmin. repeat destruct (Rle_dec _ _); lra.
Qed.
Print Assumptions C45_intersection_is_the_set_intersection_partial.

(** every crossing pair (one sticks out on both sides horizontally, the other vertically) and every disjoint pair yields the
    default rectangle, the single point (0, 0) *)
Theorem C45_crossing_rectangles_lose_their_intersection_refuted :
  forall a b : rect R, proper a -> proper b -> clear a b -> crosses a b \/ crosses b a ->
  rect_intersect a b = Ok (mkRect 0 0 0 0) /\ meet a b.
Proof.
  intros a b Pa Pb C X. split.
  - rewrite (rect_intersect_clear a b Pa Pb C). unfold crosses in X.
    destruct X as [(X1 & X2 & X3 & X4)|(X1 & X2 & X3 & X4)]; apply R_lt_true in X1, X2, X3, X4; rewrite X1, X2, X3, X4;
      cbn [andb negb]; rewrite ?andb_false_r; reflexivity.
  - apply meet_iff; auto. unfold proper, crosses in *. lra.
Qed.
Print Assumptions C45_crossing_rectangles_lose_their_intersection_refuted.

Theorem C45_disjoint_rectangles_give_the_origin :
  forall a b : rect R, proper a -> proper b -> clear a b -> ~ meet a b -> rect_intersect a b = Ok (mkRect 0 0 0 0).
Proof.
  intros a b Pa Pb C N. rewrite (rect_intersect_clear a b Pa Pb C).
  match goal with |- context [if ?x then _ else _] => destruct x eqn:E end; [|reflexivity].
  exfalso. apply N. apply meet_iff; auto. rewrite !andb_true_iff, !R_le_true in E. tauto.
Qed.
Print Assumptions C45_disjoint_rectangles_give_the_origin.

(** [overlap] is the area of the common points over the own area; two rectangles that do not cross *)
Theorem C45_overlap_is_the_area_ratio_partial :
  forall a b : rect R, proper a -> proper b -> clear a b -> ~ crosses a b -> ~ crosses b a -> area_of a <> 0 ->
  exists v, rect_overlap a b = Ok v /\ 0 <= v <= 1 /\
    (~ meet a b -> v = 0) /\
    (meet a b -> exists q, (forall p, in_rect q p <-> in_rect a p /\ in_rect b p) /\ proper q /\ v = area_of q / area_of a).
Proof.
  intros a b Pa Pb C N1 N2 NA. unfold rect_overlap.
  assert (EA : rect_area a = area_of a) by reflexivity.
  assert (PA : 0 < area_of a).
  { assert (0 <= area_of a) by (unfold area_of, proper in *; apply Rmult_le_pos; lra). lra. }
  rewrite EA. cbn [deq dofZ ROps]. replace (R_eq (area_of a) 0) with false by (symmetry; now apply R_eq_false). cbn [negb].
  destruct (Rle_dec (left a) (right b)) as [M1|M1]; [destruct (Rle_dec (left b) (right a)) as [M2|M2];
    [destruct (Rle_dec (bot a) (top b)) as [M3|M3]; [destruct (Rle_dec (bot b) (top a)) as [M4|M4]|]|]|].
  1: assert (M : meet a b) by (apply meet_iff; auto).
  1: { destruct (C45_intersection_is_the_set_intersection_partial a b Pa Pb C M N1 N2) as (q & Eq & Pq & Hq).
       rewrite Eq. cbn [bind]. eexists. split; [reflexivity|]. change (rect_area q) with (area_of q). cbn [ddiv ROps].
       split; [|split; [contradiction|intros _; exists q; auto]].
       assert (B : 0 <= area_of q <= area_of a).
       { assert (I1 : in_rect a (left q, bot q)) by (apply Hq; unfold in_rect, proper in *; cbn; lra).
         assert (I2 : in_rect a (right q, top q)) by (apply Hq; unfold in_rect, proper in *; cbn; lra).
         unfold in_rect, proper, area_of in *. cbn [fst snd] in *.
         split; [apply Rmult_le_pos; lra|apply Rmult_le_compat; lra]. }
       split; [apply Rmult_le_pos; [lra|left; now apply Rinv_0_lt_compat]|].
       apply Rmult_le_reg_r with (area_of a); [lra|]. unfold Rdiv. rewrite Rmult_assoc, Rinv_l by lra. lra. }
  all: assert (M : ~ meet a b) by (intros M; apply (proj1 (meet_iff a b Pa Pb)) in M; tauto).
  all: rewrite (C45_disjoint_rectangles_give_the_origin a b Pa Pb C M); cbn [bind]; eexists; (split; [reflexivity|]);
       change (rect_area (mkRect 0 0 0 0)) with ((0 - 0) * (0 - 0)); cbn [ddiv ROps];
       assert (Z0 : (0 - 0) * (0 - 0) / area_of a = 0) by (unfold Rdiv; ring);
       rewrite Z0; split; [lra|]; split; [reflexivity|contradiction].
Qed.
Print Assumptions C45_overlap_is_the_area_ratio_partial.

(** whatever the arithmetic, the "three corners" assertion never fires *)
Theorem C45_three_corners_are_impossible :
  forall (D : Type) (ops : DOps D) (a t : rect D), fst (corner_analysis a t) <> 3%nat.
Proof. intros D ops a t E. assert (H := never_three_corners a t). rewrite E in H. cbn in H. intuition discriminate. Qed.
Print Assumptions C45_three_corners_are_impossible.

(** but rectangles that touch within the tolerance only make [intersect] build a rectangle with left > right, which asserts:
    every pair with disjoint x-ranges less than 1e-7 apart, that otherwise lies within the other's y-range *)
Theorem C45_almost_touching_rectangles_abort_refuted :
  forall a b : rect R, proper a -> proper b -> left a < right a -> right a < left b <= right a + 1 / 10000000 ->
  right a + 1 / 10000000 * Rmax 1 (Rmax (Rabs (right b)) (Rabs (right a))) < right b ->
  bot a <= bot b -> top b <= top a -> rect_intersect a b = Abort.
Proof.
  intros a b [Pa Qa] [Pb Qb] HL HR HF HB HT. unfold rect_intersect. rewrite corner_analysis_pure.
  assert (T : forall x y, x <= y -> less_or_equal x y = true).
  { intros x y H. apply R_less_or_equal. assert (Q := tol_pos x y). lra. }
  assert (X1 : are_ordered (left a) (left b) (right a) = true).
  { unfold are_ordered. rewrite T by lra. apply R_less_or_equal. assert (Q := tol_pos (left b) (right a)). lra. }
  assert (X2 : are_ordered (left a) (right b) (right a) = false).
  { unfold are_ordered. rewrite T by lra. cbn [andb]. apply not_true_is_false. rewrite R_less_or_equal. unfold tol. lra. }
  assert (Y1 : are_ordered (bot a) (bot b) (top a) = true) by (unfold are_ordered; rewrite !T by lra; reflexivity).
  assert (Y2 : are_ordered (bot a) (top b) (top a) = true) by (unfold are_ordered; rewrite !T by lra; reflexivity).
  rewrite X1, X2, Y1, Y2. cbn [corner_pure andb]. unfold mk_rect. cbn [dle ROps].
  replace (R_le (left b) (right a)) with false by (symmetry; apply R_le_false; lra). now rewrite andb_false_r.
Qed.
Print Assumptions C45_almost_touching_rectangles_abort_refuted.

(** and this stops the overlap-weighted estimator in binary64: scale 0.1, an area with right edge 1.7 (1.7/0.1 rounds to 17,
    17*0.1 rounds to more than 1.7) *)
Theorem C45_overlap_weighted_estimate_aborts_refuted :
  let m := mkOmap 100 100 (50, 50)%Z (dlit 1 10) (fun _ => true) (fun _ => Ok (dlit 1 2)) in
  let area := mkRect (dlit 1 100) (dlit 9 100) (dlit 152 100) (dlit 17 10) in
  overlap_pe (fun v : F64 => Ok v) m 1000 area = Abort.
Proof. vm_compute. reflexivity. Qed.
Print Assumptions C45_overlap_weighted_estimate_aborts_refuted.

Lemma separated_far a b : 1 / 10000000 * (1 + Rabs a + Rabs b) < Rabs (a - b) -> separated a b.
Proof.
  intros H. right. unfold tol. assert (Pa := Rabs_pos a). assert (Pb := Rabs_pos b).
  assert (Rmax 1 (Rmax (Rabs a) (Rabs b)) <= 1 + Rabs a + Rabs b) by (repeat apply Rmax_lub; lra). lra.
Qed.
Ltac sep := apply separated_far; unfold Rabs; repeat destruct (Rcase_abs _); lra.
Example C45_case : let a := mkRect 0 4 0 4 in let b := mkRect 1 6 2 6 in
  proper a /\ proper b /\ clear a b /\ meet a b /\ ~ crosses a b /\ ~ crosses b a /\ area_of a <> 0.
Proof.
  cbv zeta. unfold proper, crosses, area_of; cbn [left right bot top].
  split; [lra|]. split; [lra|]. split.
  - split; intros x y [->| ->] [->| ->]; cbn [left right bot top]; sep.
  - split; [apply meet_iff; unfold proper; cbn; lra|lra].
Qed.
Example C45_case_crossing : let a := mkRect 1 2 0 4 in let b := mkRect 0 4 1 2 in proper a /\ proper b /\ clear a b /\ crosses a b.
Proof.
  cbv zeta. unfold proper, crosses; cbn [left right bot top].
  split; [lra|]. split; [lra|]. split; [|lra]. split; intros x y [->| ->] [->| ->]; cbn [left right bot top]; sep.
Qed.
Example C45_case_touching : let a := mkRect 0 4 0 1 in let b := mkRect 1 2 (1 + 1 / 20000000) 2 in
  proper a /\ proper b /\ left a < right a /\ right a < left b <= right a + 1 / 10000000 /\
  right a + 1 / 10000000 * Rmax 1 (Rmax (Rabs (right b)) (Rabs (right a))) < right b /\ bot a <= bot b /\ top b <= top a.
Proof.
  cbv zeta. unfold proper; cbn [left right bot top]. rewrite !Rabs_pos_eq by lra. rewrite (Rmax_left 2 1), (Rmax_right 1 2) by lra. lra.
Qed.

(** C46: splitting, exact reals *)
Theorem C46_split_vert_partitions : forall r : rect R, proper r ->
  exists a b, split_vert r = Ok [a; b] /\ proper a /\ proper b /\
    (forall p, in_rect r p <-> in_rect a p \/ in_rect b p) /\ (forall p, inside a p -> ~ in_rect b p) /\
    area_of a = area_of r / 2 /\ area_of b = area_of r / 2.
Proof.
  intros r [Pv Ph]. unfold split_vert, rect_center, pty, vside_len. cbn [snd dadd dsub ddiv dofZ ROps].
  set (c := bot r + (top r - bot r) / 2). assert (Ec : c = (bot r + top r) / 2) by (unfold c; field). clearbody c.
  rewrite !mk_rect_R by (rewrite ?Ec; lra). cbn [bind]. eexists _, _. split; [reflexivity|].
  unfold proper, in_rect, inside, area_of; cbn [left right bot top]. rewrite Ec.
  split; [lra|]. split; [lra|]. split; [intros [x y]; cbn [fst snd]; split; intros; [destruct (Rle_or_lt y c); lra|lra]|].
  split; [intros [x y]; cbn [fst snd]; lra|]. split; field.
Qed.
Print Assumptions C46_split_vert_partitions.

Theorem C46_split_horz_partitions : forall r : rect R, proper r ->
  exists a b, split_horz r = Ok [a; b] /\ proper a /\ proper b /\
    (forall p, in_rect r p <-> in_rect a p \/ in_rect b p) /\ (forall p, inside a p -> ~ in_rect b p) /\
    area_of a = area_of r / 2 /\ area_of b = area_of r / 2.
Proof.
  intros r [Pv Ph]. unfold split_horz, rect_center, ptx, hside_len. cbn [fst dadd dsub ddiv dofZ ROps].
  set (c := left r + (right r - left r) / 2). assert (Ec : c = (left r + right r) / 2) by (unfold c; field). clearbody c.
  rewrite !mk_rect_R by (rewrite ?Ec; lra). cbn [bind]. eexists _, _. split; [reflexivity|].
  unfold proper, in_rect, inside, area_of; cbn [left right bot top]. rewrite Ec.
  split; [lra|]. split; [lra|]. split; [intros [x y]; cbn [fst snd]; split; intros; [destruct (Rle_or_lt x c); lra|lra]|].
  split; [intros [x y]; cbn [fst snd]; lra|]. split; field.
Qed.
Print Assumptions C46_split_horz_partitions.

Theorem C46_split4_partitions : forall r : rect R, proper r ->
  exists l, split4_evenly r = Ok l /\ length l = 4%nat /\
    (forall p, in_rect r p <-> exists q, In q l /\ in_rect q p) /\
    (forall i j a b p, nth_error l i = Some a -> nth_error l j = Some b -> inside a p -> in_rect b p -> i = j) /\
    (forall a, In a l -> proper a /\ area_of a = area_of r / 4) /\ fold_right (fun q s => area_of q + s) 0 l = area_of r.
Proof.
  intros r [Pv Ph]. unfold split4_evenly, rect_center, ptx, pty, hside_len, vside_len. cbn [fst snd dadd dsub ddiv dofZ ROps].
  set (c := left r + (right r - left r) / 2). assert (Ec : c = (left r + right r) / 2) by (unfold c; field). clearbody c.
  set (d := bot r + (top r - bot r) / 2). assert (Ed : d = (bot r + top r) / 2) by (unfold d; field). clearbody d.
  rewrite !mk_rect_R by (rewrite ?Ec, ?Ed; lra). cbn [bind]. eexists. split; [reflexivity|]. split; [reflexivity|].
  split.
  - intros [x y]. split.
    + intros [H1 H2]. cbn [fst snd] in *.
      destruct (Rle_or_lt x c), (Rle_or_lt y d);
        [eexists; split; [left; reflexivity|] | eexists; split; [right; left; reflexivity|]
        |eexists; split; [right; right; left; reflexivity|] | eexists; split; [right; right; right; left; reflexivity|]];
        unfold in_rect; cbn; lra.
    + intros (q & [<-|[<-|[<-|[<-|[]]]]] & H); unfold in_rect in *; cbn [fst snd left right bot top] in *; lra.
  - split; [|split].
    + intros i j a b [x y] Ha Hb Ia Ib.
      destruct i as [|[|[|[|i]]]]; cbn in Ha; try (destruct i; discriminate); injection Ha as <-;
      (destruct j as [|[|[|[|j]]]]; cbn in Hb; try (destruct j; discriminate); injection Hb as <-);
      unfold inside, in_rect in *; cbn [fst snd left right bot top] in *; try reflexivity; exfalso; lra.
    + intros a [<-|[<-|[<-|[<-|[]]]]]; unfold proper, area_of; cbn [left right bot top]; rewrite ?Ec, ?Ed; (split; [lra|field]).
    + cbn. unfold area_of; cbn [left right bot top]. rewrite Ec, Ed. field.
Qed.
Print Assumptions C46_split4_partitions.

(** the same with binary64 rounding: no assertion fires, the parts cover the rectangle exactly and share borders only *)
Theorem C46_split4_covers_binary64 : forall r : rect F64,
  F_fin (bot r) = true -> F_fin (top r) = true -> F_fin (left r) = true -> F_fin (right r) = true ->
  Rabs (F2R64 (bot r)) <= bpow radix2 1022 -> Rabs (F2R64 (top r)) <= bpow radix2 1022 ->
  Rabs (F2R64 (left r)) <= bpow radix2 1022 -> Rabs (F2R64 (right r)) <= bpow radix2 1022 ->
  proper (rect_R r) ->
  exists l, split4_evenly r = Ok l /\ length l = 4%nat /\
    (forall p, in_rect (rect_R r) p <-> exists q, In q l /\ in_rect (rect_R q) p) /\
    (forall i j a b p, nth_error l i = Some a -> nth_error l j = Some b -> inside (rect_R a) p -> in_rect (rect_R b) p -> i = j).
Proof.
  intros r F1 F2 F3 F4 B1 B2 B3 B4 [Pv Ph]. cbn in Pv, Ph.
  destruct (mid_between (bot r) (top r) F1 F2 B1 B2 Pv) as [Fd Hd].
  destruct (mid_between (left r) (right r) F3 F4 B3 B4 Ph) as [Fc Hc].
  unfold split4_evenly, rect_center, ptx, pty, hside_len, vside_len. cbn [fst snd].
  fold (mid (bot r) (top r)) (mid (left r) (right r)).
  set (d := mid (bot r) (top r)) in *. set (c := mid (left r) (right r)) in *.
  rewrite !mk_rect_F by (auto; lra). cbn [bind]. eexists. split; [reflexivity|]. split; [reflexivity|]. split.
  - intros [x y]. split.
    + intros [H1 H2]. cbn [fst snd rect_R left right bot top] in *.
      destruct (Rle_or_lt x (F2R64 c)), (Rle_or_lt y (F2R64 d));
        [eexists; split; [left; reflexivity|] | eexists; split; [right; left; reflexivity|]
        |eexists; split; [right; right; left; reflexivity|] | eexists; split; [right; right; right; left; reflexivity|]];
        unfold in_rect; cbn [fst snd rect_R left right bot top]; lra.
    + intros (q & [<-|[<-|[<-|[<-|[]]]]] & H); unfold in_rect in *; cbn [fst snd rect_R left right bot top] in *; lra.
  - intros i j a b [x y] Ha Hb Ia Ib.
    destruct i as [|[|[|[|i]]]]; cbn [nth_error] in Ha; try (destruct i; discriminate); injection Ha as <-;
    (destruct j as [|[|[|[|j]]]]; cbn [nth_error] in Hb; try (destruct j; discriminate); injection Hb as <-);
    unfold inside, in_rect in *; cbn [fst snd rect_R left right bot top] in *; try reflexivity; exfalso; lra.
Qed.
Print Assumptions C46_split4_covers_binary64.

Example C46_case : let r := mkRect (dofZ (-1)) (dofZ 2) (dofZ 0) (dlit 1 10) : rect F64 in
  match split4_evenly r with Ok [a; b; c; d] => deq (top a) (dlit 1 2) && deq (bot b) (dlit 1 2) && deq (right a) (left c) | _ => false end = true.
Proof. vm_compute. reflexivity. Qed.

(** C47 *)
Theorem C47_are_equal_is_reflexive_and_symmetric :
  (forall a : F64, F_fin a = true -> are_equal a a = true) /\ (forall a b : F64, are_equal a b = are_equal b a).
Proof. split; [exact F_are_equal_refl|exact F_are_equal_sym]. Qed.
Print Assumptions C47_are_equal_is_reflexive_and_symmetric.

Theorem C47_equality_implies_order_both_ways :
  forall a b : F64, are_equal a b = true -> less_or_equal a b = true /\ less_or_equal b a = true.
Proof. intros a b H. unfold less_or_equal. rewrite (F_are_equal_sym b a), H. auto. Qed.
Print Assumptions C47_equality_implies_order_both_ways.

Theorem C47_exact_order_is_reported :
  forall a b : F64, dle a b = true -> (F_fin a = true \/ F_fin b = true) -> less_or_equal a b = true.
Proof. exact F_less_or_equal_of_le. Qed.
Print Assumptions C47_exact_order_is_reported.

(** and a reported order is never off by more than 2^-22 of the magnitude *)
Theorem C47_reported_order_is_exact_up_to_tolerance :
  forall a b : F64, F_fin a = true -> F_fin b = true -> less_or_equal a b = true ->
  F2R64 a <= F2R64 b + bpow radix2 (-22) * Rmax 1 (Rmax (Rabs (F2R64 a)) (Rabs (F2R64 b))).
Proof. exact F_less_or_equal_tol. Qed.
Print Assumptions C47_reported_order_is_exact_up_to_tolerance.

Theorem C47_exact_reals_comparison :
  forall a b : R,
  (are_equal a b = true <-> Rabs (a - b) <= 1 / 10000000 * Rmax 1 (Rmax (Rabs a) (Rabs b))) /\
  (less_or_equal a b = true <-> a <= b + 1 / 10000000 * Rmax 1 (Rmax (Rabs a) (Rabs b))).
Proof. intros a b. split; [apply R_are_equal|apply R_less_or_equal]. Qed.
Print Assumptions C47_exact_reals_comparison.

(** what does not hold: [less] is not strict, an infinity is equal to 0 but not to itself, equality is not transitive *)
Theorem C47_surprises :
  (exists a : F64, F_fin a = true /\ less a a = true) /\
  (let inf := ddiv (dofZ 1) (dofZ 0) : F64 in are_equal inf (dofZ 0) = true /\ are_equal inf inf = false /\ less_or_equal inf inf = false) /\
  (exists a b c : F64, are_equal a b = true /\ are_equal b c = true /\ are_equal a c = false).
Proof.
  split; [exists (dofZ 1); vm_compute; auto|]. split; [vm_compute; auto|].
  exists (dofZ 0), (dlit 8 100000000), (dlit 16 100000000). vm_compute. auto.
Qed.
Print Assumptions C47_surprises.

(** [bound_value] clamps *)
Theorem C47_bound_value_clamps :
  forall l v r : R, l <= r ->
  l <= bound_value l v r <= r /\ (l <= v <= r -> bound_value l v r = v) /\ (v <= l -> bound_value l v r = l) /\ (r <= v -> bound_value l v r = r).
Proof.
  intros l v r H. unfold bound_value. rewrite R_dmax, R_dmin. unfold Rmax, Rmin. repeat destruct (Rle_dec _ _); repeat split; intros; lra.
Qed.
Print Assumptions C47_bound_value_clamps.
