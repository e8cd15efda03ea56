(** Area occupancy estimator over the exact reals: the answers. *)
From Coq Require Import Reals ZArith List Bool Lra Lia.
From Coquelicot Require Import Coquelicot.
From Verif.Base Require Import Outcome Num.
From Verif.Model Require Import MathUtils Geometry Cells AreaEstimator.
From Verif.Spec Require Import AreaSpec.
From Verif.Proofs Require Import CompareProofs AreaProofs.
Import ListNotations.
Local Open Scope R_scope.

Lemma seg_filter (c : rect R) beam l : ray_intersections c (ray_of beam) = Ok l ->
  segment_intersections c beam = Ok (filter (fun i => seg_contains_intersection beam (i_pt i)) l).
Proof. unfold segment_intersections. intros ->. reflexivity. Qed.
Lemma find_empty (c : rect R) beam : find_intersections beam c false = segment_intersections c beam.
Proof. reflexivity. Qed.

Lemma filter_short {X} (f : X -> bool) l : (length (filter f l) <= length l)%nat.
Proof. induction l as [|x l IH]; cbn; [lia|]. destruct (f x); cbn; lia. Qed.
Lemma in_raw_edge c r z : In z (raw c r) -> on_edge c z /\ on_ray r (i_pt z).
Proof.
  unfold raw. rewrite !in_app_iff. intros [H|[H|[H|H]]].
  - eapply horiz_spec in H; [|left; auto]. tauto.
  - eapply vert_spec in H; [|left; auto]. tauto.
  - eapply horiz_spec in H; [|right; auto]. tauto.
  - eapply vert_spec in H; [|right; auto]. tauto.
Qed.

(** the classification of a beam both of whose ends are outside *)
Lemma classify_outside c beam : resolved c -> 0 < width c -> 0 < height c ->
  rect_contains c (ptx (sbeg beam)) (pty (sbeg beam)) = false -> rect_contains c (ptx (send beam)) (pty (send beam)) = false ->
  classify_segment beam c =
  (l <- segment_intersections c beam ;; match l with [] => Ok Unrelated | [_] => Ok Touches | [_; _] => Ok Pierces | _ => Abort end)%out.
Proof.
  intros RS W H B E. unfold classify_segment, modified_is_inside.
  rewrite (not_contained_no_edge c (sbeg beam)), (not_contained_no_edge c (send beam)) by assumption. cbn [bind negb andb]. rewrite B, E. reflexivity.
Qed.

Definition empty_answer (e : aoe R) (f : R) : occup R :=
  mkOcc (prob_occ (ae_empty e)) (est_quality (ae_empty e) * Rmin f (1 - f)).

Lemma estimate_chunk_empty (e : aoe R) a T : 0 < T ->
  estimate_chunk e a T false = empty_answer e (a / T).
Proof.
  intros HT. unfold estimate_chunk, empty_answer, dhalf, dlit. cbn [dlt ddiv dsub dmul dofZ ROps].
  destruct (R_lt (1 / 2) (a / T)) eqn:L.
  - apply R_lt_true in L. rewrite Rmin_right by lra. reflexivity.
  - apply R_lt_false in L. rewrite Rmin_left by lra. reflexivity.
Qed.
Lemma empty_answer_compl (e : aoe R) a T : 0 < T -> empty_answer e ((T - a) / T) = empty_answer e (a / T).
Proof.
  intros HT. unfold empty_answer. replace ((T - a) / T) with (1 - a / T) by (field; lra).
  replace (1 - (1 - a / T)) with (a / T) by ring. now rewrite Rmin_comm.
Qed.

Lemma empty_outside (e : aoe R) sh beam c : square_cell c -> resolved c -> has_on_edge_line c beam = false ->
  rect_contains c (ptx (sbeg beam)) (pty (sbeg beam)) = false -> rect_contains c (ptx (send beam)) (pty (send beam)) = false ->
  (aoe_estimate e sh beam c false = Ok None /\ forall i j, segment_intersections c beam <> Ok [i; j]) \/
  (exists o, aoe_estimate e sh beam c false = Ok (Some o) /\
     forall A, cut_area c (sbeg beam) (send beam) A -> o = empty_answer e (A / full_area c)).
Proof.
  intros SQ RS NE B E. destruct SQ as [W EQ]. assert (H : 0 < height c) by lra. assert (SQ : square_cell c) by (split; assumption).
  assert (TP : 0 < full_area c) by (unfold full_area; nra).
  unfold aoe_estimate, ensure_not_on_edge. rewrite NE. cbn [negb bind].
  rewrite (classify_outside c beam RS W H B E).
  destruct (ray_result c (ray_of beam) RS W H) as (l & El & Ll & Hin & _).
  rewrite (seg_filter c beam l El). cbn [bind].
  set (fl := filter _ l) in *.
  assert (LF : (length fl <= length l)%nat) by apply filter_short.
  destruct fl as [|i [|j [|k fl']]] eqn:Efl.
  - left. split; [reflexivity|]. discriminate.
  - left. split; [reflexivity|]. discriminate.
  - right. cbn [bind]. unfold estimate_pierced. rewrite find_empty, (seg_filter c beam l El). fold fl. rewrite Efl. cbn [bind].
    assert (l = [i; j]).
    { assert (Hl : length l = 2%nat) by (cbn in LF; lia). destruct l as [|a [|b [|d l]]]; try discriminate Hl.
      unfold fl in Efl. cbn in Efl. destruct (seg_contains_intersection beam (i_pt a)), (seg_contains_intersection beam (i_pt b)); congruence. }
    subst l. clear fl Efl LF.
    destruct (in_raw_edge c _ i (Hin i ltac:(cbn; auto))) as [Oi _]. destruct (in_raw_edge c _ j (Hin j ltac:(cbn; auto))) as [Oj _].
    rewrite (compute_two beam c false i j SQ Oi Oj). cbn [andb bind].
    rewrite R_area, estimate_chunk_empty by exact TP. eexists. split; [reflexivity|].
    intros A CA. destruct beam as [p q]. destruct (two_chunk c p q i j A SQ RS El CA) as [->| ->]; [reflexivity|].
    now rewrite empty_answer_compl.
  - exfalso. cbn in LF. lia.
Qed.

(** a beam inside the cell over a resolvable distance is recognised *)
Lemma on_segment (beam : segment R) s : 0 <= s <= 1 -> seg_contains_intersection beam (at_ (sbeg beam) (send beam) s) = true.
Proof.
  intros S. assert (LE : forall a b : R, a <= b -> less_or_equal a b = true).
  { intros a b L. apply R_less_or_equal. assert (T := tol_pos a b). lra. }
  unfold seg_contains_intersection, at_, are_ordered. cbn [ptx pty fst snd].
  set (a := ptx (sbeg beam)). set (b := ptx (send beam)). set (c := pty (sbeg beam)). set (d := pty (send beam)).
  apply andb_true_iff. split; apply orb_true_iff.
  - destruct (Rle_or_lt a b); [left|right]; apply andb_true_iff; split; apply LE; nra.
  - destruct (Rle_or_lt c d); [left|right]; apply andb_true_iff; split; apply LE; nra.
Qed.
Lemma pierces_complete c beam su sv : resolved c -> 0 < width c -> 0 < height c -> has_on_edge_line c beam = false ->
  rect_contains c (ptx (sbeg beam)) (pty (sbeg beam)) = false -> rect_contains c (ptx (send beam)) (pty (send beam)) = false ->
  0 <= su -> su <= sv -> sv <= 1 ->
  inside c (at_ (sbeg beam) (send beam) su) -> inside c (at_ (sbeg beam) (send beam) sv) ->
  apart_x c (at_ (sbeg beam) (send beam) su) (at_ (sbeg beam) (send beam) sv) \/
  apart_y c (at_ (sbeg beam) (send beam) su) (at_ (sbeg beam) (send beam) sv) ->
  exists i j, segment_intersections c beam = Ok [i; j].
Proof.
  intros RS W H NE B E S0 S1 S2 Iu Iv AP.
  assert (Nb : ~ inside c (sbeg beam)) by (intros Q; apply inside_contains in Q; congruence).
  assert (Nn : ~ inside c (send beam)) by (intros Q; apply inside_contains in Q; congruence).
  destruct (entry c _ _ Iu Nb) as (s1 & loc1 & Hs1 & O1). destruct (entry c _ _ Iv Nn) as (s2 & loc2 & Hs2 & O2).
  replace (at_ (sbeg beam) (at_ (sbeg beam) (send beam) su) s1) with (at_ (sbeg beam) (send beam) (s1 * su)) in O1
    by (unfold at_, ptx, pty; cbn [fst snd]; f_equal; ring).
  replace (at_ (send beam) (at_ (sbeg beam) (send beam) sv) s2) with (at_ (sbeg beam) (send beam) (1 - s2 * (1 - sv))) in O2
    by (unfold at_, ptx, pty; cbn [fst snd]; f_equal; ring).
  set (a := s1 * su) in *. set (b := 1 - s2 * (1 - sv)) in *.
  assert (Ha : 0 <= a <= su) by (unfold a; nra). assert (Hb : sv <= b <= 1) by (unfold b; nra).
  assert (P := detect c beam _ _ su sv a loc1 NE ltac:(lra) ltac:(lra) ltac:(lra) eq_refl eq_refl Iu Iv AP O1).
  assert (Q := detect c beam _ _ su sv b loc2 NE ltac:(lra) ltac:(lra) ltac:(lra) eq_refl eq_refl Iu Iv AP O2).
  assert (ON : forall l p, on_edge c (mkInter l p) -> inside c p).
  { intros l p. unfold on_edge, inside. unfold width, height in *. destruct l; cbn [i_loc i_pt]; lra. }
  assert (Ia := ON _ _ O1). assert (Ib := ON _ _ O2).
  assert (D : point_eqb (at_ (sbeg beam) (send beam) a) (at_ (sbeg beam) (send beam) b) = false).
  { apply not_true_is_false. intros X. apply andb_true_iff in X as [X Y]. apply R_are_equal in X, Y.
    destruct Ia as [Ia1 Ia2], Ib as [Ib1 Ib2].
    assert (TX := tol_interval _ _ _ _ Ia1 Ib1). assert (TY := tol_interval _ _ _ _ Ia2 Ib2).
    unfold apart_x, apart_y, at_ in *. cbn [ptx pty fst snd] in *.
    set (dx := ptx (send beam) - ptx (sbeg beam)) in *. set (dy := pty (send beam) - pty (sbeg beam)) in *.
    destruct AP as [AP|AP].
    - assert (Z : Rabs (ptx (sbeg beam) + su * dx - (ptx (sbeg beam) + sv * dx)) <= Rabs (ptx (sbeg beam) + a * dx - (ptx (sbeg beam) + b * dx))).
      { replace (ptx (sbeg beam) + su * dx - (ptx (sbeg beam) + sv * dx)) with (- ((sv - su) * dx)) by ring.
        replace (ptx (sbeg beam) + a * dx - (ptx (sbeg beam) + b * dx)) with (- ((b - a) * dx)) by ring.
        rewrite !Rabs_Ropp, !Rabs_mult, (Rabs_pos_eq (sv - su)), (Rabs_pos_eq (b - a)) by lra.
        apply Rmult_le_compat_r; [apply Rabs_pos|lra]. }
      assert (M1 := Rmax_l 1 (Rmax (Rabs (left c)) (Rabs (right c)))). lra.
    - assert (Z : Rabs (pty (sbeg beam) + su * dy - (pty (sbeg beam) + sv * dy)) <= Rabs (pty (sbeg beam) + a * dy - (pty (sbeg beam) + b * dy))).
      { replace (pty (sbeg beam) + su * dy - (pty (sbeg beam) + sv * dy)) with (- ((sv - su) * dy)) by ring.
        replace (pty (sbeg beam) + a * dy - (pty (sbeg beam) + b * dy)) with (- ((b - a) * dy)) by ring.
        rewrite !Rabs_Ropp, !Rabs_mult, (Rabs_pos_eq (sv - su)), (Rabs_pos_eq (b - a)) by lra.
        apply Rmult_le_compat_r; [apply Rabs_pos|lra]. }
      assert (M1 := Rmax_l 1 (Rmax (Rabs (bot c)) (Rabs (top c)))). lra. }
  destruct (ray_result c (ray_of beam) RS W H) as (l & El & _ & _ & Hl).
  destruct (Hl _ _ P Q D) as (i & j & -> & IJ). cbn [i_pt] in IJ.
  rewrite (seg_filter c beam _ El). cbn [filter].
  exists i, j. destruct IJ as [[-> ->]|[-> ->]]; rewrite !on_segment by lra; reflexivity.
Qed.

(** ** occupied cells *)
Definition front_ray (beam : segment R) : ray R :=
  mkRay (send beam) (pty (sbeg beam) - pty (send beam), ptx (send beam) - ptx (sbeg beam)).
Lemma front_side c beam i j A : square_cell c -> resolved c -> ray_intersections c (front_ray beam) = Ok [i; j] ->
  area_beyond c (sbeg beam) (send beam) A ->
  (ahead (sbeg beam) (send beam) (the_corner c i j) <= 0 /\ chunk c i j = full_area c - A) \/
  (0 <= ahead (sbeg beam) (send beam) (the_corner c i j) /\ chunk c i j = A).
Proof.
  intros SQ RS H C. apply ray_two in H as ((Ei & Ri) & (Ej & Rj) & NL & NP); [|exact RS].
  destruct beam as [[bx by_] [nx ny]]. unfold area_beyond, front_ray in *. cbn [sbeg send ptx pty fst snd] in *.
  set (v := the_corner c i j) in *.
  assert (LX : ny - by_ <> 0 -> forall p, on_ray (mkRay (nx, ny) (by_ - ny, nx - bx)) p ->
     pty p = - (nx - bx) / (ny - by_) * ptx p + (ny + (nx - bx) / (ny - by_) * nx)).
  { intros N p (s & Ex & Ey). cbn [r_beg r_delta ptx pty fst snd] in *. unfold ptx, pty in *. rewrite Ex, Ey. field. exact N. }
  assert (LY : nx - bx <> 0 -> forall p, on_ray (mkRay (nx, ny) (by_ - ny, nx - bx)) p ->
     ptx p = - (ny - by_) / (nx - bx) * pty p + (nx + (ny - by_) / (nx - bx) * ny)).
  { intros N p (s & Ex & Ey). cbn [r_beg r_delta ptx pty fst snd] in *. unfold ptx, pty in *. rewrite Ex, Ey. field. exact N. }
  assert (AX : ny - by_ <> 0 -> ahead (bx, by_) (nx, ny) v =
     (ny - by_) * (pty v - (- (nx - bx) / (ny - by_) * ptx v + (ny + (nx - bx) / (ny - by_) * nx)))).
  { intros N. unfold ahead, ptx, pty. cbn [fst snd]. field. exact N. }
  assert (AY : nx - bx <> 0 -> ahead (bx, by_) (nx, ny) v =
     (nx - bx) * (ptx v - (- (ny - by_) / (nx - bx) * pty v + (nx + (ny - by_) / (nx - bx) * ny)))).
  { intros N. unfold ahead, ptx, pty. cbn [fst snd]. field. exact N. }
  destruct C as [[S ->]|[[S ->]|[[S ->]|[S ->]]]].
  - assert (N : ny - by_ <> 0) by lra. rewrite (AX N).
    destruct (chunk_below c (- (nx - bx) / (ny - by_)) (ny + (nx - bx) / (ny - by_) * nx) i j) as [[U V]|[U V]]; auto; fold v in U.
    + left. split; [nra|lra].
    + right. split; [nra|lra].
  - assert (N : ny - by_ <> 0) by lra. rewrite (AX N).
    destruct (chunk_below c (- (nx - bx) / (ny - by_)) (ny + (nx - bx) / (ny - by_) * nx) i j) as [[U V]|[U V]]; auto; fold v in U.
    + right. split; [nra|lra].
    + left. split; [nra|lra].
  - assert (N : nx - bx <> 0) by lra. rewrite (AY N).
    destruct (chunk_left c (- (ny - by_) / (nx - bx)) (nx + (ny - by_) / (nx - bx) * ny) i j) as [[U V]|[U V]]; auto; fold v in U.
    + left. split; [nra|lra].
    + right. split; [nra|lra].
  - assert (N : nx - bx <> 0) by lra. rewrite (AY N).
    destruct (chunk_left c (- (ny - by_) / (nx - bx)) (nx + (ny - by_) / (nx - bx) * ny) i j) as [[U V]|[U V]]; auto; fold v in U.
    + right. split; [nra|lra].
    + left. split; [nra|lra].
Qed.

(** what the code's side test really decides *)
Definition code_side (b n v : point R) : Prop :=
  0 < (ptx b + pty b) * (ptx v + pty v) /\ ptx b + pty b <> ptx n + pty n.
Lemma same_side_char beam c i j v : resolved c -> ray_intersections c (front_ray beam) = Ok [i; j] ->
  on_same_side (i_pt i) (i_pt j) (sbeg beam) v = true <-> code_side (sbeg beam) (send beam) v.
Proof.
  intros RS H. apply ray_two in H as ((_ & (s & Ex & Ey)) & (_ & (u & Fx & Fy)) & _ & NP); [|exact RS].
  destruct beam as [[bx by_] [nx ny]]. unfold front_ray, code_side, on_same_side in *. cbn [sbeg send ptx pty fst snd r_beg r_delta] in *.
  assert (NS : u - s <> 0).
  { intros Z. assert (u = s) by lra. subst u. apply NP. destruct (i_pt i), (i_pt j). unfold ptx, pty in *. cbn in *. congruence. }
  cbn [dsub dadd dmul dlt dofZ ROps]. rewrite R_lt_true. unfold ptx, pty in *. rewrite Ex, Ey, Fx, Fy.
  match goal with |- 0 < ?e <-> _ => replace e with ((u - s) * (u - s) * ((bx + by_ - (nx + ny)) * (bx + by_ - (nx + ny))) * ((bx + by_) * (fst v + snd v))) by ring end.
  assert (P : 0 < (u - s) * (u - s)) by apply (Rsqr_pos_lt _ NS). split.
  - intros Q. split.
    + apply Rnot_le_lt. intros L.
      assert (L1 : 0 <= (bx + by_ - (nx + ny)) * (bx + by_ - (nx + ny))) by apply Rle_0_sqr.
      assert (L2 : 0 <= (u - s) * (u - s) * ((bx + by_ - (nx + ny)) * (bx + by_ - (nx + ny)))) by (apply Rmult_le_pos; lra).
      assert (L3 := Rmult_le_compat_l _ _ _ L2 L). lra.
    + intros Z. replace (bx + by_ - (nx + ny)) with 0 in Q by lra. rewrite !Rmult_0_r, Rmult_0_l in Q. lra.
  - intros [Q1 Q2]. assert (0 < (bx + by_ - (nx + ny)) * (bx + by_ - (nx + ny))) by (apply Rsqr_pos_lt; intros Z; apply Q2; lra).
    apply Rmult_lt_0_compat; [apply Rmult_lt_0_compat|]; assumption.
Qed.
Lemma corner_in c i j : In (the_corner c i j) (rect_corners c) \/ ~ (on_edge c i /\ on_edge c j).
Proof.
  left. unfold the_corner, rect_corners, i_is_horiz, set_corner. destruct (i_loc i), (i_loc j); cbn; auto 6.
Qed.

Lemma occ_two (e : aoe R) sh beam c i j : square_cell c -> resolved c -> has_on_edge_line c beam = false ->
  rect_contains c (ptx (sbeg beam)) (pty (sbeg beam)) = false ->
  rect_contains c (ptx (send beam)) (pty (send beam)) = true -> on_some_edge c (send beam) = Ok false ->
  ray_intersections c (front_ray beam) = Ok [i; j] ->
  exists area, aoe_estimate e sh beam c true = Ok (Some (mkOcc (Rmax (area / full_area c) (prob_occ (ae_empty e))) (est_quality (ae_occ e)))) /\
    (code_side (sbeg beam) (send beam) (the_corner c i j) -> area = full_area c - chunk c i j) /\
    (~ code_side (sbeg beam) (send beam) (the_corner c i j) -> area = chunk c i j).
Proof.
  intros SQ RS NE B E NO F. destruct SQ as [W EQ]. assert (H : 0 < height c) by lra. assert (SQ : square_cell c) by (split; assumption).
  unfold aoe_estimate, ensure_not_on_edge. rewrite NE. cbn [negb bind].
  unfold classify_segment, modified_is_inside. rewrite (not_contained_no_edge c (sbeg beam)), NO by assumption.
  cbn [bind negb andb]. rewrite B, E. cbn [xorb bind]. unfold estimate_pierced, find_intersections.
  change (ray_intersections c (mkRay (send beam) (dsub (pty (sbeg beam)) (pty (send beam)), dsub (ptx (send beam)) (ptx (sbeg beam)))))
    with (ray_intersections c (front_ray beam)). rewrite F. cbn [bind].
  assert (F' := F). apply ray_two in F' as ((Ei & _) & (Ej & _) & _ & _); [|exact RS].
  rewrite (compute_two beam c true i j SQ Ei Ej). cbn [andb bind].
  unfold estimate_chunk. rewrite R_dmax, R_area. cbn [ddiv ROps].
  eexists. split; [reflexivity|]. rewrite <- (same_side_char beam c i j _ RS F).
  destruct (on_same_side (i_pt i) (i_pt j) (sbeg beam) (the_corner c i j)); split; intros Q; try reflexivity; [now destruct Q|discriminate].
Qed.
