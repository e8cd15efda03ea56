(** C59-C62: the area occupancy estimator. *)
From Coq Require Import Reals ZArith List Bool Lra Lia.
From Flocq Require Import Core IEEE754.BinarySingleNaN IEEE754.Binary IEEE754.Bits.
From Coquelicot Require Import Coquelicot.
From Verif.Base Require Import Outcome Num F64Facts.
From Verif.Model Require Import MathUtils Geometry Cells AreaEstimator.
From Verif.Spec Require Import AreaSpec.
From Verif.Proofs Require Import CompareProofs AreaProofs AreaMain AreaRange.
Import ListNotations.
Local Open Scope R_scope.

(** ** C59: every valid estimate is in range (binary64) *)
Theorem C59_ranges (e : aoe F64) (shift : F64) (beam : segment F64) (c : rect F64) (occ : bool) (o : occup F64) :
  F_fin (rect_area c) = true -> 0 < F2R64 (rect_area c) ->
  F_fin (prob_occ (ae_empty e)) = true -> 0 <= F2R64 (prob_occ (ae_empty e)) <= 1 ->
  F_fin (est_quality (ae_empty e)) = true -> 0 <= F2R64 (est_quality (ae_empty e)) <= 1 ->
  aoe_estimate e shift beam c occ = Ok (Some o) ->
  let as_occupied :=
    est_quality o = est_quality (ae_occ e) /\
    F_fin (prob_occ o) = true /\ F2R64 (prob_occ (ae_empty e)) <= F2R64 (prob_occ o) <= 1 in
  let as_empty :=
    prob_occ o = prob_occ (ae_empty e) /\
    (est_quality o = ae_unknown e \/
     (F_fin (est_quality o) = true /\ 0 <= F2R64 (est_quality o) <= F2R64 (est_quality (ae_empty e)))) in
  (occ = false -> as_empty) /\ (occ = true -> as_occupied \/ as_empty).
Proof. intros FT PT FP BP FQ BQ H. destruct (estimate_range e c FT PT FP BP FQ BQ shift beam occ o H) as [A B]. split; auto. Qed.
Print Assumptions C59_ranges.

(** concrete estimator: base occupied (0.95, 1), base empty (0.01, 1), low quality 0.01, unknown quality 0.5 *)
Definition ex_f (n d : Z) : F64 := dlit n d.
Definition ex_aoe : aoe F64 :=
  mkAoe (mkOcc (ex_f 95 100) (dofZ 1)) (mkOcc (ex_f 1 100) (dofZ 1)) (ex_f 1 100) (ex_f 1 2).
Definition ex_cell (n : Z) : rect F64 := mkRect (dofZ 0) (dofZ n) (dofZ 0) (dofZ n).
Definition ex_seg (a b c d : F64) : segment F64 := mkSegment (a, b) (c, d).
(** an answer equals the given probability and quality (as doubles) *)
Definition ex_is (r : outcome (option (occup F64))) (p q : F64) : bool :=
  match r with Ok (Some o) => deq (prob_occ o) p && deq (est_quality o) q | _ => false end.
Example C59_case : (* stops a quarter into the cell (-1..1)^2: 3/4 is occupied *)
  ex_is (aoe_estimate ex_aoe (ex_f 1 100) (ex_seg (dofZ (-50)) (dofZ 0) (ex_f (-1) 2) (dofZ 0))
           (mkRect (dofZ (-1)) (dofZ 1) (dofZ (-1)) (dofZ 1)) true) (ex_f 3 4) (dofZ 1) = true.
Proof. vm_compute. reflexivity. Qed.

(** ** C60: is an estimate a function of the estimator, the beam and the cell?  Not when the beam runs along a border. *)
(** the same query: alone in a program it is answered; after a query for a cell of side 50 the answer differs; after a query for
    a cell of side 100 the program aborts *)
Definition ex_query (n : Z) : aoe F64 * segment F64 * rect F64 * bool :=
  (ex_aoe, ex_seg (dofZ (-2)) (dofZ 0) (dofZ (2 * n)) (dofZ 0), ex_cell n, false).
Theorem C60_history_refuted :
  exists r1 r2 : option (occup F64),
    aoe_run None [ex_query 1] = Ok [r1] /\
    (exists r0, aoe_run None [ex_query 50; ex_query 1] = Ok [r0; r2]) /\
    ex_is (Ok r1) (ex_f 1 100) (ex_f 1 100) = true /\ ex_is (Ok r2) (ex_f 1 100) (ex_f 1 2) = true /\
    aoe_run None [ex_query 100; ex_query 1] = Abort.
Proof.
  assert (X1 : match aoe_run None [ex_query 1] with Ok [r1] => ex_is (Ok r1) (ex_f 1 100) (ex_f 1 100) | _ => false end = true) by (vm_compute; reflexivity).
  assert (X2 : match aoe_run None [ex_query 50; ex_query 1] with Ok [_; r2] => ex_is (Ok r2) (ex_f 1 100) (ex_f 1 2) | _ => false end = true) by (vm_compute; reflexivity).
  assert (X3 : match aoe_run None [ex_query 100; ex_query 1] with Abort => true | _ => false end = true) by (vm_compute; reflexivity).
  destruct (aoe_run None [ex_query 1]) as [[|r1 [|? ?]]| | |]; try discriminate X1.
  destruct (aoe_run None [ex_query 50; ex_query 1]) as [[|r0 [|r2 [|? ?]]]| | |]; try discriminate X2.
  destruct (aoe_run None [ex_query 100; ex_query 1]) as [?| | |]; try discriminate X3.
  exists r1, r2. split; [reflexivity|]. split; [exists r0; reflexivity|]. split; [exact X1|]. split; [exact X2|reflexivity].
Qed.
Print Assumptions C60_history_refuted.

(** otherwise it is: for a beam not along a border line the history is irrelevant (any double arithmetic) *)
Theorem C60_partial {D} {ops : DOps D} (st st' : option D) (e : aoe D) (beam : segment D) (c : rect D) (occ : bool) :
  has_on_edge_line c beam = false ->
  match aoe_call st e beam c occ, aoe_call st' e beam c occ with
  | Ok (r, _), Ok (r', _) => r = r'
  | Abort, Abort | UB, UB | OutOfFuel, OutOfFuel => True
  | _, _ => False
  end.
Proof.
  intros H. unfold aoe_call, aoe_estimate, ensure_not_on_edge. rewrite H. cbn [negb bind].
  destruct (classify_segment beam c) as [p| | |]; cbn [bind]; auto.
  destruct p; cbn [bind]; auto; destruct occ; cbn [bind]; auto.
  all: destruct (estimate_pierced e beam c _); cbn [bind]; auto.
Qed.
Print Assumptions C60_partial.
(** and so is it when every cell of the program has the same side and every estimator the same low quality *)
Theorem C60_same_cells_partial {D} {ops : DOps D} (low side : D) (qs : list (aoe D * segment D * rect D * bool)) q :
  (forall e b c o, In (e, b, c, o) (q :: qs) -> ae_low e = low /\ vside_len c = side) ->
  forall rs, aoe_run None (qs ++ [q]) = Ok rs -> exists r, aoe_run None [q] = Ok [r] /\ last rs None = r.
Proof.
  intros H.
  assert (G : forall l st rs, (st = None \/ st = Some (dmul low side)) -> (forall e b c o, In (e, b, c, o) l -> ae_low e = low /\ vside_len c = side) ->
     aoe_run st (l ++ [q]) = Ok rs -> exists r, aoe_run (Some (dmul low side)) [q] = Ok [r] /\ last rs None = r).
  { induction l as [|[[[e b] c] o] l IH]; intros st rs Hst Hl.
    - cbn [app]. destruct q as [[[e b] c] o]. cbn [aoe_run]. unfold aoe_call.
      assert (S : match st with Some s => s | None => dmul (ae_low e) (vside_len c) end = dmul low side).
      { destruct Hst as [->| ->]; [|reflexivity]. destruct (H e b c o (or_introl eq_refl)) as [-> ->]. reflexivity. }
      rewrite S. destruct (aoe_estimate e (dmul low side) b c o); cbn [bind]; try discriminate. intros Q. injection Q as <-. eexists. split; reflexivity.
    - cbn [app aoe_run]. unfold aoe_call at 1.
      assert (S : match st with Some s => s | None => dmul (ae_low e) (vside_len c) end = dmul low side).
      { destruct Hst as [->| ->]; [|reflexivity]. destruct (Hl e b c o (or_introl eq_refl)) as [-> ->]. reflexivity. }
      rewrite S. destruct (aoe_estimate e (dmul low side) b c o); cbn [bind]; try discriminate.
      destruct (aoe_run (Some (dmul low side)) (l ++ [q])) as [rs'| | |] eqn:E; cbn [bind]; try discriminate. intros Q. injection Q as <-.
      destruct (IH _ rs' (or_intror eq_refl) (fun e b c o X => Hl e b c o (or_intror X)) E) as (r & R1 & R2).
      exists r. split; [exact R1|]. destruct rs'; [|exact R2]. exfalso. clear - E. destruct l as [|[[[? ?] ?] ?] l]; cbn [app aoe_run] in E; [destruct q as [[[? ?] ?] ?]; cbn [aoe_run] in E|].
      all: destruct (aoe_call _ _ _ _ _) as [[? ?]| | |]; cbn [bind] in E; try discriminate.
      destruct (aoe_run _ _); cbn [bind] in E; discriminate. }
  intros rs E. destruct (G qs None rs (or_introl eq_refl) (fun e b c o X => H e b c o (or_intror X)) E) as (r & R1 & R2).
  exists r. split; [|exact R2]. destruct q as [[[e b] c] o]. cbn [aoe_run] in *. unfold aoe_call in *.
  destruct (H e b c o (or_introl eq_refl)) as [-> ->]. exact R1.
Qed.
Print Assumptions C60_same_cells_partial.
Example C60_case : exists rs, aoe_run None ([ex_query 1; ex_query 1] ++ [ex_query 1]) = Ok rs.
Proof.
  assert (X : match aoe_run None ([ex_query 1; ex_query 1] ++ [ex_query 1]) with Ok _ => true | _ => false end = true) by (vm_compute; reflexivity).
  destruct (aoe_run None _) as [rs| | |]; try discriminate X. now exists rs.
Qed.

(** ** C61: a beam through a cell: the quality of "empty" grows with the share of the cell it cuts off (exact reals) *)
(** the point at the share s of the way from p to q *)
Definition point_at (p q : point R) (s : R) : point R := (ptx p + s * (ptx q - ptx p), pty p + s * (pty q - pty p)).
Definition in_cell (c : rect R) (p : point R) : Prop := left c <= ptx p <= right c /\ bot c <= pty p <= top c.
(** twice the comparison tolerance of the library for coordinates in lo .. hi *)
Definition two_tol (lo hi : R) : R := 2 / 10000000 * Rmax 1 (Rmax (Rabs lo) (Rabs hi)).
Theorem C61_through (e : aoe R) (shift : R) (beam : segment R) (c : rect R) (s1 s2 : R) :
  square_cell c -> are_equal (bot c) (top c) = false -> has_on_edge_line c beam = false ->
  rect_contains c (ptx (sbeg beam)) (pty (sbeg beam)) = false -> rect_contains c (ptx (send beam)) (pty (send beam)) = false ->
  let P1 := point_at (sbeg beam) (send beam) s1 in
  let P2 := point_at (sbeg beam) (send beam) s2 in
  0 <= s1 <= s2 /\ s2 <= 1 -> in_cell c P1 -> in_cell c P2 ->
  (two_tol (left c) (right c) < Rabs (ptx P1 - ptx P2) \/ two_tol (bot c) (top c) < Rabs (pty P1 - pty P2)) ->
  exists o, aoe_estimate e shift beam c false = Ok (Some o) /\
    prob_occ o = prob_occ (ae_empty e) /\
    forall A, cut_area c (sbeg beam) (send beam) A ->
      est_quality o = est_quality (ae_empty e) * Rmin (A / full_area c) (1 - A / full_area c).
Proof.
  intros SQ RS NE B E P1 P2 [[S1 S2] S3] I1 I2 AP. assert (SQ' := SQ). destruct SQ' as [W EQ].
  destruct (pierces_complete c beam s1 s2 RS W ltac:(lra) NE B E S1 S2 S3 I1 I2 AP) as (i & j & IJ).
  destruct (empty_outside e shift beam c SQ RS NE B E) as [[_ N]|(o & O1 & O2)]; [now destruct (N i j)|].
  assert (PR : exists A, cut_area c (sbeg beam) (send beam) A).
  { destruct beam as [[bx by_] [ex ey]]. unfold cut_area. cbn [sbeg send ptx pty fst snd].
    destruct (Req_dec bx ex) as [X|X].
    - destruct (Req_dec by_ ey) as [Y|Y].
      + exfalso. subst. unfold two_tol in AP. unfold P1, P2, point_at in AP. cbn [sbeg send ptx pty fst snd] in AP.
        assert (M1 := Rmax_l 1 (Rmax (Rabs (left c)) (Rabs (right c)))). assert (M2 := Rmax_l 1 (Rmax (Rabs (bot c)) (Rabs (top c)))).
        destruct AP as [AP|AP]; [replace (ex + s1 * (ex - ex) - (ex + s2 * (ex - ex))) with 0 in AP by ring
                                |replace (ey + s1 * (ey - ey) - (ey + s2 * (ey - ey))) with 0 in AP by ring]; rewrite Rabs_R0 in AP; lra.
      + eexists. right. exists 0, bx. split; [ring|]. split; [lra|]. split; [exact Y|reflexivity].
    - eexists. left. exists ((ey - by_) / (ex - bx)), (by_ - (ey - by_) / (ex - bx) * bx). split; [ring|]. split; [field; lra|]. split; [exact X|reflexivity]. }
  exists o. split; [exact O1|]. destruct PR as [A0 PR]. split; [now rewrite (O2 A0 PR)|]. intros A HA. now rewrite (O2 A HA).
Qed.
Print Assumptions C61_through.

(** whatever else happens to a beam with both ends outside (it misses the cell, or its way through it is too short), the answer
    is never a wrong share: it is "invalid" or exact *)
Theorem C61_outside (e : aoe R) (shift : R) (beam : segment R) (c : rect R) :
  square_cell c -> are_equal (bot c) (top c) = false -> has_on_edge_line c beam = false ->
  rect_contains c (ptx (sbeg beam)) (pty (sbeg beam)) = false -> rect_contains c (ptx (send beam)) (pty (send beam)) = false ->
  aoe_estimate e shift beam c false = Ok None \/
  exists o, aoe_estimate e shift beam c false = Ok (Some o) /\
    forall A, cut_area c (sbeg beam) (send beam) A ->
      o = mkOcc (prob_occ (ae_empty e)) (est_quality (ae_empty e) * Rmin (A / full_area c) (1 - A / full_area c)).
Proof.
  intros SQ RS NE B E. destruct (empty_outside e shift beam c SQ RS NE B E) as [[N _]|H]; [now left|right]. exact H.
Qed.
Print Assumptions C61_outside.

(** ** C62: a beam that ends in the cell: is the probability the share of the cell beyond the beam's end? *)
Definition ex_raoe : aoe R := mkAoe (mkOcc (95 / 100) 1) (mkOcc (1 / 100) 1) (1 / 100) (1 / 2).
Lemma ex_eq (a b : R) : Rabs (a - b) <= 1 / 10000000 -> are_equal a b = true.
Proof. intros H. apply R_are_equal. assert (T := tol_pos a b). lra. Qed.
Lemma ex_ne (a b : R) : -10 <= a <= 10 -> -10 <= b <= 10 -> 1 / 1000000 < Rabs (a - b) -> are_equal a b = false.
Proof.
  intros Ha Hb H. apply not_true_is_false. rewrite R_are_equal. unfold tol. intros C. revert C.
  assert (Rmax 1 (Rmax (Rabs a) (Rabs b)) <= 10) by (repeat apply Rmax_lub; try lra; apply Rabs_le; lra). lra.
Qed.
Lemma ex_le (a b : R) : a <= b -> less_or_equal a b = true.
Proof. intros L. apply R_less_or_equal. assert (T := tol_pos a b). lra. Qed.
Lemma ex_nle (a b : R) : -10 <= a <= 10 -> -10 <= b <= 10 -> b + 1 / 1000000 < a -> less_or_equal a b = false.
Proof.
  intros Ha Hb H. apply not_true_is_false. rewrite R_less_or_equal. unfold tol. intros C. revert C.
  assert (Rmax 1 (Rmax (Rabs a) (Rabs b)) <= 10) by (repeat apply Rmax_lub; try lra; apply Rabs_le; lra). lra.
Qed.
Ltac ex_abs := unfold Rabs; repeat destruct Rcase_abs; lra.
Ltac ex_bool :=
  repeat match goal with
  | |- context[are_equal ?a ?b] => first [rewrite (ex_eq a b) by ex_abs | rewrite (ex_ne a b) by first [lra|ex_abs]]
  | |- context[less_or_equal ?a ?b] => first [rewrite (ex_le a b) by lra | rewrite (ex_nle a b) by lra]
  end.
Definition ex_unit : rect R := mkRect 0 1 0 1.
Definition ex_beam : segment R := mkSegment (-2, 1 / 2) (1 / 4, 1 / 2).
Lemma ex_front : ray_intersections ex_unit (front_ray ex_beam) = Ok [mkInter LocTop (1 / 4, 1); mkInter LocBot (1 / 4, 0)].
Proof.
  unfold ray_intersections, ray_intersect, seg_is_horiz, seg_is_vert, top_edge, bot_edge, left_edge, right_edge, front_ray, ex_beam, ex_unit, intersect_horiz, intersect_vert.
  cbn [sbeg send ptx pty fst snd bot top left right r_beg r_delta dofZ ROps]. ex_bool. cbn [bind dlt ddiv dsub dadd dmul ROps app].
  repeat match goal with |- context[R_lt ?a ?b] => first [replace (R_lt a b) with false by (symmetry; apply R_lt_false; lra)] end.
  cbn [orb app]. unfold drop_equal_back. cbn [length Nat.ltb Nat.leb last removelast andb i_pt]. unfold point_eqb. cbn [ptx pty fst snd].
  rewrite (ex_ne 1 0) by first [lra|ex_abs]. rewrite andb_false_r. cbn [unique unique_from i_pt]. unfold point_eqb. cbn [ptx pty fst snd].
  rewrite (ex_ne 1 0) by first [lra|ex_abs]. rewrite andb_false_r. cbn [length Nat.ltb Nat.leb assert_ bind].
  match goal with |- Ok [mkInter _ (?a, _); mkInter _ (?b, _)] = _ => replace a with (1 / 4) by field; replace b with (1 / 4) by field end. reflexivity.
Qed.

Lemma ex_hyps : square_cell ex_unit /\ are_equal (bot ex_unit) (top ex_unit) = false /\ has_on_edge_line ex_unit ex_beam = false /\
  rect_contains ex_unit (ptx (sbeg ex_beam)) (pty (sbeg ex_beam)) = false /\
  rect_contains ex_unit (ptx (send ex_beam)) (pty (send ex_beam)) = true /\ on_some_edge ex_unit (send ex_beam) = Ok false.
Proof.
  unfold square_cell, width, height, has_on_edge_line, seg_is_vert, seg_is_horiz, rect_contains, are_ordered, on_some_edge, some_contains,
    seg_contains, top_edge, bot_edge, left_edge, right_edge, seg_is_vert, seg_is_horiz, ex_unit, ex_beam.
  cbn [sbeg send ptx pty fst snd bot top left right].
  split; [lra|]. split; [now ex_bool|]. split; [now ex_bool|]. split; [now ex_bool|]. split; [now ex_bool|]. now ex_bool.
Qed.
(** the general form, used for both theorems below: the answer is the share on one side of the front line (the line through the
    beam's end, at right angles to it), and which side depends only on the signs of x + y of the beam's begin and of a corner *)
Theorem C62_partial (e : aoe R) (shift : R) (beam : segment R) (c : rect R) (i j : inter R) :
  square_cell c -> are_equal (bot c) (top c) = false -> has_on_edge_line c beam = false ->
  rect_contains c (ptx (sbeg beam)) (pty (sbeg beam)) = false ->
  rect_contains c (ptx (send beam)) (pty (send beam)) = true -> on_some_edge c (send beam) = Ok false ->
  (* the front line crosses the border of the cell in the two points i, j *)
  ray_intersections c (mkRay (send beam) (pty (sbeg beam) - pty (send beam), ptx (send beam) - ptx (sbeg beam))) = Ok [i; j] ->
  exists o v, aoe_estimate e shift beam c true = Ok (Some o) /\ est_quality o = est_quality (ae_occ e) /\ In v (rect_corners c) /\
    forall A, area_beyond c (sbeg beam) (send beam) A ->
      let beyond := Rmax (A / full_area c) (prob_occ (ae_empty e)) in
      let before := Rmax (1 - A / full_area c) (prob_occ (ae_empty e)) in
      let test := 0 < (ptx (sbeg beam) + pty (sbeg beam)) * (ptx v + pty v) /\
                  ptx (sbeg beam) + pty (sbeg beam) <> ptx (send beam) + pty (send beam) in
      (prob_occ o = beyond \/ prob_occ o = before) /\
      (ahead (sbeg beam) (send beam) v < 0 -> (test -> prob_occ o = beyond) /\ (~ test -> prob_occ o = before)) /\
      (0 < ahead (sbeg beam) (send beam) v -> (test -> prob_occ o = before) /\ (~ test -> prob_occ o = beyond)).
Proof.
  intros SQ RS NE B E NO F. destruct (occ_two e shift beam c i j SQ RS NE B E NO F) as (area & O & P1 & P2).
  exists (mkOcc (Rmax (area / full_area c) (prob_occ (ae_empty e))) (est_quality (ae_occ e))), (the_corner c i j).
  split; [exact O|]. split; [reflexivity|].
  assert (F' := F). apply ray_two in F' as ((Ei & _) & (Ej & _) & _ & _); [|exact RS].
  split; [destruct (corner_in c i j) as [K|K]; [exact K|now destruct K]|].
  intros A HA beyond before test. cbn [prob_occ].
  assert (TP : 0 < full_area c) by (destruct SQ as [W EQ]; unfold full_area; nra).
  assert (BF : (full_area c - A) / full_area c = 1 - A / full_area c) by (field; lra).
  destruct (front_side c beam i j A SQ RS F HA) as [[S1 S2]|[S1 S2]].
  - assert (T1 : test -> area = A) by (intros Q; rewrite (P1 Q), S2; ring).
    assert (T2 : ~ test -> area = full_area c - A) by (intros Q; rewrite (P2 Q), S2; ring).
    split; [|split].
    + destruct (Rlt_dec 0 ((ptx (sbeg beam) + pty (sbeg beam)) * (ptx (the_corner c i j) + pty (the_corner c i j)))) as [K|K];
        [destruct (Req_dec (ptx (sbeg beam) + pty (sbeg beam)) (ptx (send beam) + pty (send beam))) as [K'|K']|].
      * right. rewrite T2 by (intros [_ Q]; contradiction). unfold before. now rewrite <- BF.
      * left. rewrite T1 by (split; assumption). reflexivity.
      * right. rewrite T2 by (intros [Q _]; contradiction). unfold before. now rewrite <- BF.
    + intros _. split; intros Q; [rewrite (T1 Q); reflexivity|rewrite (T2 Q); unfold before; now rewrite <- BF].
    + intros Q. exfalso. lra.
  - assert (T1 : test -> area = full_area c - A) by (intros Q; rewrite (P1 Q), S2; ring).
    assert (T2 : ~ test -> area = A) by (intros Q; rewrite (P2 Q), S2; ring).
    split; [|split].
    + destruct (Rlt_dec 0 ((ptx (sbeg beam) + pty (sbeg beam)) * (ptx (the_corner c i j) + pty (the_corner c i j)))) as [K|K];
        [destruct (Req_dec (ptx (sbeg beam) + pty (sbeg beam)) (ptx (send beam) + pty (send beam))) as [K'|K']|].
      * left. rewrite T2 by (intros [_ Q]; contradiction). reflexivity.
      * right. rewrite T1 by (split; assumption). unfold before. now rewrite <- BF.
      * left. rewrite T2 by (intros [Q _]; contradiction). reflexivity.
    + intros Q. exfalso. lra.
    + intros _. split; intros Q; [rewrite (T1 Q); unfold before; now rewrite <- BF|rewrite (T2 Q); reflexivity].
Qed.
Print Assumptions C62_partial.

(** the cell (0..1)^2, a beam from (-2, 0.5) to (0.25, 0.5): three quarters of the cell lie beyond its end, the answer is 1/4 *)
Theorem C62_refuted : exists (e : aoe R) (shift : R) (beam : segment R) (c : rect R) (o : occup R),
  square_cell c /\ aoe_estimate e shift beam c true = Ok (Some o) /\
  area_beyond c (sbeg beam) (send beam) (3 / 4) /\ full_area c = 1 /\ prob_occ (ae_empty e) = 1 / 100 /\ prob_occ o = 1 / 4.
Proof.
  destruct ex_hyps as (H1 & H2 & H3 & H4 & H5 & H6).
  destruct (occ_two ex_raoe 1 ex_beam ex_unit _ _ H1 H2 H3 H4 H5 H6 ex_front) as (area & O & P1 & P2).
  exists ex_raoe, 1, ex_beam, ex_unit. eexists. split; [exact H1|]. split; [exact O|].
  assert (FA : full_area ex_unit = 1) by (unfold full_area, width, height, ex_unit; cbn; lra).
  assert (Q : ~ code_side (sbeg ex_beam) (send ex_beam) (the_corner ex_unit (mkInter LocTop (1 / 4, 1)) (mkInter LocBot (1 / 4, 0)))).
  { unfold code_side, the_corner, ex_beam, ex_unit, ptx, pty; cbn. intros [Q _]. lra. }
  apply P2 in Q. assert (AE : area = 1 / 4).
  { rewrite Q. unfold chunk, the_corner, edge_dist, ex_unit, ptx, pty; cbn. replace (1 / 4 - 0) with (1 / 4) by lra. rewrite Rabs_pos_eq; lra. }
  split.
  - unfold area_beyond, ex_beam. cbn [sbeg send ptx pty fst snd]. right. right. left. split; [lra|]. rewrite FA.
    unfold area_left, ex_unit, width. cbn [left right bot top].
    rewrite (RInt_ext _ (fun _ => 1 / 4)).
    + rewrite RInt_const. unfold scal; cbn; unfold mult; cbn. lra.
    + intros y _. replace (- (1 / 2 - 1 / 2) / (1 / 4 - -2) * y + (1 / 4 + (1 / 2 - 1 / 2) / (1 / 4 - -2) * (1 / 2)) - 0) with (1 / 4) by field.
      rewrite Rmax_right, Rmin_right; lra.
  - split; [exact FA|]. split; [reflexivity|]. cbn [prob_occ ex_raoe ae_empty]. rewrite FA, AE. rewrite Rmax_left; lra.
Qed.
Print Assumptions C62_refuted.

(** C61's hypotheses: a level beam at a quarter of the unit cell's height *)
Definition ex_through : segment R := mkSegment (-1, 1 / 4) (2, 1 / 4).
Example C61_case : exists o, aoe_estimate ex_raoe 1 ex_through ex_unit false = Ok (Some o) /\ est_quality o = 1 / 4.
Proof.
  destruct (C61_through ex_raoe 1 ex_through ex_unit (1 / 3) (2 / 3)) as (o & O1 & _ & O2).
  - apply ex_hyps.
  - apply ex_hyps.
  - unfold has_on_edge_line, seg_is_vert, seg_is_horiz, ex_unit, ex_through. cbn [sbeg send ptx pty fst snd bot top left right]. now ex_bool.
  - unfold rect_contains, are_ordered, ex_unit, ex_through. cbn [sbeg send ptx pty fst snd bot top left right]. now ex_bool.
  - unfold rect_contains, are_ordered, ex_unit, ex_through. cbn [sbeg send ptx pty fst snd bot top left right]. now ex_bool.
  - lra.
  - unfold in_cell, point_at, ex_through, ex_unit; cbn. lra.
  - unfold in_cell, point_at, ex_through, ex_unit; cbn. lra.
  - left. unfold two_tol, point_at, ex_through, ex_unit; cbn. rewrite Rabs_R0, Rabs_R1. rewrite (Rmax_right 0 1), Rmax_left by lra.
    rewrite Rabs_left1; lra.
  - exists o. split; [exact O1|]. rewrite (O2 (1 / 4)).
    + unfold full_area, width, height, ex_unit; cbn. rewrite Rmin_left; lra.
    + left. exists 0, (1 / 4). unfold ex_through; cbn [sbeg send ptx pty fst snd]. split; [lra|]. split; [lra|]. split; [lra|].
      unfold area_below, ex_unit, height. cbn [left right bot top]. symmetry. rewrite (RInt_ext _ (fun _ => 1 / 4)).
      * rewrite RInt_const. unfold scal; cbn; unfold mult; cbn. lra.
      * intros x _. replace (0 * x + 1 / 4 - 0) with (1 / 4) by ring. rewrite Rmax_right, Rmin_right; lra.
Qed.
