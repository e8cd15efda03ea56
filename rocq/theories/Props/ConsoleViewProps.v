(** C89: a map shown as text. *)
From Coq Require Import ZArith List Bool Ascii Reals Lia Lra.
From Flocq Require Import Core.
From Verif.Base Require Import Outcome Num.
From Verif.Model Require Import MathUtils Geometry Grid ConsoleView.
From Verif.Spec Require Import ConsoleViewSpec.
From Verif.Proofs Require Import GridNumProofs.
Import ListNotations.
Local Open Scope Z_scope.
Local Open Scope outcome_scope.

Section Any.
  Context {D : Type} {ops : DOps D}.
  Variable scale : D.

  Lemma show_row_ok (occ : coord -> D) (read : coord -> outcome D) center dy n : forall dx,
    (forall c, (exists k, (k < n)%nat /\ c = (cx center + dx + Z.of_nat k, cy center + dy)) -> read c = Ok (occ c)) ->
    exists l, show_row read center dx dy n = Ok l /\ length l = n /\
      forall j ch, nth_error l j = Some ch -> ch = map_char center occ (cx center + dx + Z.of_nat j, cy center + dy).
  Proof.
    induction n as [|n IH]; intros dx H.
    - exists []. split; [reflexivity|]. split; [reflexivity|]. intros [|j] ch E; discriminate.
    - cbn [show_row].
      assert (R0 : read (coord_add center (dx, dy)) = Ok (occ (cx center + dx + Z.of_nat 0, cy center + dy))).
      { replace (coord_add center (dx, dy)) with (cx center + dx + Z.of_nat 0, cy center + dy)
          by (unfold coord_add, cx, cy; cbn; f_equal; lia).
        apply H. exists 0%nat. split; [lia|reflexivity]. }
      rewrite R0. cbn [bind].
      destruct (IH (dx + 1)) as [l [E [L N]]].
      { intros c [k [Hk ->]]. apply H. exists (S k). split; [lia|]. f_equal; lia. }
      rewrite E. cbn [bind]. eexists. split; [reflexivity|]. split; [cbn; now rewrite L|].
      intros [|j] ch Hj; cbn [nth_error] in Hj.
      + assert (X : ch = cell_char center (coord_add center (dx, dy)) (occ (cx center + dx + Z.of_nat 0, cy center + dy))) by congruence.
        rewrite X. unfold cell_char, map_char.
        replace (coord_add center (dx, dy)) with (cx center + dx + Z.of_nat 0, cy center + dy)
          by (unfold coord_add, cx, cy; cbn; f_equal; lia).
        reflexivity.
      + rewrite (N j ch Hj). f_equal. f_equal. lia.
  Qed.

  Lemma show_rows_ok (occ : coord -> D) (read : coord -> outcome D) center tl br n : forall dy,
    (forall c, cx center - cx tl <= cx c <= cx center + cx br -> cy center + dy - Z.of_nat n < cy c <= cy center + dy ->
       read c = Ok (occ c)) ->
    exists l, show_rows read center tl br dy n = Ok l /\ length l = n /\
      forall i line, nth_error l i = Some line ->
        length line = Z.to_nat (cx tl + cx br + 1) /\
        forall j ch, nth_error line j = Some ch ->
          ch = map_char center occ (cx center - cx tl + Z.of_nat j, cy center + dy - Z.of_nat i).
  Proof.
    induction n as [|n IH]; intros dy H.
    - exists []. split; [reflexivity|]. split; [reflexivity|]. intros [|i] ch E; discriminate.
    - cbn [show_rows].
      destruct (show_row_ok occ read center dy (Z.to_nat (cx tl + cx br + 1)) (- cx tl)) as [r [E1 [L1 N1]]].
      { intros c [k [Hk ->]]. apply H; unfold cx, cy in *; cbn [fst snd] in *; lia. }
      destruct (IH (dy - 1)) as [rs [E2 [L2 N2]]].
      { intros c Hx Hy. apply H; lia. }
      rewrite E1. cbn [bind]. rewrite E2. cbn [bind]. eexists. split; [reflexivity|].
      split; [cbn; now rewrite L2|].
      intros [|i] line Hi; cbn [nth_error] in Hi.
      + assert (X : line = r) by congruence. subst line. split; [exact L1|].
        intros j ch Hj. rewrite (N1 j ch Hj). f_equal. f_equal; lia.
      + destruct (N2 i line Hi) as [A B]. split; [exact A|]. intros j ch Hj. rewrite (B j ch Hj). f_equal. f_equal; lia.
  Qed.
End Any.

(** The text is a faithful picture: one line per row of cells, the topmost first, one character per cell from left to
    right; in exact and in binary64 arithmetic alike, for any map whose cells in the window can be read. *)
Theorem C89_text_shows_the_cells : forall (D : Type) (ops : DOps D) (scale : D) (read : coord -> outcome D) (occ : coord -> D)
    (center : point D) (dl dr du dd : D) (cc tl br : coord),
  world_to_cell scale center = Ok cc -> world_to_cell scale (dl, du) = Ok tl -> world_to_cell scale (dr, dd) = Ok br ->
  (forall c, fst cc - fst tl <= fst c <= fst cc + fst br -> snd cc - snd br <= snd c <= snd cc + snd tl -> read c = Ok (occ c)) ->
  exists text, show_grid_map scale read center dl dr du dd = Ok text /\
    shows (fst cc - fst tl) (fst cc + fst br) (snd cc - snd br) (snd cc + snd tl) (map_char cc occ) text.
Proof.
  intros D ops scale read occ center dl dr du dd cc tl br Hc Ht Hb H.
  destruct (show_rows_ok occ read cc tl br (Z.to_nat (cy tl + cy br + 1)) (cy tl)) as [text [E [L N]]].
  { intros c Hx Hy. apply H; unfold cx, cy in *; lia. }
  exists text. split.
  - unfold show_grid_map. rewrite Hc, Ht, Hb. cbn [bind]. exact E.
  - split; [rewrite L; unfold cy; lia|]. intros i line Hi. destruct (N i line Hi) as [A B].
    split; [rewrite A; unfold cx; lia|]. intros j ch Hj. exact (B j ch Hj).
Qed.
Print Assumptions C89_text_shows_the_cells.

(** Exact arithmetic: every place that was asked for is shown, or lies in the row or column of cells next to those shown. *)
Theorem C89_wanted_part_is_shown_partial : forall (scale : R) (center q : point R) (dl dr du dd : R) (cc tl br cq : coord),
  (0 < scale)%R ->
  world_to_cell scale center = Ok cc -> world_to_cell scale (dl, du) = Ok tl -> world_to_cell scale (dr, dd) = Ok br ->
  world_to_cell scale q = Ok cq -> wanted center dl dr du dd q ->
  fst cc - fst tl - 1 <= fst cq <= fst cc + fst br + 1 /\ snd cc - snd br - 1 <= snd cq <= snd cc + snd tl + 1.
Proof.
  intros s c q dl dr du dd cc tl br cq Hs Hc Ht Hb Hq [[W1 W2] [W3 W4]].
  apply world_to_cell_R_iff in Hc; [|exact Hs]. apply world_to_cell_R_iff in Ht; [|exact Hs].
  apply world_to_cell_R_iff in Hb; [|exact Hs]. apply world_to_cell_R_iff in Hq; [|exact Hs].
  destruct Hc as [_ [_ [[C1 C2] [C3 C4]]]]. destruct Ht as [_ [_ [[T1 T2] [T3 T4]]]].
  destruct Hb as [_ [_ [[B1 B2] [B3 B4]]]]. destruct Hq as [_ [_ [[Q1 Q2] [Q3 Q4]]]]. cbn [fst snd] in *.
  assert (M : forall a b : Z, (s * IZR a < s * IZR b)%R -> a < b).
  { intros a b L. apply lt_IZR. apply Rmult_lt_reg_l with s; assumption. }
  assert (L1 : fst cq < fst cc + fst br + 2) by (apply M; rewrite !plus_IZR; lra).
  assert (L2 : fst cc - fst tl - 1 < fst cq + 1) by (apply M; rewrite !minus_IZR, plus_IZR; lra).
  assert (L3 : snd cq < snd cc + snd tl + 2) by (apply M; rewrite !plus_IZR; lra).
  assert (L4 : snd cc - snd br - 1 < snd cq + 1) by (apply M; rewrite !minus_IZR, plus_IZR; lra).
  lia.
Qed.
Print Assumptions C89_wanted_part_is_shown_partial.

(** When the distances are whole numbers of cells, all that was asked for is shown. *)
Theorem C89_whole_cells_are_shown : forall (scale : R) (center q : point R) (l r u d : Z) (cc tl br cq : coord),
  (0 < scale)%R ->
  let dl := (scale * IZR l)%R in let dr := (scale * IZR r)%R in let du := (scale * IZR u)%R in let dd := (scale * IZR d)%R in
  world_to_cell scale center = Ok cc -> world_to_cell scale (dl, du) = Ok tl -> world_to_cell scale (dr, dd) = Ok br ->
  world_to_cell scale q = Ok cq -> wanted center dl dr du dd q ->
  fst cc - fst tl <= fst cq <= fst cc + fst br /\ snd cc - snd br <= snd cq <= snd cc + snd tl.
Proof.
  intros s c q l r u d cc tl br cq Hs dl dr du dd Hc Ht Hb Hq [[W1 W2] [W3 W4]].
  apply world_to_cell_R_iff in Hc; [|exact Hs]. apply world_to_cell_R_iff in Ht; [|exact Hs].
  apply world_to_cell_R_iff in Hb; [|exact Hs]. apply world_to_cell_R_iff in Hq; [|exact Hs].
  destruct Hc as [_ [_ [[C1 C2] [C3 C4]]]]. destruct Ht as [_ [_ [[T1 T2] [T3 T4]]]].
  destruct Hb as [_ [_ [[B1 B2] [B3 B4]]]]. destruct Hq as [_ [_ [[Q1 Q2] [Q3 Q4]]]]. cbn [fst snd] in *.
  assert (M : forall a b : Z, (s * IZR a < s * IZR b)%R -> a < b).
  { intros a b L. apply lt_IZR. apply Rmult_lt_reg_l with s; assumption. }
  assert (E1 : l < fst tl + 1) by (apply M; rewrite plus_IZR; unfold dl in *; lra).
  assert (E2 : r < fst br + 1) by (apply M; rewrite plus_IZR; unfold dr in *; lra).
  assert (E3 : u < snd tl + 1) by (apply M; rewrite plus_IZR; unfold du in *; lra).
  assert (E4 : d < snd br + 1) by (apply M; rewrite plus_IZR; unfold dd in *; lra).
  assert (L1 : fst cq < fst cc + r + 1) by (apply M; rewrite !plus_IZR; unfold dr in *; lra).
  assert (L2 : fst cc - l < fst cq + 1) by (apply M; rewrite !minus_IZR, plus_IZR; unfold dl in *; lra).
  assert (L3 : snd cq < snd cc + u + 1) by (apply M; rewrite !plus_IZR; unfold du in *; lra).
  assert (L4 : snd cc - d < snd cq + 1) by (apply M; rewrite !minus_IZR, plus_IZR; unfold dd in *; lra).
  lia.
Qed.
Print Assumptions C89_whole_cells_are_shown.

(** Cells of one meter, center (1/2, 1/2), half a meter in every direction: the place half a meter to the right is not
    shown; the text is the single character "C". *)
Theorem C89_wanted_part_is_cut_refuted : forall read : coord -> outcome R,
  (exists v, read (0, 0) = Ok v) ->
  let c := (1 / 2, 1 / 2)%R in let h := (1 / 2)%R in let q := (1, 1 / 2)%R in
  wanted c h h h h q /\ world_to_cell 1%R q = Ok (1, 0) /\
  show_grid_map 1%R read c h h h h = Ok [["C"%char]].
Proof.
  intros read [v Hv] c h q.
  assert (W : forall x y i j, (IZR i <= x < IZR i + 1)%R -> (IZR j <= y < IZR j + 1)%R -> in_int i = true -> in_int j = true ->
              world_to_cell 1%R (x, y) = Ok (i, j)).
  { intros x y i j Hx Hy Hi Hj. apply world_to_cell_R_iff; [lra|]. cbn [fst snd]. repeat split; try assumption; lra. }
  split; [unfold wanted, c, h, q; cbn [fst snd]; lra|].
  split; [apply W; try reflexivity; lra|].
  assert (W0 : world_to_cell 1%R (1 / 2, 1 / 2)%R = Ok (0, 0)) by (apply W; try reflexivity; lra).
  unfold show_grid_map, c, h. rewrite W0. cbn [bind].
  change (show_rows read (0, 0) (0, 0) (0, 0) 0 1 = Ok [["C"%char]]).
  cbn [show_rows]. change (Z.to_nat (cx (0, 0) + cx (0, 0) + 1)) with 1%nat. cbn [show_row].
  change (coord_add (0, 0) (- cx (0, 0), 0)) with (0, 0). rewrite Hv. reflexivity.
Qed.
Print Assumptions C89_wanted_part_is_cut_refuted.

(** A window reaching over the edge of a bounded plain map ends the program. *)
Theorem C89_window_over_the_edge : forall (D : Type) (ops : DOps D) (scale : D) (read : coord -> outcome D) (occ : coord -> D)
    (center : point D) (dl dr du dd : D) (cc tl br c : coord),
  world_to_cell scale center = Ok cc -> world_to_cell scale (dl, du) = Ok tl -> world_to_cell scale (dr, dd) = Ok br ->
  (forall c, read c = Ok (occ c) \/ read c = Abort) -> read c = Abort ->
  fst cc - fst tl <= fst c <= fst cc + fst br -> snd cc - snd br <= snd c <= snd cc + snd tl ->
  show_grid_map scale read center dl dr du dd = Abort.
Proof.
  intros D ops scale read occ center dl dr du dd cc tl br c Hc Ht Hb T Hab Hx Hy.
  unfold show_grid_map. rewrite Hc, Ht, Hb. cbn [bind].
  assert (Rw : forall n dx dy, (exists l, show_row read cc dx dy n = Ok l) \/ show_row read cc dx dy n = Abort).
  { induction n as [|n IH]; intros dx dy; cbn [show_row]; [left; eexists; reflexivity|].
    destruct (T (coord_add cc (dx, dy))) as [E|E]; rewrite E; cbn [bind]; [|right; reflexivity].
    destruct (IH (dx + 1) dy) as [[l El]|El]; rewrite El; cbn [bind]; [left; eexists; reflexivity|right; reflexivity]. }
  assert (Ra : forall n dx, dx <= fst c - fst cc < dx + Z.of_nat n -> show_row read cc dx (snd c - snd cc) n = Abort).
  { induction n as [|n IH]; intros dx Hd; [lia|]. cbn [show_row].
    destruct (Z.eq_dec dx (fst c - fst cc)) as [->|N].
    - replace (coord_add cc (fst c - fst cc, snd c - snd cc)) with c; [rewrite Hab; reflexivity|].
      unfold coord_add, cx, cy. destruct c as [a b]; cbn [fst snd]. f_equal; lia.
    - destruct (T (coord_add cc (dx, snd c - snd cc))) as [E|E]; rewrite E; cbn [bind]; [|reflexivity].
      rewrite IH by lia. reflexivity. }
  assert (Rs : forall n dy, dy - Z.of_nat n < snd c - snd cc <= dy -> show_rows read cc tl br dy n = Abort).
  { induction n as [|n IH]; intros dy Hd; [lia|]. cbn [show_rows].
    destruct (Z.eq_dec dy (snd c - snd cc)) as [->|N].
    - rewrite Ra by (unfold cx in *; lia). reflexivity.
    - destruct (Rw (Z.to_nat (cx tl + cx br + 1)) (- cx tl) dy) as [[l E]|E]; rewrite E; cbn [bind]; [|reflexivity].
      rewrite IH by lia. reflexivity. }
  apply Rs. unfold cy in *. lia.
Qed.
Print Assumptions C89_window_over_the_edge.

(** A case: cells of 1/10 m, a window of 0.2 m to the left, 0.1 m to the right, 0.1 m up and 0 down: two lines of four
    characters, in binary64. *)
Example C89_case :
  let read (c : coord) : outcome F64 :=
    Ok (if coord_eqb c (-1, 1) then dofZ 1 else if coord_eqb c (1, 0) then dofZ 0 else dlit 1 2) in
  show_grid_map (dlit 1 10) read (dlit 1 100, dlit 1 100) (dlit 2 10) (dlit 1 10) (dlit 1 10) (dofZ 0) =
  Ok [["~"; "#"; "~"; "~"]; ["~"; "~"; "C"; "."]]%char.
Proof. vm_compute. reflexivity. Qed.
