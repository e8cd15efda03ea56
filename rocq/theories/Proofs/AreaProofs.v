(** Area occupancy estimator: the computed chunk is the area cut off by the line. *)
From Coq Require Import Reals ZArith List Bool Lra Lia.
From Coquelicot Require Import Coquelicot.
From Verif.Base Require Import Outcome Num.
From Verif.Model Require Import MathUtils Geometry Cells AreaEstimator.
From Verif.Spec Require Import AreaSpec.
From Verif.Proofs Require Import CompareProofs.
Import ListNotations.
Local Open Scope R_scope.

(** ** the integral of a clamped linear function *)
Definition clampf (H m k x : R) : R := Rmin H (Rmax 0 (m * x + k)).
Lemma is_RInt_lin m k a b : is_RInt (fun x => m * x + k) a b ((b - a) * ((m * a + k) + (m * b + k)) / 2).
Proof.
  assert (I : is_RInt (fun x => m * x + k) a b ((m * b * b / 2 + k * b) - (m * a * a / 2 + k * a))).
  { apply (is_RInt_derive (fun x => m * x * x / 2 + k * x)).
    - intros x _. auto_derive; [trivial|]. field.
    - intros x _. apply (ex_derive_continuous (fun x => m * x + k)). auto_derive. trivial. }
  replace ((b - a) * (m * a + k + (m * b + k)) / 2) with ((m * b * b / 2 + k * b) - (m * a * a / 2 + k * a)) by field.
  exact I.
Qed.
Lemma convex_between m k a b x : a <= x <= b ->
  (Rmin (m * a + k) (m * b + k) <= m * x + k <= Rmax (m * a + k) (m * b + k)).
Proof.
  intros Hx. destruct (Rle_or_lt 0 m).
  - assert (m * a <= m * x) by nra. assert (m * x <= m * b) by nra.
    split; [eapply Rle_trans; [apply Rmin_l|lra]|eapply Rle_trans; [|apply Rmax_r]; lra].
  - assert (m * x <= m * a) by nra. assert (m * b <= m * x) by nra.
    split; [eapply Rle_trans; [apply Rmin_r|lra]|eapply Rle_trans; [|apply Rmax_l]; lra].
Qed.
Lemma piece_lin H m k a b : a <= b -> 0 <= m * a + k <= H -> 0 <= m * b + k <= H ->
  is_RInt (clampf H m k) a b ((b - a) * ((m * a + k) + (m * b + k)) / 2).
Proof.
  intros L Ha Hb. apply is_RInt_ext with (fun x => m * x + k); [|apply is_RInt_lin].
  intros x. rewrite Rmin_left, Rmax_right by lra. intros Hx. unfold clampf.
  destruct (convex_between m k a b x) as [U V]; [lra|].
  assert (0 <= m * x + k) by (eapply Rle_trans; [|exact U]; apply Rmin_glb; lra).
  assert (m * x + k <= H) by (eapply Rle_trans; [exact V|]; apply Rmax_lub; lra).
  rewrite Rmax_right, Rmin_right; lra.
Qed.
Lemma piece_lo H m k a b : a <= b -> 0 <= H -> m * a + k <= 0 -> m * b + k <= 0 -> is_RInt (clampf H m k) a b 0.
Proof.
  intros L HH Ha Hb. apply is_RInt_ext with (fun _ => 0).
  - intros x. rewrite Rmin_left, Rmax_right by lra. intros Hx. unfold clampf.
    destruct (convex_between m k a b x) as [_ V]; [lra|].
    assert (m * x + k <= 0) by (eapply Rle_trans; [exact V|]; apply Rmax_lub; lra).
    rewrite Rmax_left, Rmin_right; lra.
  - refine (eq_ind _ (fun z : R => is_RInt (fun _ : R => 0) a b z) (is_RInt_const a b (0 : R)) _ _).
    unfold scal; cbn; unfold mult; cbn; ring.
Qed.
Lemma piece_hi H m k a b : a <= b -> 0 <= H -> H <= m * a + k -> H <= m * b + k -> is_RInt (clampf H m k) a b ((b - a) * H).
Proof.
  intros L HH Ha Hb. apply is_RInt_ext with (fun _ => H).
  - intros x. rewrite Rmin_left, Rmax_right by lra. intros Hx. unfold clampf.
    destruct (convex_between m k a b x) as [U _]; [lra|].
    assert (H <= m * x + k) by (eapply Rle_trans; [|exact U]; apply Rmin_glb; lra).
    rewrite Rmax_right, Rmin_left; lra.
  - apply (is_RInt_const a b H).
Qed.
Lemma below_clamp c m k A : is_RInt (clampf (height c) m (k - bot c)) (left c) (right c) A -> area_below c m k = A.
Proof.
  intros H. unfold area_below. apply is_RInt_unique. eapply is_RInt_ext; [|exact H].
  intros x _. unfold clampf. now replace (m * x + (k - bot c)) with (m * x + k - bot c) by ring.
Qed.

(** ** the two points where a line crosses the border of a cell *)
Definition on_edge (c : rect R) (i : inter R) : Prop :=
  match i_loc i with
  | LocTop => pty (i_pt i) = top c /\ left c <= ptx (i_pt i) <= right c
  | LocBot => pty (i_pt i) = bot c /\ left c <= ptx (i_pt i) <= right c
  | LocLeft => ptx (i_pt i) = left c /\ bot c <= pty (i_pt i) <= top c
  | LocRight => ptx (i_pt i) = right c /\ bot c <= pty (i_pt i) <= top c
  end.
Definition the_corner (c : rect R) (i j : inter R) : point R :=
  if xorb (i_is_horiz i) (i_is_horiz j) then set_corner c (set_corner c (0, 0) i) j else (left c, bot c).
Definition chunk (c : rect R) (i j : inter R) : R :=
  if xorb (i_is_horiz i) (i_is_horiz j)
  then 1 / 2 * edge_dist (the_corner c i j) i * edge_dist (the_corner c i j) j
  else 1 / 2 * (top c - bot c) * (0 + edge_dist (the_corner c i j) i + edge_dist (the_corner c i j) j).

Lemma chasles3 f a b c d I J K : is_RInt f a b I -> is_RInt f b c J -> is_RInt f c d K -> is_RInt f a d (I + J + K).
Proof. intros A B C. apply (is_RInt_Chasles f a c d (I + J) K); [apply (is_RInt_Chasles f a b c I J)|]; assumption. Qed.
Lemma chasles2 f a b c I J : is_RInt f a b I -> is_RInt f b c J -> is_RInt f a c (I + J).
Proof. intros A B. apply (is_RInt_Chasles f a b c I J); assumption. Qed.

(** which side of the line y = m x + k the chosen corner lies on, and the chunk's area *)
Definition side_rel (c : rect R) (m k : R) (v : point R) (A : R) : Prop :=
  (pty v <= m * ptx v + k /\ A = area_below c m k) \/ (m * ptx v + k <= pty v /\ A = full_area c - area_below c m k).

Section Cuts.
  Variables b t l r m k : R.
  Hypothesis W : l < r.
  Hypothesis H : b < t.
  Notation c := (mkRect b t l r).
  Ltac start v := rewrite (below_clamp c m k v); [try (replace (m * l + (k - b)) with (m * l + k - b) by ring)|cbn; unfold height; cbn].
  Lemma cut_BL x y : b = m * x + k -> y = m * l + k -> l <= x <= r -> b <= y <= t -> (l = x -> b <> y) ->
    area_below c m k = (x - l) * (y - b) / 2.
  Proof using W H.
    intros Ex Ey Hx Hy N. assert (L : l < x) by (destruct (Req_dec l x) as [Q|Q]; [exfalso; apply (N Q); rewrite Ex, Ey, Q; reflexivity|lra]). assert (m <= 0) by nra.
    rewrite (below_clamp c m k ((x - l) * (m * l + (k - b) + (m * x + (k - b))) / 2 + 0)).
    - replace (m * l + (k - b)) with (y - b) by lra. replace (m * x + (k - b)) with 0 by lra. field.
    - cbn. unfold height; cbn. apply (chasles2 _ l x r); [apply piece_lin; lra|apply piece_lo; try lra; nra].
  Qed.
  Lemma cut_BR x y : b = m * x + k -> y = m * r + k -> l <= x <= r -> b <= y <= t -> (r = x -> b <> y) ->
    area_below c m k = (r - x) * (y - b) / 2.
  Proof using W H.
    intros Ex Ey Hx Hy N. assert (L : x < r) by (destruct (Req_dec r x) as [Q|Q]; [exfalso; apply (N Q); rewrite Ex, Ey, Q; reflexivity|lra]). assert (0 <= m) by nra.
    rewrite (below_clamp c m k (0 + (r - x) * (m * x + (k - b) + (m * r + (k - b))) / 2)).
    - replace (m * r + (k - b)) with (y - b) by lra. replace (m * x + (k - b)) with 0 by lra. field.
    - cbn. unfold height; cbn. apply (chasles2 _ l x r); [apply piece_lo; try lra; nra|apply piece_lin; lra].
  Qed.
  Lemma cut_TL x y : t = m * x + k -> y = m * l + k -> l <= x <= r -> b <= y <= t -> (l = x -> t <> y) ->
    area_below c m k = full_area c - (x - l) * (t - y) / 2.
  Proof using W H.
    intros Ex Ey Hx Hy N. assert (L : l < x) by (destruct (Req_dec l x) as [Q|Q]; [exfalso; apply (N Q); rewrite Ex, Ey, Q; reflexivity|lra]). assert (0 <= m) by nra.
    rewrite (below_clamp c m k ((x - l) * (m * l + (k - b) + (m * x + (k - b))) / 2 + (r - x) * (t - b))).
    - replace (m * l + (k - b)) with (y - b) by lra. replace (m * x + (k - b)) with (t - b) by lra.
      unfold full_area, width, height; cbn. field.
    - cbn. unfold height; cbn. apply (chasles2 _ l x r); [apply piece_lin; lra|apply piece_hi; try lra; nra].
  Qed.
  Lemma cut_TR x y : t = m * x + k -> y = m * r + k -> l <= x <= r -> b <= y <= t -> (r = x -> t <> y) ->
    area_below c m k = full_area c - (r - x) * (t - y) / 2.
  Proof using W H.
    intros Ex Ey Hx Hy N. assert (L : x < r) by (destruct (Req_dec r x) as [Q|Q]; [exfalso; apply (N Q); rewrite Ex, Ey, Q; reflexivity|lra]). assert (m <= 0) by nra.
    rewrite (below_clamp c m k ((x - l) * (t - b) + (r - x) * (m * x + (k - b) + (m * r + (k - b))) / 2)).
    - replace (m * r + (k - b)) with (y - b) by lra. replace (m * x + (k - b)) with (t - b) by lra.
      unfold full_area, width, height; cbn. field.
    - cbn. unfold height; cbn. apply (chasles2 _ l x r); [apply piece_hi; try lra; nra|apply piece_lin; lra].
  Qed.
  Lemma cut_LR y z : y = m * l + k -> z = m * r + k -> b <= y <= t -> b <= z <= t ->
    area_below c m k = (r - l) * ((y - b) + (z - b)) / 2.
  Proof using W H.
    intros Ey Ez Hy Hz. rewrite (below_clamp c m k ((r - l) * (m * l + (k - b) + (m * r + (k - b))) / 2)).
    - replace (m * l + (k - b)) with (y - b) by lra. replace (m * r + (k - b)) with (z - b) by lra. reflexivity.
    - cbn. unfold height; cbn. apply piece_lin; lra.
  Qed.
  Lemma cut_BT x x' : b = m * x + k -> t = m * x' + k -> l <= x <= r -> l <= x' <= r ->
    (x < x' /\ area_below c m k = (t - b) * (r - (x + x') / 2) /\ 0 < m) \/
    (x' < x /\ area_below c m k = (t - b) * ((x + x') / 2 - l) /\ m < 0).
  Proof using W H.
    intros Ex Ex' Hx Hx'. destruct (Rtotal_order x x') as [L|[L|L]]; [left|subst; lra|right].
    - assert (0 < m) by nra. split; [exact L|]. split; [|assumption].
      rewrite (below_clamp c m k (0 + (x' - x) * (m * x + (k - b) + (m * x' + (k - b))) / 2 + (r - x') * (t - b))).
      + replace (m * x + (k - b)) with 0 by lra. replace (m * x' + (k - b)) with (t - b) by lra. field.
      + cbn. unfold height; cbn. apply (chasles3 _ l x x' r); [apply piece_lo; try lra; nra|apply piece_lin; lra|apply piece_hi; try lra; nra].
    - assert (m < 0) by nra. split; [exact L|]. split; [|assumption].
      rewrite (below_clamp c m k ((x' - l) * (t - b) + (x - x') * (m * x' + (k - b) + (m * x + (k - b))) / 2 + 0)).
      + replace (m * x + (k - b)) with 0 by lra. replace (m * x' + (k - b)) with (t - b) by lra. field.
      + cbn. unfold height; cbn. apply (chasles3 _ l x' x r); [apply piece_hi; try lra; nra|apply piece_lin; lra|apply piece_lo; try lra; nra].
  Qed.
End Cuts.

Lemma chunk_below c m k i j : square_cell c -> on_edge c i -> on_edge c j -> i_loc i <> i_loc j -> i_pt i <> i_pt j ->
  pty (i_pt i) = m * ptx (i_pt i) + k -> pty (i_pt j) = m * ptx (i_pt j) + k ->
  side_rel c m k (the_corner c i j) (chunk c i j).
Proof.
  intros [W E] Hi Hj Hl Hp Li Lj. destruct i as [li [xi yi]], j as [lj [xj yj]], c as [b t l r].
  unfold on_edge, side_rel, chunk, the_corner, edge_dist, set_corner, i_is_horiz, width, height, ptx, pty in *.
  cbn [i_loc i_pt fst snd bot top left right dabs dsub ROps] in *.
  assert (NE : xi = xj -> yi <> yj) by (intros -> ->; now apply Hp). clear Hp.
  assert (W1 : l < r) by lra. assert (H1 : b < t) by lra.
  destruct li, lj; try now destruct Hl.
  all: cbn [xorb fst snd] in *; destruct Hi as [Ei Hi], Hj as [Ej Hj]; clear Hl.
  all: revert Li Lj; match type of Ei with ?v = _ => subst v end; match type of Ej with ?v = _ => subst v end; intros Li Lj.
  Ltac fin0 := first [assumption | lra
    | solve [match goal with N : _ = _ -> _ <> _ |- _ => let q := fresh in let z := fresh in intros q z; apply N; lra end]].
  Ltac fin1 := unfold full_area, width, height; cbn;
    repeat match goal with |- context[Rabs ?e] => first [rewrite (Rabs_pos_eq e) by lra | rewrite (Rabs_left1 e) by lra] end; field.
  - (* B L *) left. split; [lra|]. rewrite (cut_BL b t l r m k W1 H1 xi yj) by fin0. fin1.
  - (* B T *) destruct (cut_BT b t l r m k W1 H1 xi xj) as [(L & A & M)|(L & A & M)]; try fin0.
    + right. split; [nra|]. rewrite A. fin1.
    + left. split; [nra|]. rewrite A. fin1.
  - (* B R *) left. split; [lra|]. rewrite (cut_BR b t l r m k W1 H1 xi yj) by fin0. fin1.
  - (* L B *) left. split; [lra|]. rewrite (cut_BL b t l r m k W1 H1 xj yi) by fin0. fin1.
  - (* L T *) right. split; [lra|]. rewrite (cut_TL b t l r m k W1 H1 xj yi) by fin0. fin1.
  - (* L R *) left. split; [lra|]. rewrite (cut_LR b t l r m k W1 H1 yi yj) by fin0. replace (r - l) with (t - b) by lra. fin1.
  - (* T B *) destruct (cut_BT b t l r m k W1 H1 xj xi) as [(L & A & M)|(L & A & M)]; try fin0.
    + right. split; [nra|]. rewrite A. fin1.
    + left. split; [nra|]. rewrite A. fin1.
  - (* T L *) right. split; [lra|]. rewrite (cut_TL b t l r m k W1 H1 xi yj) by fin0. fin1.
  - (* T R *) right. split; [lra|]. rewrite (cut_TR b t l r m k W1 H1 xi yj) by fin0. fin1.
  - (* R B *) left. split; [lra|]. rewrite (cut_BR b t l r m k W1 H1 xj yi) by fin0. fin1.
  - (* R L *) left. split; [lra|]. rewrite (cut_LR b t l r m k W1 H1 yj yi) by fin0. replace (r - l) with (t - b) by lra. fin1.
  - (* R T *) right. split; [lra|]. rewrite (cut_TR b t l r m k W1 H1 xj yi) by fin0. fin1.
Qed.

(** ** the same with x and y exchanged *)
Definition mirror (c : rect R) : rect R := mkRect (left c) (right c) (bot c) (top c).
Definition flip (p : point R) : point R := (pty p, ptx p).
Definition mirror_i (i : inter R) : inter R :=
  mkInter (match i_loc i with LocBot => LocLeft | LocLeft => LocBot | LocTop => LocRight | LocRight => LocTop end) (flip (i_pt i)).
Definition side_rel_left (c : rect R) (m k : R) (v : point R) (A : R) : Prop :=
  (ptx v <= m * pty v + k /\ A = area_left c m k) \/ (m * pty v + k <= ptx v /\ A = full_area c - area_left c m k).
Lemma chunk_left c m k i j : square_cell c -> on_edge c i -> on_edge c j -> i_loc i <> i_loc j -> i_pt i <> i_pt j ->
  ptx (i_pt i) = m * pty (i_pt i) + k -> ptx (i_pt j) = m * pty (i_pt j) + k ->
  side_rel_left c m k (the_corner c i j) (chunk c i j).
Proof.
  intros SQ Hi Hj Hl Hp Li Lj.
  assert (M : side_rel (mirror c) m k (the_corner (mirror c) (mirror_i i) (mirror_i j)) (chunk (mirror c) (mirror_i i) (mirror_i j))).
  { apply chunk_below.
    - unfold square_cell, width, height, mirror in *; cbn. lra.
    - unfold on_edge, mirror_i, mirror, flip in *. destruct (i_loc i); cbn; exact Hi.
    - unfold on_edge, mirror_i, mirror, flip in *. destruct (i_loc j); cbn; exact Hj.
    - unfold mirror_i. destruct (i_loc i), (i_loc j); cbn; congruence.
    - unfold mirror_i, flip. cbn. intros Q. apply Hp. destruct (i_pt i), (i_pt j). cbn in *. congruence.
    - exact Li.
    - exact Lj. }
  assert (C : the_corner (mirror c) (mirror_i i) (mirror_i j) = flip (the_corner c i j)).
  { unfold the_corner, i_is_horiz, set_corner, mirror_i, mirror, flip. destruct (i_loc i), (i_loc j); cbn; congruence. }
  assert (K : chunk (mirror c) (mirror_i i) (mirror_i j) = chunk c i j).
  { unfold chunk. rewrite C. unfold i_is_horiz, mirror_i, edge_dist, mirror, flip. destruct SQ as [_ SQ]. unfold width, height in SQ.
    destruct (i_loc i) eqn:A, (i_loc j) eqn:B; unfold i_is_horiz; cbn; rewrite ?A, ?B; cbn; rewrite ?SQ; try ring. }
  rewrite C, K in M. unfold side_rel in M. unfold side_rel_left.
  replace (full_area c) with (full_area (mirror c)) by (unfold full_area, width, height, mirror; cbn; ring). exact M.
Qed.

(** ** the intersections found by the code *)
Definition on_ray (r : ray R) (p : point R) : Prop :=
  exists s, ptx p = ptx (r_beg r) + s * ptx (r_delta r) /\ pty p = pty (r_beg r) + s * pty (r_delta r).
Lemma R_are_equal_refl (a : R) : are_equal a a = true.
Proof. apply R_are_equal. rewrite Rminus_diag_eq, Rabs_R0 by reflexivity. assert (T := tol_pos a a). lra. Qed.
Lemma R_not_equal (a b : R) : are_equal a b = false -> a <> b.
Proof. intros H ->. now rewrite R_are_equal_refl in H. Qed.
Definition resolved (c : rect R) : Prop := are_equal (bot c) (top c) = false.

Lemma horiz_spec c r y loc : (loc = LocTop /\ y = top c) \/ (loc = LocBot /\ y = bot c) ->
  forall i, In i (intersect_horiz r (left c) (right c) y loc) -> i_loc i = loc /\ on_edge c i /\ on_ray r (i_pt i).
Proof.
  intros HL i. unfold intersect_horiz. destruct (are_equal (pty (r_delta r)) (dofZ 0)) eqn:E; [intros []|].
  apply R_not_equal in E. cbn [dofZ ROps] in E. destruct (_ || _) eqn:B; [intros []|]. intros [<-|[]].
  apply orb_false_iff in B as [B1 B2]. cbn [dlt ROps] in B1, B2. apply R_lt_false in B1, B2. cbn [i_loc i_pt].
  split; [reflexivity|]. split.
  - unfold on_edge; cbn [i_loc i_pt ptx pty fst snd]. destruct HL as [[-> ->]|[-> ->]]; cbn in *; split; auto; lra.
  - eexists. split; [reflexivity|]. cbn [ptx pty fst snd]. cbn. field. exact E.
Qed.
Lemma vert_spec c r x loc : (loc = LocLeft /\ x = left c) \/ (loc = LocRight /\ x = right c) ->
  forall i, In i (intersect_vert r (bot c) (top c) x loc) -> i_loc i = loc /\ on_edge c i /\ on_ray r (i_pt i).
Proof.
  intros HL i. unfold intersect_vert. destruct (are_equal (ptx (r_delta r)) (dofZ 0)) eqn:E; [intros []|].
  apply R_not_equal in E. cbn [dofZ ROps] in E. destruct (_ || _) eqn:B; [intros []|]. intros [<-|[]].
  apply orb_false_iff in B as [B1 B2]. cbn [dlt ROps] in B1, B2. apply R_lt_false in B1, B2. cbn [i_loc i_pt].
  split; [reflexivity|]. split.
  - unfold on_edge; cbn [i_loc i_pt ptx pty fst snd]. destruct HL as [[-> ->]|[-> ->]]; cbn in *; split; auto; lra.
  - eexists. split; [|reflexivity]. cbn [ptx pty fst snd]. cbn. field. exact E.
Qed.
Lemma horiz_short (r : ray R) a b y loc : intersect_horiz r a b y loc = [] \/ exists i, intersect_horiz r a b y loc = [i].
Proof. unfold intersect_horiz. destruct are_equal; [auto|]. destruct (_ || _); eauto. Qed.
Lemma vert_short (r : ray R) a b y loc : intersect_vert r a b y loc = [] \/ exists i, intersect_vert r a b y loc = [i].
Proof. unfold intersect_vert. destruct are_equal; [auto|]. destruct (_ || _); eauto. Qed.

Lemma ray_two c r i j : resolved c -> ray_intersections c r = Ok [i; j] ->
  (on_edge c i /\ on_ray r (i_pt i)) /\ (on_edge c j /\ on_ray r (i_pt j)) /\ i_loc i <> i_loc j /\ i_pt i <> i_pt j.
Proof.
  unfold resolved, ray_intersections, ray_intersect, seg_is_horiz, seg_is_vert, top_edge, bot_edge, left_edge, right_edge. intros RS.
  cbn [sbeg send ptx pty fst snd]. rewrite !R_are_equal_refl, RS. cbn [bind].
  assert (HT := horiz_spec c r (top c) LocTop ltac:(auto)). assert (HB := horiz_spec c r (bot c) LocBot ltac:(auto)).
  assert (HL := vert_spec c r (left c) LocLeft ltac:(auto)). assert (HR := vert_spec c r (right c) LocRight ltac:(auto)).
  assert (PE : forall p q : point R, point_eqb p q = false -> p <> q).
  { intros p q H ->. unfold point_eqb in H. now rewrite !R_are_equal_refl in H. }
  destruct (horiz_short r (left c) (right c) (top c) LocTop) as [E1|[x1 E1]];
  destruct (vert_short r (bot c) (top c) (left c) LocLeft) as [E2|[x2 E2]];
  destruct (horiz_short r (left c) (right c) (bot c) LocBot) as [E3|[x3 E3]];
  destruct (vert_short r (bot c) (top c) (right c) LocRight) as [E4|[x4 E4]];
  rewrite E1, E2, E3, E4 in *; clear E1 E2 E3 E4;
  try destruct (HT x1 (or_introl eq_refl)) as (T1 & T2 & T3);
  try destruct (HL x2 (or_introl eq_refl)) as (L1 & L2 & L3);
  try destruct (HB x3 (or_introl eq_refl)) as (B1 & B2 & B3);
  try destruct (HR x4 (or_introl eq_refl)) as (R1 & R2 & R3);
  clear HT HL HB HR; cbn;
  repeat (match goal with |- context[point_eqb ?a ?b] => destruct (point_eqb a b) eqn:? end; cbn);
  intros Q; try discriminate Q; injection Q as <- <-;
  (split; [auto|split; [auto|split; [congruence|apply PE; assumption]]]).
Qed.

(** ** what a pair of crossings yields *)
Lemma line_through (c : rect R) (p q i : point R) m k : ptx p <> ptx q -> pty p = m * ptx p + k -> pty q = m * ptx q + k ->
  on_ray (ray_of (mkSegment p q)) i -> pty i = m * ptx i + k.
Proof.
  intros N Ep Eq_ (s & Ex & Ey). unfold ray_of in *. cbn [r_beg r_delta sbeg send ptx pty fst snd dsub ROps] in *.
  unfold ptx, pty in *. rewrite Ex, Ey, Ep, Eq_. ring.
Qed.
Lemma line_through' (c : rect R) (p q i : point R) m k : pty p <> pty q -> ptx p = m * pty p + k -> ptx q = m * pty q + k ->
  on_ray (ray_of (mkSegment p q)) i -> ptx i = m * pty i + k.
Proof.
  intros N Ep Eq_ (s & Ex & Ey). unfold ray_of in *. cbn [r_beg r_delta sbeg send ptx pty fst snd dsub ROps] in *.
  unfold ptx, pty in *. rewrite Ex, Ey, Ep, Eq_. ring.
Qed.
Lemma two_chunk c p q i j A : square_cell c -> resolved c -> ray_intersections c (ray_of (mkSegment p q)) = Ok [i; j] ->
  cut_area c p q A -> chunk c i j = A \/ chunk c i j = full_area c - A.
Proof.
  intros SQ RS H C. apply ray_two in H as ((Ei & Ri) & (Ej & Rj) & NL & NP); [|exact RS].
  destruct C as [(m & k & Ep & Eq_ & N & ->)|(m & k & Ep & Eq_ & N & ->)].
  - destruct (chunk_below c m k i j) as [[_ X]|[_ X]]; eauto using line_through.
  - destruct (chunk_left c m k i j) as [[_ X]|[_ X]]; eauto using line_through'.
Qed.
(** the chunk is never larger than the cell *)
Lemma chunk_bounds c i j : square_cell c -> on_edge c i -> on_edge c j -> 0 <= chunk c i j <= full_area c.
Proof.
  intros [W E] Hi Hj. destruct i as [li [xi yi]], j as [lj [xj yj]], c as [b t l r].
  unfold on_edge, chunk, the_corner, edge_dist, set_corner, i_is_horiz, full_area, width, height, ptx, pty in *.
  cbn [i_loc i_pt fst snd bot top left right dabs dsub ROps] in *.
  destruct li, lj; cbn [xorb fst snd] in *; destruct Hi as [Ei Hi], Hj as [Ej Hj];
  repeat match goal with |- context[Rabs ?e] => first [rewrite (Rabs_pos_eq e) by lra | rewrite (Rabs_left1 e) by lra] end;
  (split; nra).
Qed.
Lemma R_area (c : rect R) : rect_area c = full_area c.
Proof. unfold rect_area, full_area, vside_len, hside_len, width, height. cbn. ring. Qed.
Lemma compute_two beam c occ i j : square_cell c -> on_edge c i -> on_edge c j ->
  compute_chunk_area beam c occ [i; j] =
  Ok (if occ && on_same_side (i_pt i) (i_pt j) (sbeg beam) (the_corner c i j) then full_area c - chunk c i j else chunk c i j).
Proof.
  intros SQ Hi Hj. assert (B := chunk_bounds c i j SQ Hi Hj). unfold compute_chunk_area.
  change (if xorb (i_is_horiz i) (i_is_horiz j) then set_corner c (set_corner c (dofZ 0, dofZ 0) i) j else (left c, bot c))
    with (the_corner c i j).
  assert (Q : (if xorb (i_is_horiz i) (i_is_horiz j)
          then dmul (dmul dhalf (edge_dist (the_corner c i j) i)) (edge_dist (the_corner c i j) j)
          else dmul (dmul dhalf (dsub (top c) (bot c))) (dadd (dadd (dofZ 0) (edge_dist (the_corner c i j) i)) (edge_dist (the_corner c i j) j)))
       = chunk c i j) by reflexivity.
  cbv zeta. rewrite Q, R_area. cbn [dle ROps dofZ].
  replace (R_le 0 (chunk c i j)) with true by (symmetry; apply R_le_true; lra).
  replace (R_le (chunk c i j) (full_area c)) with true by (symmetry; apply R_le_true; lra). reflexivity.
Qed.

(** ** empty cells *)
Lemma not_contained_no_edge (c : rect R) p : resolved c -> rect_contains c (ptx p) (pty p) = false -> 0 < width c -> 0 < height c ->
  on_some_edge c p = Ok false.
Proof.
  unfold resolved, on_some_edge, some_contains, seg_contains, seg_is_horiz, seg_is_vert, top_edge, bot_edge, left_edge, right_edge, rect_contains, width, height.
  intros RS NC W H. cbn [sbeg send ptx pty fst snd]. rewrite !R_are_equal_refl, RS. cbn [bind].
  assert (LE : forall a b : R, a <= b -> less_or_equal a b = true).
  { intros a b L. apply R_less_or_equal. assert (T := tol_pos a b). lra. }
  assert (EQ1 : forall a b : R, are_equal a b = true -> less_or_equal a b = true).
  { intros a b E. unfold less_or_equal. now rewrite E. }
  assert (SY : forall a b : R, are_equal a b = are_equal b a).
  { intros a b. destruct (are_equal b a) eqn:E; [apply R_are_equal in E; apply R_are_equal; rewrite Rabs_minus_sym, tol_sym; exact E|].
    apply not_true_is_false. intros C. apply R_are_equal in C. rewrite Rabs_minus_sym, tol_sym in C. apply R_are_equal in C. congruence. }
  assert (LT : forall a b d : R, are_equal a b = true -> b < d -> less_or_equal a d = true).
  { intros a b d E L. apply R_less_or_equal. apply R_are_equal in E.
    assert (T := tol_pos a d). assert (a - b <= tol a b) by (eapply Rle_trans; [apply Rle_abs|exact E]).
    unfold tol in *. revert H0. unfold Rmax, Rabs. repeat destruct Rle_dec; repeat destruct Rcase_abs; lra. }
  assert (GT : forall a b d : R, are_equal a b = true -> d < b -> less_or_equal d a = true).
  { intros a b d E L. apply R_less_or_equal. apply R_are_equal in E. rewrite Rabs_minus_sym in E.
    assert (T := tol_pos d a). assert (b - a <= tol a b) by (eapply Rle_trans; [apply Rle_abs|exact E]).
    unfold tol in *. revert H0. unfold Rmax, Rabs. repeat destruct Rle_dec; repeat destruct Rcase_abs; lra. }
  unfold are_ordered in *. unfold ptx, pty in *.
  assert (NB : forall b : bool, (b = true -> False) -> b = false) by (intros []; auto; tauto).
  assert (K : are_equal (snd p) (bot c) && (less_or_equal (left c) (fst p) && less_or_equal (fst p) (right c)) = false).
  { apply NB. intros X. apply andb_true_iff in X as [X Y]. rewrite Y in NC.
    rewrite (EQ1 (bot c) (snd p)), (LT (snd p) (bot c) (top c)) in NC; [discriminate|exact X|lra|now rewrite SY]. }
  rewrite K. clear K.
  assert (K : are_equal (snd p) (top c) && (less_or_equal (left c) (fst p) && less_or_equal (fst p) (right c)) = false).
  { apply NB. intros X. apply andb_true_iff in X as [X Y]. rewrite Y in NC.
    rewrite (GT (snd p) (top c) (bot c)), (EQ1 (snd p) (top c)) in NC; [discriminate|exact X|exact X|lra]. }
  rewrite K. clear K.
  assert (K : are_equal (fst p) (left c) && (less_or_equal (bot c) (snd p) && less_or_equal (snd p) (top c)) = false).
  { apply NB. intros X. apply andb_true_iff in X as [X Y]. rewrite Y in NC.
    rewrite (EQ1 (left c) (fst p)), (LT (fst p) (left c) (right c)) in NC; [discriminate|exact X|lra|now rewrite SY]. }
  rewrite K. clear K.
  assert (K : are_equal (fst p) (right c) && (less_or_equal (bot c) (snd p) && less_or_equal (snd p) (top c)) = false).
  { apply NB. intros X. apply andb_true_iff in X as [X Y]. rewrite Y in NC.
    rewrite (GT (fst p) (right c) (left c)), (EQ1 (fst p) (right c)) in NC; [discriminate|exact X|exact X|lra]. }
  rewrite K. reflexivity.
Qed.

Definition edge_value (c : rect R) (p : point R) : bool :=
  match on_some_edge c p with Ok b => b | _ => false end.
Lemma on_edge_total (c : rect R) p : resolved c -> on_some_edge c p = Ok (edge_value c p).
Proof.
  unfold resolved, edge_value, on_some_edge, some_contains, seg_contains, seg_is_horiz, seg_is_vert, top_edge, bot_edge, left_edge, right_edge.
  intros RS. cbn [sbeg send ptx pty fst snd]. rewrite !R_are_equal_refl, RS. cbn [bind].
  repeat (match goal with |- context[if ?b && ?d then _ else _] => destruct (b && d) end; [reflexivity|]). reflexivity.
Qed.

(** ** a line meets the border of a cell in at most two points *)
Definition raw (c : rect R) (r : ray R) : list (inter R) :=
  intersect_horiz r (left c) (right c) (top c) LocTop ++ intersect_vert r (bot c) (top c) (left c) LocLeft ++
  intersect_horiz r (left c) (right c) (bot c) LocBot ++ intersect_vert r (bot c) (top c) (right c) LocRight.
Lemma same_param_x (r : ray R) p q : ptx (r_delta r) <> 0 -> on_ray r p -> on_ray r q -> ptx p = ptx q -> p = q.
Proof.
  intros N (s & Ex & Ey) (u & Fx & Fy) E. assert (s = u).
  { rewrite Ex, Fx in E. apply (Rmult_eq_reg_r (ptx (r_delta r))); [lra|exact N]. }
  subst u. destruct p, q. unfold ptx, pty in *. cbn in *. congruence.
Qed.
Lemma same_param_y (r : ray R) p q : pty (r_delta r) <> 0 -> on_ray r p -> on_ray r q -> pty p = pty q -> p = q.
Proof.
  intros N (s & Ex & Ey) (u & Fx & Fy) E. assert (s = u).
  { rewrite Ey, Fy in E. apply (Rmult_eq_reg_r (pty (r_delta r))); [lra|exact N]. }
  subst u. destruct p, q. unfold ptx, pty in *. cbn in *. congruence.
Qed.
Lemma collinear r p q v : on_ray r p -> on_ray r q -> on_ray r v ->
  (ptx p - ptx q) * (pty v - pty q) = (ptx v - ptx q) * (pty p - pty q).
Proof. intros (s & Ex & Ey) (u & Fx & Fy) (w & Gx & Gy). rewrite Ex, Ey, Fx, Fy, Gx, Gy. ring. Qed.
Lemma zero_prods a b : a <= 0 -> 0 <= b -> a = b -> a = 0 /\ b = 0.
Proof. lra. Qed.
Lemma horiz_delta (r : ray R) a b y loc i : In i (intersect_horiz r a b y loc) -> pty (r_delta r) <> 0.
Proof. unfold intersect_horiz. destruct are_equal eqn:E; [intros []|]. intros _. now apply R_not_equal in E. Qed.
Lemma vert_delta (r : ray R) a b y loc i : In i (intersect_vert r a b y loc) -> ptx (r_delta r) <> 0.
Proof. unfold intersect_vert. destruct are_equal eqn:E; [intros []|]. intros _. now apply R_not_equal in E. Qed.

Lemma prod_0 a b : a * b = 0 -> a = 0 \/ b = 0.
Proof. apply Rmult_integral. Qed.
(** the intersection [q] of the "middle" edge coincides with one of the other two *)
Lemma three_horiz (r : ray R) p q v : (* p, v on the horizontal edges, q on a vertical one *)
  ptx (r_delta r) <> 0 -> pty (r_delta r) <> 0 -> on_ray r p -> on_ray r q -> on_ray r v ->
  (0 <= (ptx p - ptx q) * (ptx v - ptx q)) -> (pty v <= pty q <= pty p) -> pty v < pty p ->
  q = p \/ q = v.
Proof.
  intros Nx Ny Hp Hq Hv SX SY LT. assert (C := collinear r p q v Hp Hq Hv).
  destruct (Req_dec (pty q) (pty p)) as [E|E]; [left; eapply same_param_y; eauto|].
  destruct (Req_dec (pty q) (pty v)) as [F|F]; [right; eapply same_param_y; eauto|].
  exfalso. assert (0 < pty p - pty q) by lra. assert (pty v - pty q < 0) by lra.
  assert (X : ptx p - ptx q = 0 /\ ptx v - ptx q = 0).
  { set (a := ptx p - ptx q) in *. set (b := ptx v - ptx q) in *. set (m := pty v - pty q) in *. set (n := pty p - pty q) in *.
    assert (C' : a * m = b * n) by lra. clear C. rename C' into C.
    assert (Q1 : a * a * m = a * b * n) by (rewrite Rmult_assoc, C; ring).
    assert (Q2 : 0 <= a * b * n) by (apply Rmult_le_pos; lra). assert (Q3 : 0 <= a * a) by nra.
    assert (Q4 : a * a = 0) by nra. assert (Q5 : a = 0) by (apply Rmult_integral in Q4; tauto). split; [exact Q5|].
    rewrite Q5 in C. rewrite Rmult_0_l in C. symmetry in C. apply Rmult_integral in C. lra. }
  destruct X as [X Y]. assert (p = v) by (eapply same_param_x; eauto; lra). subst. lra.
Qed.
Lemma three_vert (r : ray R) p q v : (* p, v on the vertical edges, q on a horizontal one *)
  ptx (r_delta r) <> 0 -> pty (r_delta r) <> 0 -> on_ray r p -> on_ray r q -> on_ray r v ->
  (0 <= (pty p - pty q) * (pty v - pty q)) -> (ptx v <= ptx q <= ptx p) -> ptx v < ptx p ->
  q = p \/ q = v.
Proof.
  intros Nx Ny Hp Hq Hv SX SY LT. assert (C := collinear r p q v Hp Hq Hv).
  destruct (Req_dec (ptx q) (ptx p)) as [E|E]; [left; eapply same_param_x; eauto|].
  destruct (Req_dec (ptx q) (ptx v)) as [F|F]; [right; eapply same_param_x; eauto|].
  exfalso. assert (0 < ptx p - ptx q) by lra. assert (ptx v - ptx q < 0) by lra.
  assert (X : pty p - pty q = 0 /\ pty v - pty q = 0).
  { set (a := pty p - pty q) in *. set (b := pty v - pty q) in *. set (m := ptx v - ptx q) in *. set (n := ptx p - ptx q) in *.
    assert (C' : a * m = b * n) by lra. clear C. rename C' into C.
    assert (Q1 : a * a * m = a * b * n) by (rewrite Rmult_assoc, C; ring).
    assert (Q2 : 0 <= a * b * n) by (apply Rmult_le_pos; lra). assert (Q3 : 0 <= a * a) by nra.
    assert (Q4 : a * a = 0) by nra. assert (Q5 : a = 0) by (apply Rmult_integral in Q4; tauto). split; [exact Q5|].
    rewrite Q5 in C. rewrite Rmult_0_l in C. symmetry in C. apply Rmult_integral in C. lra. }
  destruct X as [X Y]. assert (p = v) by (eapply same_param_y; eauto; lra). subst. lra.
Qed.

Lemma point_eqb_refl (p : point R) : point_eqb p p = true.
Proof. unfold point_eqb. now rewrite !R_are_equal_refl. Qed.
Lemma point_eqb_sym (p q : point R) : point_eqb p q = point_eqb q p.
Proof.
  assert (SY : forall a b : R, are_equal a b = are_equal b a).
  { intros a b. destruct (are_equal b a) eqn:E; [apply R_are_equal in E; apply R_are_equal; rewrite Rabs_minus_sym, tol_sym; exact E|].
    apply not_true_is_false. intros C. apply R_are_equal in C. rewrite Rabs_minus_sym, tol_sym in C. apply R_are_equal in C. congruence. }
  unfold point_eqb. now rewrite (SY (ptx p)), (SY (pty p)).
Qed.

Lemma ray_result c r : resolved c -> 0 < width c -> 0 < height c ->
  exists l, ray_intersections c r = Ok l /\ (length l < 3)%nat /\ (forall z, In z l -> In z (raw c r)) /\
    (forall x y, In x (raw c r) -> In y (raw c r) -> point_eqb (i_pt x) (i_pt y) = false ->
       exists i j, l = [i; j] /\ ((i_pt i = i_pt x /\ i_pt j = i_pt y) \/ (i_pt i = i_pt y /\ i_pt j = i_pt x))).
Proof.
  unfold resolved, ray_intersections, raw, ray_intersect, seg_is_horiz, seg_is_vert, top_edge, bot_edge, left_edge, right_edge, width, height. intros RS W H.
  cbn [sbeg send ptx pty fst snd]. rewrite !R_are_equal_refl, RS. cbn [bind].
  assert (HT := horiz_spec c r (top c) LocTop ltac:(auto)). assert (HB := horiz_spec c r (bot c) LocBot ltac:(auto)).
  assert (HL := vert_spec c r (left c) LocLeft ltac:(auto)). assert (HR := vert_spec c r (right c) LocRight ltac:(auto)).
  assert (DT := horiz_delta r (left c) (right c) (top c) LocTop). assert (DB := horiz_delta r (left c) (right c) (bot c) LocBot).
  assert (DL := vert_delta r (bot c) (top c) (left c) LocLeft). assert (DR := vert_delta r (bot c) (top c) (right c) LocRight).
  destruct (horiz_short r (left c) (right c) (top c) LocTop) as [E1|[x1 E1]];
  destruct (vert_short r (bot c) (top c) (left c) LocLeft) as [E2|[x2 E2]];
  destruct (horiz_short r (left c) (right c) (bot c) LocBot) as [E3|[x3 E3]];
  destruct (vert_short r (bot c) (top c) (right c) LocRight) as [E4|[x4 E4]];
  rewrite E1, E2, E3, E4 in *; clear E1 E2 E3 E4;
  try destruct (HT x1 (or_introl eq_refl)) as (T1 & T2 & T3);
  try destruct (HL x2 (or_introl eq_refl)) as (L1 & L2 & L3);
  try destruct (HB x3 (or_introl eq_refl)) as (B1 & B2 & B3);
  try destruct (HR x4 (or_introl eq_refl)) as (R1 & R2 & R3);
  try assert (NT := DT x1 (or_introl eq_refl)); try assert (NL := DL x2 (or_introl eq_refl));
  try assert (NB := DB x3 (or_introl eq_refl)); try assert (NR := DR x4 (or_introl eq_refl));
  clear HT HL HB HR DT DB DL DR;
  unfold on_edge in *; rewrite ?T1, ?L1, ?B1, ?R1 in *;
  try (assert (TLB : i_pt x2 = i_pt x1 \/ i_pt x2 = i_pt x3) by (eapply three_horiz; eauto; first [lra|nra]));
  try (assert (TRB : i_pt x4 = i_pt x1 \/ i_pt x4 = i_pt x3) by (eapply three_horiz; eauto; first [lra|nra]));
  try (assert (LTR : i_pt x1 = i_pt x4 \/ i_pt x1 = i_pt x2) by (eapply three_vert; eauto; first [lra|nra]));
  try (assert (LBR : i_pt x3 = i_pt x4 \/ i_pt x3 = i_pt x2) by (eapply three_vert; eauto; first [lra|nra])).
  all: repeat match goal with
       | H : on_ray _ _ |- _ => clear H
       | H : _ = _ /\ _ |- _ => clear H
       | H : _ <> 0 |- _ => clear H
       | H : i_loc _ = _ |- _ => clear H end.
  all: clear RS W H r.
  all: cbn [app].
  all: repeat match goal with H : _ \/ _ |- _ => destruct H end.
  all: repeat match goal with x : inter R |- _ => let lo := fresh "lo" in let po := fresh "po" in destruct x as [lo po] end; cbn [i_pt i_loc] in *.
  all: repeat match goal with H : ?a = ?b |- _ => is_var a; subst a || (clear H) end.
  all: cbn.
  all: repeat match goal with
       | |- context[point_eqb ?a ?a] => rewrite (point_eqb_refl a); cbn
       | E : point_eqb ?a ?b = _ |- context[if point_eqb ?a ?b then _ else _] => rewrite E; cbn
       | |- context[if point_eqb ?a ?b then _ else _] => let E := fresh "E" in destruct (point_eqb a b) eqn:E; cbn
       end.
  all: cbn.
  all: eexists; split; [reflexivity|]; split; [cbn; lia|]; split; [cbn; tauto|].
  all: intros x y Hx Hy Nxy;
       repeat match goal with H : _ \/ _ |- _ => destruct H | H : False |- _ => destruct H end; subst; cbn [i_pt] in *;
       rewrite ?point_eqb_refl in *; try discriminate;
       try (rewrite point_eqb_sym in Nxy; congruence); try congruence;
       (do 2 eexists; split; [reflexivity|]; cbn [i_pt]; auto).
Qed.

(** ** completeness: a beam through the cell is recognised *)
Definition at_ (p q : point R) (s : R) : point R := (ptx p + s * (ptx q - ptx p), pty p + s * (pty q - pty p)).
Definition inside (c : rect R) (p : point R) : Prop := left c <= ptx p <= right c /\ bot c <= pty p <= top c.
Lemma entry1 lo hi a u : lo <= u <= hi -> exists s0, 0 <= s0 <= 1 /\ (forall s, s0 <= s <= 1 -> lo <= a + s * (u - a) <= hi) /\
  ((s0 = 0 /\ lo <= a <= hi) \/ a + s0 * (u - a) = lo \/ a + s0 * (u - a) = hi).
Proof.
  intros Hu. destruct (Rlt_or_le a lo) as [L|L]; [|destruct (Rlt_or_le hi a) as [G|G]].
  - assert (D : 0 < u - a) by lra. assert (B : 0 <= (lo - a) / (u - a) <= 1).
    { split; [apply Rdiv_le_0_compat; lra|]. apply Rmult_le_reg_r with (u - a); [lra|]. unfold Rdiv. rewrite Rmult_assoc, Rinv_l by lra. lra. }
    assert (E : (lo - a) / (u - a) * (u - a) = lo - a) by (field; lra).
    exists ((lo - a) / (u - a)). split; [exact B|]. split; [|right; left; lra].
    intros s [S1 S2]. split; [|nra]. assert ((lo - a) / (u - a) * (u - a) <= s * (u - a)) by (apply Rmult_le_compat_r; lra). lra.
  - assert (D : 0 < a - u) by lra. assert (B : 0 <= (a - hi) / (a - u) <= 1).
    { split; [apply Rdiv_le_0_compat; lra|]. apply Rmult_le_reg_r with (a - u); [lra|]. unfold Rdiv. rewrite Rmult_assoc, Rinv_l by lra. lra. }
    assert (E : (a - hi) / (a - u) * (a - u) = a - hi) by (field; lra).
    exists ((a - hi) / (a - u)). split; [exact B|]. split; [|right; right; lra].
    intros s [S1 S2]. split; [nra|]. assert ((a - hi) / (a - u) * (a - u) <= s * (a - u)) by (apply Rmult_le_compat_r; lra). lra.
  - exists 0. split; [lra|]. split; [|left; lra]. intros s Hs. nra.
Qed.
Lemma entry c a u : inside c u -> ~ inside c a -> exists s loc, 0 <= s <= 1 /\ on_edge c (mkInter loc (at_ a u s)).
Proof.
  intros [Hx Hy] Na. destruct (entry1 (left c) (right c) (ptx a) (ptx u) Hx) as (sx & Bx & Ix & Ex).
  destruct (entry1 (bot c) (top c) (pty a) (pty u) Hy) as (sy & By & Iy & Ey).
  unfold on_edge, at_; cbn [i_loc i_pt ptx pty fst snd]. change (ptx a) with (fst a) in *. change (pty a) with (snd a) in *.
  change (ptx u) with (fst u) in *. change (pty u) with (snd u) in *.
  destruct (Rle_or_lt sy sx) as [L|L].
  - destruct Ex as [[Z Ex]|[Ex|Ex]].
    + destruct Ey as [[Z' Ey]|[Ey|Ey]].
      * destruct Na. split; assumption.
      * exists sy, LocBot. cbn. split; [lra|]. split; [exact Ey|]. apply Ix. lra.
      * exists sy, LocTop. cbn. split; [lra|]. split; [exact Ey|]. apply Ix. lra.
    + exists sx, LocLeft. cbn. split; [lra|]. split; [exact Ex|]. apply Iy. lra.
    + exists sx, LocRight. cbn. split; [lra|]. split; [exact Ex|]. apply Iy. lra.
  - destruct Ey as [[Z' Ey]|[Ey|Ey]].
    + lra.
    + exists sy, LocBot. cbn. split; [lra|]. split; [exact Ey|]. apply Ix. lra.
    + exists sy, LocTop. cbn. split; [lra|]. split; [exact Ey|]. apply Ix. lra.
Qed.
Lemma inside_contains c p : inside c p -> rect_contains c (ptx p) (pty p) = true.
Proof.
  intros [[A B] [C D]]. unfold rect_contains, are_ordered.
  rewrite !(fun a b H => proj2 (R_less_or_equal a b) H); auto.
  all: match goal with |- ?a <= ?b + tol ?a ?b => assert (T := tol_pos a b); lra end.
Qed.

(** two points of the beam inside the cell are told apart by the code's comparisons (twice their tolerance) *)
Definition apart_x (c : rect R) (u v : point R) : Prop :=
  2 / 10000000 * Rmax 1 (Rmax (Rabs (left c)) (Rabs (right c))) < Rabs (ptx u - ptx v).
Definition apart_y (c : rect R) (u v : point R) : Prop :=
  2 / 10000000 * Rmax 1 (Rmax (Rabs (bot c)) (Rabs (top c))) < Rabs (pty u - pty v).

Lemma tol_interval lo hi a b : lo <= a <= hi -> lo <= b <= hi -> tol a b <= 1 / 10000000 * Rmax 1 (Rmax (Rabs lo) (Rabs hi)).
Proof. intros A B. unfold tol, Rmax, Rabs. repeat destruct Rle_dec; repeat destruct Rcase_abs; lra. Qed.
(** coordinates: beam from [b] to [e], inside values u = b + su (e - b), v = b + sv (e - b) *)
Lemma not_flat lo hi b e su sv : 0 <= su <= 1 -> 0 <= sv <= 1 -> lo <= b + su * (e - b) <= hi -> lo <= b + sv * (e - b) <= hi ->
  2 / 10000000 * Rmax 1 (Rmax (Rabs lo) (Rabs hi)) < Rabs ((b + su * (e - b)) - (b + sv * (e - b))) ->
  are_equal b e = false /\ are_equal (e - b) 0 = false.
Proof.
  intros Su Sv Hu Hv Sep. set (M := Rmax 1 (Rmax (Rabs lo) (Rabs hi))) in *.
  assert (M1 : 1 <= M) by apply Rmax_l.
  assert (D : 2 / 10000000 * M < Rabs (e - b)).
  { eapply Rlt_le_trans; [exact Sep|]. replace (b + su * (e - b) - (b + sv * (e - b))) with ((su - sv) * (e - b)) by ring.
    rewrite Rabs_mult. assert (Rabs (su - sv) <= 1) by (apply Rabs_le; lra). assert (0 <= Rabs (e - b)) by apply Rabs_pos. nra. }
  assert (U : Rabs (b + su * (e - b)) <= M).
  { unfold M. eapply Rle_trans; [|apply Rmax_r]. unfold Rmax, Rabs. repeat destruct Rle_dec; repeat destruct Rcase_abs; lra. }
  split; apply not_true_is_false; intros C; apply R_are_equal in C.
  - rewrite Rabs_minus_sym in C. unfold tol in C.
    assert (K : Rmax 1 (Rmax (Rabs b) (Rabs e)) <= M + Rabs (e - b)).
    { apply Rmax_lub; [assert (0 <= Rabs (e - b)) by apply Rabs_pos; lra|].
      assert (S1 : Rabs (su * (e - b)) <= Rabs (e - b)). { rewrite Rabs_mult, (Rabs_pos_eq su) by lra. assert (0 <= Rabs (e - b)) by apply Rabs_pos. nra. }
      assert (S2 : Rabs ((1 - su) * (e - b)) <= Rabs (e - b)). { rewrite Rabs_mult, (Rabs_pos_eq (1 - su)) by lra. assert (0 <= Rabs (e - b)) by apply Rabs_pos. nra. }
      apply Rmax_lub.
      - replace b with ((b + su * (e - b)) - su * (e - b)) at 1 by ring. eapply Rle_trans; [apply Rabs_triang|]. rewrite Rabs_Ropp. lra.
      - replace e with ((b + su * (e - b)) + (1 - su) * (e - b)) at 1 by ring. eapply Rle_trans; [apply Rabs_triang|]. lra. }
    nra.
  - rewrite Rminus_0_r in C. unfold tol in C. rewrite Rabs_R0 in C. revert C. unfold Rmax. repeat destruct Rle_dec; lra.
Qed.
Lemma flat_between (b e y s : R) : are_equal (e - b) 0 = true -> are_equal b y = false -> 0 <= s <= 1 -> y = b + s * (e - b) -> False.
Proof.
  intros F N S E. apply R_are_equal in F. rewrite Rminus_0_r in F. unfold tol in F. rewrite Rabs_R0 in F.
  assert (D : Rabs (e - b) <= 1 / 10000000). { revert F. unfold Rmax. repeat destruct Rle_dec; assert (0 <= Rabs (e - b)) by apply Rabs_pos; lra. }
  assert (X : Rabs (b - y) <= 1 / 10000000).
  { subst y. replace (b - (b + s * (e - b))) with (- (s * (e - b))) by ring. rewrite Rabs_Ropp, Rabs_mult, (Rabs_pos_eq s) by lra.
    assert (0 <= Rabs (e - b)) by apply Rabs_pos. nra. }
  assert (Y : are_equal b y = true) by (apply R_are_equal; eapply Rle_trans; [exact X|apply tol_pos]). congruence.
Qed.

Lemma detect c beam u v su sv s loc : has_on_edge_line c beam = false -> 0 <= su <= 1 -> 0 <= sv <= 1 -> 0 <= s <= 1 ->
  u = at_ (sbeg beam) (send beam) su -> v = at_ (sbeg beam) (send beam) sv -> inside c u -> inside c v ->
  apart_x c u v \/ apart_y c u v ->
  on_edge c (mkInter loc (at_ (sbeg beam) (send beam) s)) ->
  In (mkInter loc (at_ (sbeg beam) (send beam) s)) (raw c (ray_of beam)).
Proof.
  intros NE Su Sv Ss -> -> [Ux Uy] [Vx Vy] AP OE. destruct beam as [[bx by_] [ex ey]].
  unfold has_on_edge_line, seg_is_vert, seg_is_horiz, apart_x, apart_y, on_edge, raw, at_, ray_of in *.
  cbn [sbeg send ptx pty fst snd i_loc i_pt r_beg r_delta dsub ROps] in *.
  assert (FX : apart_x c (bx + su * (ex - bx), 0) (bx + sv * (ex - bx), 0) -> are_equal bx ex = false /\ are_equal (ex - bx) 0 = false).
  { intros Q. eapply (not_flat (left c) (right c) bx ex su sv); eauto. }
  assert (FY : apart_y c (0, by_ + su * (ey - by_)) (0, by_ + sv * (ey - by_)) -> are_equal by_ ey = false /\ are_equal (ey - by_) 0 = false).
  { intros Q. eapply (not_flat (bot c) (top c) by_ ey su sv); eauto. }
  unfold apart_x, apart_y in FX, FY. cbn [ptx pty fst snd] in FX, FY.
  assert (FV : are_equal (ex - bx) 0 = true -> are_equal bx ex = true).
  { intros Q. apply R_are_equal in Q. rewrite Rminus_0_r in Q. apply R_are_equal. rewrite Rabs_minus_sym. eapply Rle_trans; [exact Q|].
    unfold tol. rewrite Rabs_R0. assert (A1 := tol_pos bx ex). unfold tol in A1.
    revert Q. unfold tol. rewrite Rabs_R0. unfold Rmax at 1 2. destruct Rle_dec; [|destruct Rle_dec]; unfold Rmax in *; repeat destruct Rle_dec; lra. }
  assert (FH : are_equal (ey - by_) 0 = true -> are_equal by_ ey = true).
  { intros Q. apply R_are_equal in Q. rewrite Rminus_0_r in Q. apply R_are_equal. rewrite Rabs_minus_sym. eapply Rle_trans; [exact Q|].
    unfold tol. rewrite Rabs_R0. assert (A1 := tol_pos by_ ey). unfold tol in A1.
    revert Q. unfold tol. rewrite Rabs_R0. unfold Rmax at 1 2. destruct Rle_dec; [|destruct Rle_dec]; unfold Rmax in *; repeat destruct Rle_dec; lra. }
  assert (HZ : forall y l, l = LocTop /\ y = top c \/ l = LocBot /\ y = bot c -> by_ + s * (ey - by_) = y -> left c <= bx + s * (ex - bx) <= right c ->
     In (mkInter l (bx + s * (ex - bx), by_ + s * (ey - by_))) (intersect_horiz (mkRay (bx, by_) (ex - bx, ey - by_)) (left c) (right c) y l)).
  { intros y l Hl Ey Hx. unfold intersect_horiz. cbn [r_beg r_delta ptx pty fst snd].
    destruct (are_equal (ey - by_) (dofZ 0)) eqn:Q.
    - exfalso. cbn [dofZ ROps] in Q. assert (NV : are_equal bx ex = false).
      { destruct AP as [AP|AP]; [apply FX, AP|]. apply FY in AP. destruct AP as [_ AP]. congruence. }
      rewrite NV, (FH Q) in NE. apply orb_false_iff in NE as [N1 N2].
      destruct Hl as [[_ ->]|[_ ->]]; [apply (flat_between by_ ey (top c) s)|apply (flat_between by_ ey (bot c) s)]; auto.
    - apply R_not_equal in Q. cbn [dofZ ROps dadd dsub ddiv dmul dlt] in *.
      assert (S' : (y - by_) / (ey - by_) = s) by (rewrite <- Ey; field; exact Q). rewrite S'.
      replace (R_lt (bx + s * (ex - bx)) (left c)) with false by (symmetry; apply R_lt_false; lra).
      replace (R_lt (right c) (bx + s * (ex - bx))) with false by (symmetry; apply R_lt_false; lra). cbn. left. now rewrite Ey. }
  assert (VZ : forall x l, l = LocLeft /\ x = left c \/ l = LocRight /\ x = right c -> bx + s * (ex - bx) = x -> bot c <= by_ + s * (ey - by_) <= top c ->
     In (mkInter l (bx + s * (ex - bx), by_ + s * (ey - by_))) (intersect_vert (mkRay (bx, by_) (ex - bx, ey - by_)) (bot c) (top c) x l)).
  { intros x l Hl Ex Hy. unfold intersect_vert. cbn [r_beg r_delta ptx pty fst snd].
    destruct (are_equal (ex - bx) (dofZ 0)) eqn:Q.
    - exfalso. cbn [dofZ ROps] in Q. rewrite (FV Q) in NE. apply orb_false_iff in NE as [N1 N2].
      destruct Hl as [[_ ->]|[_ ->]]; [apply (flat_between bx ex (left c) s)|apply (flat_between bx ex (right c) s)]; auto.
    - apply R_not_equal in Q. cbn [dofZ ROps dadd dsub ddiv dmul dlt] in *.
      assert (S' : (x - bx) / (ex - bx) = s) by (rewrite <- Ex; field; exact Q). rewrite S'.
      replace (R_lt (by_ + s * (ey - by_)) (bot c)) with false by (symmetry; apply R_lt_false; lra).
      replace (R_lt (top c) (by_ + s * (ey - by_))) with false by (symmetry; apply R_lt_false; lra). cbn. left. now rewrite Ex. }
  destruct loc; destruct OE as [O1 O2]; rewrite !in_app_iff.
  - right; right; left. apply HZ; auto.
  - right; left. apply VZ; auto.
  - left. apply HZ; auto.
  - right; right; right. apply VZ; auto.
Qed.
