(** GridRasterizedRectangle (C04). *)
From Coq Require Import Reals ZArith List Lia Lra Bool.
From Flocq Require Import Core.
From Verif.Base Require Import Outcome Num F64Facts.
From Verif.Model Require Import MathUtils Geometry Grid.
From Verif.Spec Require Import GeometrySpec GridSpec.
From Verif.Proofs Require Import ListFacts BresenhamProofs GridProofs GridNumProofs.
Import ListNotations.
Local Open Scope R_scope.

Lemma in_int_iff z : in_int z = true <-> (- 2 ^ 31 <= z <= 2 ^ 31 - 1)%Z.
Proof.
  unfold in_int, int_min, int_max. rewrite andb_true_iff, !Z.leb_le. reflexivity.
Qed.

Theorem world_to_cell_spec_R (s : R) (p : point R) (c : coord) : 0 < s ->
  (world_to_cell s p = Ok c <-> int_coord c /\ in_cell s c p).
Proof.
  intros Hs. rewrite world_to_cell_R_iff by assumption. rewrite !in_int_iff.
  unfold int_coord, in_cell. tauto.
Qed.

Lemma in_cell_unique s p c c' : 0 < s -> in_cell s c p -> in_cell s c' p -> c = c'.
Proof.
  intros Hs [H1 H2] [H3 H4]. destruct c as [i j], c' as [i' j']; cbn [fst snd] in *.
  f_equal.
  - assert (i <= i')%Z by (apply (mono_cells_R s (fst p) (fst p)); auto; lra).
    assert (i' <= i)%Z by (apply (mono_cells_R s (fst p) (fst p)); auto; lra). lia.
  - assert (j <= j')%Z by (apply (mono_cells_R s (snd p) (snd p)); auto; lra).
    assert (j' <= j)%Z by (apply (mono_cells_R s (snd p) (snd p)); auto; lra). lia.
Qed.

Lemma axis_meets s i j k l r : 0 < s -> l <= r ->
  s * IZR i <= l < s * (IZR i + 1) -> s * IZR j <= r < s * (IZR j + 1) ->
  ((i <= k <= j)%Z <-> exists x, (s * IZR k <= x < s * (IZR k + 1)) /\ l <= x <= r).
Proof.
  intros Hs Hlr Hl Hr. split.
  - intros [H1 H2].
    destruct (Z.eq_dec k i) as [->|Hne].
    + exists l. lra.
    + exists (s * IZR k). assert (IZR i + 1 <= IZR k) by (rewrite <- plus_IZR; apply IZR_le; lia).
      assert (IZR k <= IZR j) by (apply IZR_le; lia).
      assert (s * (IZR i + 1) <= s * IZR k) by (apply Rmult_le_compat_l; lra).
      assert (s * IZR k <= s * IZR j) by (apply Rmult_le_compat_l; lra).
      split; [|lra]. split; [lra|]. apply Rmult_lt_compat_l; lra.
  - intros [x [Hx Hx2]]. split.
    + apply (mono_cells_R s l x); auto; lra.
    + apply (mono_cells_R s x r); auto; lra.
Qed.

Lemma box_meets s lb rt (r : rect R) c : 0 < s -> left r <= right r -> bot r <= top r ->
  in_cell s lb (left r, bot r) -> in_cell s rt (right r, top r) ->
  ((fst lb <= fst c <= fst rt /\ snd lb <= snd c <= snd rt)%Z <->
   cell_meets s c (bot r) (top r) (left r) (right r)).
Proof.
  intros Hs Hh Hv [L1 L2] [R1 R2]; cbn [fst snd] in *.
  assert (HX := axis_meets s (fst lb) (fst rt) (fst c) (left r) (right r) Hs Hh L1 R1).
  assert (HY := axis_meets s (snd lb) (snd rt) (snd c) (bot r) (top r) Hs Hv L2 R2).
  rewrite HX, HY. unfold cell_meets, in_cell. split.
  - intros [[x Hx] [y Hy]]. exists (x, y); cbn. tauto.
  - intros [[x y] H]; cbn in H. split; [exists x | exists y]; tauto.
Qed.

(** a rectangle with positive area, borders included: exactly the cells that meet it *)
Theorem raster_rect_R (w h : Z) (origin : coord) (s : R) (r : rect R) (lb rt : coord) : 0 < s ->
  left r < right r -> bot r < top r ->
  world_to_cell s (left r, bot r) = Ok lb -> world_to_cell s (right r, top r) = Ok rt ->
  exists st, raster_rect w h origin s r true = Ok st /\
    forall fuel, (box_cells lb rt <= fuel)%nat ->
    exists l, raster_to_vector fuel st = Ok l /\ NoDup l /\
      forall c, In c l <-> cell_meets s c (bot r) (top r) (left r) (right r).
Proof.
  intros Hs Hh Hv Hlb Hrt. unfold raster_rect. cbn [dispinf ROps dofZ dadd dsub deq].
  assert (Hne : R_eq (rect_area r) 0 = false).
  { apply R_eq_false. unfold rect_area, vside_len, hside_len; cbn.
    assert (0 < (top r - bot r) * (right r - left r)) by (apply Rmult_lt_0_compat; lra). lra. }
  rewrite Hne. cbn [negb andb]. rewrite !Rplus_0_r, !Rminus_0_r.
  rewrite Hlb, Hrt. cbn [bind]. eexists; split; [reflexivity|].
  intros fuel Hf. destruct (raster_to_vector_spec lb rt fuel Hf) as [l [Hl [Hnd Hin]]].
  exists l. split; [exact Hl|]. split; [exact Hnd|]. intros c. rewrite Hin.
  apply world_to_cell_spec_R in Hlb, Hrt; auto. destruct Hlb as [_ Hlb], Hrt as [_ Hrt].
  apply box_meets; auto; lra.
Qed.

(** a rectangle of zero area: the single cell of its left-bottom corner *)
Theorem raster_empty_rect_R (w h : Z) (origin : coord) (s : R) (r : rect R) ib (c : coord) : 0 < s ->
  rect_area r = 0 -> world_to_cell s (left r, bot r) = Ok c ->
  exists st, raster_rect w h origin s r ib = Ok st /\
    forall fuel, (1 <= fuel)%nat -> raster_to_vector fuel st = Ok [c].
Proof.
  intros Hs Ha Hc. unfold raster_rect. cbn [dispinf ROps dofZ dadd dsub deq].
  assert (He : R_eq (rect_area r) 0 = true) by (apply R_eq_true; exact Ha).
  rewrite He. cbn [negb andb]. rewrite Hc. cbn [bind]. eexists; split; [reflexivity|].
  intros fuel Hf. rewrite raster_enumerates; try lia.
  unfold box_list. rewrite (zrange_cons (cx c)), (zrange_cons (cy c)) by lia.
    rewrite !zrange_nil by lia. destruct c; reflexivity.
Qed.

(** an infinite area (only possible with IEEE infinities): every cell of the bounded grid *)
Theorem raster_infinite {D} {ops : DOps D} (w h : Z) (origin : coord) (s : D) (r : rect D) ib :
  dispinf (rect_area r) = true -> deq (rect_area r) (dofZ 0) = false ->
  exists st, raster_rect w h origin s r ib = Ok st /\
    forall fuel, (Z.to_nat w * Z.to_nat h <= fuel)%nat ->
    exists l, raster_to_vector fuel st = Ok l /\ NoDup l /\
      forall c, In c l <-> has_internal_cell w h (external2internal origin c) = true.
Proof.
  intros Hi He. unfold raster_rect. rewrite Hi, He. cbn [negb andb].
  eexists; split; [reflexivity|].
  intros fuel Hf.
  destruct (raster_to_vector_spec (internal2external origin (0, 0)%Z)
              (internal2external origin (w - 1, h - 1)%Z) fuel) as [l [Hl [Hnd Hin]]].
  { unfold box_cells, internal2external, coord_sub, cx, cy; cbn [fst snd].
    replace (w - 1 - fst origin - (0 - fst origin) + 1)%Z with w by lia.
    replace (h - 1 - snd origin - (0 - snd origin) + 1)%Z with h by lia. exact Hf. }
  exists l. split; [exact Hl|]. split; [exact Hnd|]. intros c. rewrite Hin.
  unfold internal2external, external2internal, coord_sub, coord_add, has_internal_cell, cx, cy; cbn [fst snd].
  rewrite !andb_true_iff, !Z.leb_le, !Z.ltb_lt. lia.
Qed.

(** the workaround documented at grid_rasterization.h:9-12: the bounds of a cell, borders excluded, are
    rasterised to that very cell *)
Theorem raster_cell_bounds_R (w h : Z) (origin : coord) (s : R) (c : coord) (r : rect R) :
  1 / 1000000000 < s -> int_coord c -> world_cell_bounds s c = Ok r ->
  exists st, raster_rect w h origin s r false = Ok st /\
    forall fuel, (1 <= fuel)%nat -> raster_to_vector fuel st = Ok [c].
Proof.
  intros Hs Ic Hb. assert (Hs0 : 0 < s) by lra.
  rewrite world_cell_bounds_R in Hb by assumption. inversion Hb; subst r. clear Hb.
  unfold raster_rect. cbn [dispinf ROps dofZ dadd dsub deq left right top bot].
  assert (Hne : R_eq (rect_area (mkRect (s * IZR (snd c)) (s * (IZR (snd c) + 1)) (s * IZR (fst c))
                 (s * (IZR (fst c) + 1)))) 0 = false).
  { apply R_eq_false. unfold rect_area, vside_len, hside_len; cbn.
    replace ((s * (IZR (snd c) + 1) - s * IZR (snd c)) * (s * (IZR (fst c) + 1) - s * IZR (fst c)))
      with (s * s) by ring. assert (0 < s * s) by (apply Rmult_lt_0_compat; lra). lra. }
  rewrite Hne. cbn [negb andb]. unfold dlit; cbn [ddiv dofZ ROps].
  set (o := 1 / 1000000000) in *. assert (Ho : 0 < o) by (unfold o; lra).
  assert (Hlb : world_to_cell s (s * IZR (fst c) + o, s * IZR (snd c) + o) = Ok c).
  { apply world_to_cell_spec_R; auto. split; [exact Ic|]. unfold in_cell; cbn [fst snd]. lra. }
  assert (Hrt : world_to_cell s (s * (IZR (fst c) + 1) - o, s * (IZR (snd c) + 1) - o) = Ok c).
  { apply world_to_cell_spec_R; auto. split; [exact Ic|]. unfold in_cell; cbn [fst snd]. lra. }
  rewrite Hlb, Hrt. cbn [bind]. eexists; split; [reflexivity|].
  intros fuel Hf. rewrite raster_enumerates; try lia.
  unfold box_list. rewrite (zrange_cons (cx c)), (zrange_cons (cy c)) by lia.
    rewrite !zrange_nil by lia. destruct c; reflexivity.
Qed.
