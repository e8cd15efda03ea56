(** C02, C04 and C30 in binary64: the cell of a point, the covered cells of an area and the estimates over them. *)
From Coq Require Import Reals ZArith List Bool Lia Lra.
From Flocq Require Import Core IEEE754.BinarySingleNaN IEEE754.Binary IEEE754.Bits.
From Verif.Base Require Import Outcome Num F64Facts.
From Verif.Model Require Import MathUtils Geometry Grid Spe Sensor.
From Verif.Spec Require Import GeometrySpec CellSpec EstimateSpec.
From Verif.Proofs Require Import ListFacts GridProofs GridNumProofs TbmFloatProofs AreaRange CellProofs EstimateFloatProofs.
From Verif.Props Require Import SpeProps.
Import ListNotations.
Local Open Scope R_scope.

(** C02.  In binary64 a point lies in the square of its cell, strictly below the upper borders, and above the lower ones up to
    one rounding of the quotient ... *)
Theorem C02_point_in_its_cell_binary64 :
  forall (s : F64) (p : point F64) (c : coord),
  0 < F2R64 s -> fin_point p -> world_to_cell s p = Ok c ->
  F2R64 s * IZR (fst c) - F2R64 s * (Rabs (IZR (fst c)) + 1) * bpow radix2 (-53) <= F2R64 (ptx p) < F2R64 s * (IZR (fst c) + 1) /\
  F2R64 s * IZR (snd c) - F2R64 s * (Rabs (IZR (snd c)) + 1) * bpow radix2 (-53) <= F2R64 (pty p) < F2R64 s * (IZR (snd c) + 1).
Proof.
  intros s p c Hs Fp E. destruct (world_cell_int s p c E) as [I1 I2]. apply world_cell_F in E; [|exact Hs|exact Fp].
  destruct c as [i j]. cbn [fst snd] in *. injection E as Ei Ej.
  apply eq_sym in Ei, Ej. apply coord_in_cell in Ei, Ej; try assumption. rewrite !Rmult_assoc. split; assumption.
Qed.
Print Assumptions C02_point_in_its_cell_binary64.

(** ... the reported bounds of that cell exist, their upper sides are not below the point, their lower ones not above it by
    more than two roundings ... *)
Theorem C02_reported_bounds_hold_the_point_binary64 :
  forall (s : F64) (p : point F64) (c : coord),
  F_fin s = true -> bpow radix2 (-900) <= F2R64 s <= bpow radix2 900 -> fin_point p -> world_to_cell s p = Ok c ->
  exists b, world_cell_bounds s c = Ok b /\ fin_rect b /\
  F2R64 (left b) - F2R64 s * (Rabs (IZR (fst c)) + 1) * bpow radix2 (-52) <= F2R64 (ptx p) <= F2R64 (right b) /\
  F2R64 (bot b) - F2R64 s * (Rabs (IZR (snd c)) + 1) * bpow radix2 (-52) <= F2R64 (pty p) <= F2R64 (top b).
Proof.
  intros s p c Fs Hs Fp E. assert (P9 := bpow_gt_0 radix2 (-900)). assert (Hs0 : 0 < F2R64 s) by lra.
  destruct (world_cell_int s p c E) as [I1 I2].
  destruct (C02_point_in_its_cell_binary64 s p c Hs0 Fp E) as [[Lx Ux] [Ly Uy]]. destruct c as [i j]. cbn [fst snd] in *.
  assert (Bi : (Z.abs i <= 2 ^ 31 /\ Z.abs (i + 1) <= 2 ^ 31)%Z).
  { unfold in_int, int_min, int_max in I1. apply andb_true_iff in I1. destruct I1 as [A B]. apply Z.leb_le in A, B. lia. }
  assert (Bj : (Z.abs j <= 2 ^ 31 /\ Z.abs (j + 1) <= 2 ^ 31)%Z).
  { unfold in_int, int_min, int_max in I2. apply andb_true_iff in I2. destruct I2 as [A B]. apply Z.leb_le in A, B. lia. }
  destruct (border_value s i Fs Hs (proj1 Bi)) as (F1 & E1 & D1). destruct (border_value s (i + 1) Fs Hs (proj2 Bi)) as (F2 & E2 & _).
  destruct (border_value s j Fs Hs (proj1 Bj)) as (F3 & E3 & D3). destruct (border_value s (j + 1) Fs Hs (proj2 Bj)) as (F4 & E4 & _).
  assert (M : forall k, rnd (F2R64 s * IZR k) <= rnd (F2R64 s * IZR (k + 1))).
  { intros k. apply rnd_le. rewrite plus_IZR. apply Rmult_le_compat_l; lra. }
  unfold world_cell_bounds, mk_rect, cx, cy. cbn [fst snd].
  assert (O1 : dle (dmul s (dofZ j)) (dmul s (dofZ (j + 1))) = true) by (apply F_le_fin; [exact F3|exact F4|]; rewrite E3, E4; apply M).
  assert (O2 : dle (dmul s (dofZ i)) (dmul s (dofZ (i + 1))) = true) by (apply F_le_fin; [exact F1|exact F2|]; rewrite E1, E2; apply M).
  rewrite O1, O2. cbn [andb]. eexists. split; [reflexivity|]. cbn [left right bot top]. unfold fin_rect. cbn [left right bot top].
  split; [auto|]. apply Rabs_le_inv in D1, D3. rewrite b52. rewrite E1, E3 in *. rewrite E2, E4. rewrite !plus_IZR.
  assert (Hx : F2R64 (ptx p) <= rnd (F2R64 s * (IZR i + 1))) by (apply rnd_ge; [apply F_fmt|lra]).
  assert (Hy : F2R64 (pty p) <= rnd (F2R64 s * (IZR j + 1))) by (apply rnd_ge; [apply F_fmt|lra]).
  split; (split; [|assumption]); rewrite Rmult_assoc in *; lra.
Qed.
Print Assumptions C02_reported_bounds_hold_the_point_binary64.

(** ... and the reported bounds of neighbours share their border, bit for bit *)
Theorem C02_neighbours_share_a_border_binary64 :
  forall (s : F64) (x y : Z) (b bx by_ : rect F64),
  world_cell_bounds s (x, y) = Ok b -> world_cell_bounds s ((x + 1)%Z, y) = Ok bx -> world_cell_bounds s (x, (y + 1)%Z) = Ok by_ ->
  right b = left bx /\ top b = bot by_ /\ bot b = bot bx /\ top b = top bx /\ left b = left by_ /\ right b = right by_.
Proof.
  intros s x y b bx by_. unfold world_cell_bounds, cx, cy, mk_rect. cbn [fst snd].
  destruct (_ && _)%bool; [|discriminate]. intros E. apply Ok_inj in E. subst b.
  destruct (_ && _)%bool; [|discriminate]. intros E. apply Ok_inj in E. subst bx.
  destruct (_ && _)%bool; [|discriminate]. intros E. apply Ok_inj in E. subst by_. cbn. auto 10.
Qed.
Print Assumptions C02_neighbours_share_a_border_binary64.

(** the lower margin is needed: with cells of 0.1 m the point 0.5 is, exactly, below the border 5 * 0.1 of the cell 5 it is put in *)
Theorem C02_point_below_its_cell_binary64 :
  exists (s : F64) (p : point F64) (c : coord),
  0 < F2R64 s /\ fin_point p /\ world_to_cell s p = Ok c /\ F2R64 (ptx p) < F2R64 s * IZR (fst c).
Proof.
  exists (dlit 1 10 : F64), (dlit 1 2, dlit 1 2), (5, 5)%Z.
  assert (V : (F2R64 (dlit 1 10) = IZR 7205759403792794 * bpow radix2 (-56))%R).
  { vm_cast_no_check (eq_refl (F2R64 (dlit 1 10 : F64))). }
  destruct GridNumProofs.F_half as [H _]. assert (PB := bpow_gt_0 radix2 (-56)). rewrite V.
  split; [apply Rmult_lt_0_compat; [lra|exact PB]|]. split; [split; vm_compute; reflexivity|]. split; [vm_compute; reflexivity|].
  unfold ptx. cbn [fst]. rewrite H.
  assert (B : bpow radix2 (-56) * bpow radix2 56 = 1) by (rewrite <- bpow_plus; reflexivity).
  change (bpow radix2 56) with 72057594037927936 in B. lra.
Qed.
Print Assumptions C02_point_below_its_cell_binary64.

(** C04.  Rectangle with finite sides whose computed area is neither zero nor infinite: the enumerated cells are those between
    the cells of its two corners, each once ... *)
Theorem C04_cells_of_a_rectangle_binary64 :
  forall (w h : Z) (origin : coord) (scale : F64) (r : rect F64) (st : raster) (fuel : nat) (l : list coord) (lb rt : coord),
  0 < F2R64 scale -> fin_rect r -> deq (rect_area r) (dofZ 0) = false -> dispinf (rect_area r) = false ->
  raster_rect w h origin scale r true = Ok st -> raster_to_vector fuel st = Ok l ->
  world_to_cell scale (left r, bot r) = Ok lb -> world_to_cell scale (right r, top r) = Ok rt -> enumerates_box lb rt l.
Proof.
  intros w h origin scale r st fuel l lb rt Hs HF A0 AI E EV Elb Ert.
  assert (H := raster_F w h origin scale r st fuel l Hs HF A0 AI E EV). destruct HF as (Fl & Fr & Fb & Ft).
  apply world_cell_F in Elb; [|exact Hs|split; assumption]. apply world_cell_F in Ert; [|exact Hs|split; assumption].
  rewrite Elb, Ert. exact H.
Qed.
Print Assumptions C04_cells_of_a_rectangle_binary64.

(** ... and the cell of every point of the rectangle is among them, however the quotients by the scale are rounded *)
Theorem C04_every_point_is_covered_binary64 :
  forall (w h : Z) (origin : coord) (scale : F64) (r : rect F64) (st : raster) (fuel : nat) (l : list coord) (p : point F64) (c : coord),
  0 < F2R64 scale -> fin_rect r -> deq (rect_area r) (dofZ 0) = false -> dispinf (rect_area r) = false ->
  raster_rect w h origin scale r true = Ok st -> raster_to_vector fuel st = Ok l ->
  fin_point p -> in_rect r p -> world_to_cell scale p = Ok c -> In c l.
Proof.
  intros w h origin scale r st fuel l p c Hs HF A0 AI E EV Fp [Px Py] Ec.
  destruct (raster_F w h origin scale r st fuel l Hs HF A0 AI E EV) as [_ HB].
  apply world_cell_F in Ec; [|exact Hs|exact Fp]. apply HB. rewrite Ec. cbn [fst snd].
  split; apply cells_between; assumption.
Qed.
Print Assumptions C04_every_point_is_covered_binary64.

(** sides between 2^-500 and 2^500 make the computed area neither zero nor infinite *)
Theorem C04_ordinary_rectangles_binary64 :
  forall r : rect F64, fin_rect r ->
  bpow radix2 (-500) <= F2R64 (right r) - F2R64 (left r) <= bpow radix2 500 ->
  bpow radix2 (-500) <= F2R64 (top r) - F2R64 (bot r) <= bpow radix2 500 ->
  deq (rect_area r) (dofZ 0) = false /\ dispinf (rect_area r) = false.
Proof. exact ordinary_area. Qed.
Print Assumptions C04_ordinary_rectangles_binary64.

(** C30.  The obstacle estimate never exceeds the area maximum in binary64 *)
Theorem C30_obstacle_estimate_is_at_most_the_maximum_binary64 :
  forall (C : Type) (impact : C -> outcome F64) (m : omap F64 C) (fuel : nat) (area : rect F64) (obstacle : point F64) (vo vm : F64),
  0 < F2R64 (om_scale m) -> fin_rect area ->
  (deq (rect_area area) (dofZ 0) = false /\ dispinf (rect_area area) = false \/
   F2R64 (left area) = F2R64 (right area) /\ F2R64 (bot area) = F2R64 (top area)) ->
  fin_point obstacle -> in_rect area obstacle ->
  obstacle_pe impact m obstacle = Ok vo -> max_pe impact m fuel area = Ok vm -> dle vo vm = true.
Proof.
  intros C impact m fuel area ob vo vm Hs HF HA Fo Ho EO EM.
  destruct (C30_max_estimate_is_the_maximum_binary64 _ _ _ _ _ _ EM) as (cells & EC & _ & _ & HB & _).
  unfold obstacle_pe in EO. apply bind_Ok_inv in EO as (c & Ec & EO).
  assert (IN : In c cells).
  { unfold area_cells in EC. apply bind_Ok_inv in EC as (st & Est & EC). destruct HA as [[A0 AI]|[Hh Hv]].
    - eapply C04_every_point_is_covered_binary64; eassumption.
    - apply (raster_point_F _ _ _ _ _ _ _ _ Hs HF Hh Hv Est) in EC. rewrite EC. left.
      apply world_cell_F in Ec; [|exact Hs|exact Fo]. rewrite Ec. destruct Ho as [Hx Hy]. unfold cellx.
      replace (F2R64 (ptx ob)) with (F2R64 (left area)) by lra. replace (F2R64 (pty ob)) with (F2R64 (bot area)) by lra. reflexivity. }
  destruct (HB c IN) as (i & Ei & Hi). rewrite EO in Ei. apply Ok_inj in Ei. subst i. exact Hi.
Qed.
Print Assumptions C30_obstacle_estimate_is_at_most_the_maximum_binary64.

(** a larger area has a maximum that is at least as large *)
Theorem C30_maximum_is_monotone_in_the_area_binary64 :
  forall (C : Type) (impact : C -> outcome F64) (m : omap F64 C) (fuel fuel' : nat) (a a' : rect F64) (v v' : F64),
  0 < F2R64 (om_scale m) -> fin_rect a -> fin_rect a' ->
  deq (rect_area a) (dofZ 0) = false -> dispinf (rect_area a) = false ->
  deq (rect_area a') (dofZ 0) = false -> dispinf (rect_area a') = false ->
  F2R64 (left a') <= F2R64 (left a) -> F2R64 (right a) <= F2R64 (right a') ->
  F2R64 (bot a') <= F2R64 (bot a) -> F2R64 (top a) <= F2R64 (top a') ->
  max_pe impact m fuel a = Ok v -> max_pe impact m fuel' a' = Ok v' -> dle v v' = true.
Proof.
  intros C impact m fuel fuel' a a' v v' Hs HF HF' A0 AI A0' AI' L R' B T E E'.
  destruct (C30_max_estimate_is_the_maximum_binary64 _ _ _ _ _ _ E) as (cells & EC & _ & _ & _ & W).
  destruct (C30_max_estimate_is_the_maximum_binary64 _ _ _ _ _ _ E') as (cells' & EC' & _ & P & HB & _).
  destruct W as [->|(c & Hc & Ec)]; [exact P|].
  destruct (area_F m fuel a cells Hs HF A0 AI EC) as [_ I1]. destruct (area_F m fuel' a' cells' Hs HF' A0' AI' EC') as [_ I2].
  assert (IN : In c cells').
  { apply I2. apply I1 in Hc. cbn [fst snd] in *.
    assert (M : forall x y : F64, F2R64 x <= F2R64 y -> (cellx (om_scale m) x <= cellx (om_scale m) y)%Z).
    { intros x y H. unfold cellx. apply rnd_div_mono; assumption. }
    apply M in L, R', B, T. lia. }
  destruct (HB c IN) as (i & Ei & Hi). rewrite Ec in Ei. apply Ok_inj in Ei. subst i. exact Hi.
Qed.
Print Assumptions C30_maximum_is_monotone_in_the_area_binary64.

(** the mean estimate: within (n + 1) * 2^-52 of the exact mean of the [n] covered impacts *)
Theorem C30_mean_estimate_binary64 :
  forall (C : Type) (impact : C -> outcome F64) (m : omap F64 C) (fuel : nat) (area : rect F64) (cells : list coord) (v : F64),
  area_cells m fuel area = Ok cells -> cells <> [] -> INR (length cells) <= bpow radix2 50 ->
  (forall c i, In c cells -> cell_impact impact m c = Ok i -> F_fin i = true /\ 0 <= F2R64 i <= 1) ->
  mean_pe impact m fuel area = Ok v ->
  exists is, Forall2 (fun c i => cell_impact impact m c = Ok i) cells is /\ F_fin v = true /\
    Rabs (F2R64 v - Rmean (map (fun i => F2R64 i) is)) <= (INR (length cells) + 1) * bpow radix2 (-52).
Proof.
  intros C impact m fuel area cells v EC NE HN HI E. unfold mean_pe in E. rewrite EC in E. cbn [bind] in E.
  apply bind_Ok_inv in E as ([tot n] & EL & E). apply mean_loop_F in EL as (vs & HV & -> & ->).
  assert (LN := Forall2_len _ _ _ HV). exists vs. split; [exact HV|]. rewrite Z.add_0_l, LN in *.
  assert (NV : vs <> []) by (intros ->; destruct cells; [congruence|discriminate]).
  assert (NZ : (Z.of_nat (length vs) =? 0)%Z = false) by (apply Z.eqb_neq; destruct vs; [congruence|cbn [length]; lia]).
  rewrite NZ in E. apply Ok_inj in E. subst v. apply mean_value; [|exact NV|exact HN].
  clear - HV HI. induction HV as [|c x cells vs Hx HV IH]; constructor.
  - apply (HI c); [now left|exact Hx].
  - apply IH. intros c' i' Hc. apply HI. now right.
Qed.
Print Assumptions C30_mean_estimate_binary64.

(** ... so it lies between any bounds of the covered impacts, up to that error, and exceeds the maximum estimate by no more *)
Theorem C30_mean_is_between_minimum_and_maximum_binary64 :
  forall (C : Type) (impact : C -> outcome F64) (m : omap F64 C) (fuel : nat) (area : rect F64) (cells : list coord) (v : F64) (lo hi : R),
  area_cells m fuel area = Ok cells -> cells <> [] -> INR (length cells) <= bpow radix2 50 ->
  (forall c i, In c cells -> cell_impact impact m c = Ok i -> F_fin i = true /\ 0 <= F2R64 i <= 1) ->
  (forall c i, In c cells -> cell_impact impact m c = Ok i -> lo <= F2R64 i <= hi) ->
  mean_pe impact m fuel area = Ok v ->
  lo - (INR (length cells) + 1) * bpow radix2 (-52) <= F2R64 v <= hi + (INR (length cells) + 1) * bpow radix2 (-52).
Proof.
  intros C impact m fuel area cells v lo hi EC NE HN HI HB E.
  destruct (C30_mean_estimate_binary64 C impact m fuel area cells v EC NE HN HI E) as (is & H2 & _ & H).
  apply Rabs_le_inv in H. assert (LN := Forall2_len _ _ _ H2).
  assert (S : INR (length is) * lo <= Rsum (map (fun i => F2R64 i) is) <= INR (length is) * hi).
  { clear - H2 HB. induction H2 as [|c i cells is Hi H2 IH]; [unfold Rsum; cbn; lra|].
    assert (Bi := HB c i (or_introl eq_refl) Hi). specialize (IH ltac:(intros c' i' Hc; apply HB; now right)).
    cbn [map length]. rewrite S_INR. unfold Rsum in *. cbn [fold_right]. lra. }
  assert (PN : 0 < INR (length is)). { rewrite <- LN. destruct cells; [congruence|]. apply lt_0_INR. cbn [length]. lia. }
  assert (M : lo <= Rmean (map (fun i => F2R64 i) is) <= hi).
  { unfold Rmean. rewrite map_length. split; (apply Rmult_le_reg_r with (INR (length is)); [exact PN|]);
      unfold Rdiv; rewrite Rmult_assoc, Rinv_l by lra; lra. }
  lra.
Qed.
Print Assumptions C30_mean_is_between_minimum_and_maximum_binary64.

Theorem C30_mean_is_at_most_the_maximum_estimate_binary64 :
  forall (C : Type) (impact : C -> outcome F64) (m : omap F64 C) (fuel : nat) (area : rect F64) (cells : list coord) (v vm : F64),
  area_cells m fuel area = Ok cells -> cells <> [] -> INR (length cells) <= bpow radix2 50 ->
  (forall c i, In c cells -> cell_impact impact m c = Ok i -> F_fin i = true /\ 0 <= F2R64 i <= 1) ->
  mean_pe impact m fuel area = Ok v -> max_pe impact m fuel area = Ok vm ->
  F2R64 v <= F2R64 vm + (INR (length cells) + 1) * bpow radix2 (-52).
Proof.
  intros C impact m fuel area cells v vm EC NE HN HI E EM.
  destruct (C30_max_estimate_is_the_maximum_binary64 _ _ _ _ _ _ EM) as (cells' & EC' & _ & _ & HB & W).
  rewrite EC in EC'. apply Ok_inj in EC'. subst cells'.
  assert (FM : F_fin vm = true). { destruct W as [->|(c & Hc & Ec)]; [reflexivity|apply (HI c vm Hc Ec)]. }
  eapply (proj2 (C30_mean_is_between_minimum_and_maximum_binary64 C impact m fuel area cells v 0 (F2R64 vm) EC NE HN HI _ E)).
  Unshelve. intros c i Hc Ei. destruct (HI c i Hc Ei) as [Fi Bi]. split; [apply Bi|].
  destruct (HB c Hc) as (i' & Ei' & Hi). rewrite Ei in Ei'. apply Ok_inj in Ei'. subst i'. now apply F_le_fin in Hi.
Qed.
Print Assumptions C30_mean_is_at_most_the_maximum_estimate_binary64.

Lemma two_results {A} (f : A -> A -> bool) (x y : outcome A) :
  match x, y with Ok v, Ok w => f w v | _, _ => false end = true -> exists v w, x = Ok v /\ y = Ok w /\ f w v = true.
Proof. destruct x as [v| | |]; try discriminate. destruct y as [w| | |]; try discriminate. intros H. exists v, w. auto. Qed.

(** without that margin the claim fails: three cells of impact 0.1 have a mean above their maximum *)
Theorem C30_mean_may_exceed_the_maximum_binary64 :
  exists (m : omap F64 F64) (area : rect F64) (v vm : F64),
  fin_rect area /\ 0 < F2R64 (om_scale m) /\
  (forall c, om_cell m c = Ok (dlit 1 10)) /\
  mean_pe (fun i => Ok i) m 100 area = Ok v /\ max_pe (fun i => Ok i) m 100 area = Ok vm /\ dlt vm v = true.
Proof.
  pose (m := mkOmap 10 10 (5, 5)%Z (dofZ 1 : F64) (fun _ => true) (fun _ => Ok (dlit 1 10 : F64))).
  pose (area := mkRect (dlit 1 4 : F64) (dlit 3 4) (dlit 1 2) (dlit 5 2)).
  assert (H : match mean_pe (fun i => Ok i) m 100 area, max_pe (fun i => Ok i) m 100 area with
              | Ok v, Ok vm => dlt vm v | _, _ => false end = true) by (vm_compute; reflexivity).
  exists m, area. apply two_results in H as (v & vm & E1 & E2 & H). exists v, vm. destruct F_one as [O1 O2].
  split; [repeat split; vm_compute; reflexivity|]. split; [cbn [om_scale m]; rewrite O1; lra|]. split; [reflexivity|].
  split; [exact E1|]. split; [exact E2|exact H].
Qed.
Print Assumptions C30_mean_may_exceed_the_maximum_binary64.

(** a case meeting the hypotheses: the same map with two values, an area of six cells and an obstacle in it *)
Example estimates_example :
  let m := mkOmap 10 10 (5, 5)%Z (dlit 1 2 : F64) (fun _ => true) (fun c => Ok (if Z.even (fst c) then dlit 1 10 else dlit 7 10 : F64)) in
  let area := mkRect (dlit 1 10 : F64) (dlit 9 10) (dlit 1 4) (dlit 5 4) in
  let ob := (dlit 1 2 : F64, dlit 1 2 : F64) in
  fin_rect area /\ deq (rect_area area) (dofZ 0) = false /\ dispinf (rect_area area) = false /\ fin_point ob /\
  (match area_cells m 100 area with Ok l => length l = 6%nat | _ => False end) /\
  (match obstacle_pe (fun i => Ok i) m ob, mean_pe (fun i => Ok i) m 100 area, max_pe (fun i => Ok i) m 100 area with
   | Ok a, Ok b, Ok c => dlt b a && dle a c | _, _, _ => false end) = true.
Proof.
  cbv zeta. split; [repeat split; vm_compute; reflexivity|]. split; [vm_compute; reflexivity|]. split; [vm_compute; reflexivity|].
  split; [split; vm_compute; reflexivity|]. split; vm_compute; reflexivity.
Qed.
