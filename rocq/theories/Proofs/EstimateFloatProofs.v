(** Covered cells and area estimates in binary64 (C04, C30). *)
From Coq Require Import Reals ZArith List Bool Lia Lra.
From Flocq Require Import Core IEEE754.BinarySingleNaN IEEE754.Binary IEEE754.Bits.
From Verif.Base Require Import Outcome Num F64Facts.
From Verif.Model Require Import MathUtils Geometry Grid Spe Sensor.
From Verif.Spec Require Import GeometrySpec CellSpec WorldSpec EstimateSpec.
From Verif.Proofs Require Import ListFacts GridProofs GridNumProofs RasterProofs RectProofs TbmFloatProofs MeanFloatProofs PoseFloatProofs SpeProofs AreaRange CellProofs.
Import ListNotations.
Local Open Scope R_scope.

Lemma F_no_ovf (x : F64) : no_ovf (F2R64 x).
Proof. unfold no_ovf. rewrite rnd_id by apply F_fmt. apply F_abs_lt. Qed.

Lemma add_zero (x : F64) : F_fin x = true -> F_fin (dadd x (dofZ 0)) = true /\ F2R64 (dadd x (dofZ 0)) = F2R64 x.
Proof.
  intros F. destruct F_zero as [E0 F0].
  destruct (F_add_correct x (dofZ 0) F F0) as [A B].
  { rewrite E0, Rplus_0_r. apply F_no_ovf. }
  split; [exact B|]. rewrite A, E0, Rplus_0_r. apply rnd_id, F_fmt.
Qed.
Lemma sub_zero (x : F64) : F_fin x = true -> F_fin (dsub x (dofZ 0)) = true /\ F2R64 (dsub x (dofZ 0)) = F2R64 x.
Proof.
  intros F. destruct F_zero as [E0 F0].
  destruct (F_sub_correct x (dofZ 0) F F0) as [A B].
  { rewrite E0, Rminus_0_r. apply F_no_ovf. }
  split; [exact B|]. rewrite A, E0, Rminus_0_r. apply rnd_id, F_fmt.
Qed.

Definition cellx (s x : F64) : Z := Zfloor (rnd (F2R64 x / F2R64 s)).

Lemma world_cell_F (s : F64) (p : point F64) c : 0 < F2R64 s -> fin_point p -> world_to_cell s p = Ok c ->
  c = (cellx s (ptx p), cellx s (pty p)).
Proof.
  intros Hs [Fx Fy] E. apply F_world_to_cell_inv in E; try assumption; [|lra]. destruct c as [i j]. cbn [fst snd] in E.
  unfold cellx. destruct E as [<- <-]. reflexivity.
Qed.

Lemma cells_between (s a x b : F64) : 0 < F2R64 s -> F2R64 a <= F2R64 x <= F2R64 b -> (cellx s a <= cellx s x <= cellx s b)%Z.
Proof. intros Hs H. unfold cellx. split; apply rnd_div_mono; lra. Qed.

Lemma raster_F (w h : Z) (origin : coord) (s : F64) (r : rect F64) st fuel l : 0 < F2R64 s -> fin_rect r ->
  deq (rect_area r) (dofZ 0) = false -> dispinf (rect_area r) = false ->
  raster_rect w h origin s r true = Ok st -> raster_to_vector fuel st = Ok l ->
  enumerates_box (cellx s (left r), cellx s (bot r)) (cellx s (right r), cellx s (top r)) l.
Proof.
  intros Hs (Fl & Fr & Fb & Ft) A0 AI E EV. unfold raster_rect in E. rewrite A0, AI in E. cbn [negb andb] in E.
  apply bind_Ok_inv in E as (lb & El & E). apply bind_Ok_inv in E as (rt & Er & E). apply Ok_inj in E. subst st.
  destruct (add_zero _ Fl) as [Gl Vl]. destruct (add_zero _ Fb) as [Gb Vb].
  destruct (sub_zero _ Fr) as [Gr Vr]. destruct (sub_zero _ Ft) as [Gt Vt].
  apply world_cell_F in El; [|exact Hs|split; assumption]. apply world_cell_F in Er; [|exact Hs|split; assumption].
  unfold ptx, pty, cellx in El, Er. cbn [fst snd] in El, Er. rewrite Vl, Vb in El. rewrite Vr, Vt in Er.
  destruct (raster_to_vector_spec lb rt (Nat.max fuel (box_cells lb rt)) ltac:(lia)) as (l' & El' & HB).
  rewrite (raster_fuel_mono fuel (Nat.max fuel (box_cells lb rt)) _ l ltac:(lia) EV) in El'. apply Ok_inj in El'. subst l'.
  unfold cellx. rewrite <- El, <- Er. exact HB.
Qed.

Lemma raster_point_F (w h : Z) (origin : coord) (s : F64) (r : rect F64) st fuel l : 0 < F2R64 s -> fin_rect r ->
  F2R64 (left r) = F2R64 (right r) -> F2R64 (bot r) = F2R64 (top r) ->
  raster_rect w h origin s r true = Ok st -> raster_to_vector fuel st = Ok l -> l = [(cellx s (left r), cellx s (bot r))].
Proof.
  intros Hs (Fl & Fr & Fb & Ft) Hh Hv E EV. destruct F_zero as [E0 F0].
  destruct (F_sub_correct (top r) (bot r) Ft Fb) as [A1 B1]; [rewrite Hv, Rminus_diag_eq by reflexivity; apply no_ovf_1; lra|].
  destruct (F_sub_correct (right r) (left r) Fr Fl) as [A2 B2]; [rewrite Hh, Rminus_diag_eq by reflexivity; apply no_ovf_1; lra|].
  rewrite Hv, Rminus_diag_eq, rnd_0 in A1 by reflexivity. rewrite Hh, Rminus_diag_eq, rnd_0 in A2 by reflexivity.
  destruct (F_mul_correct (dsub (top r) (bot r)) (dsub (right r) (left r)) B1 B2) as [A3 B3];
    [rewrite A1, Rmult_0_l; apply no_ovf_1; lra|]. rewrite A1, Rmult_0_l, rnd_0 in A3.
  assert (Z0 : deq (rect_area r) (dofZ 0) = true).
  { unfold rect_area, vside_len, hside_len. apply F_eq_fin; [exact B3|exact F0|]. rewrite A3, E0. reflexivity. }
  unfold raster_rect in E. rewrite Z0 in E. cbn [negb andb] in E. apply bind_Ok_inv in E as (c & Ec & E). apply Ok_inj in E. subst st.
  apply world_cell_F in Ec; [|exact Hs|split; assumption]. unfold ptx, pty in Ec. cbn [fst snd] in Ec. rewrite <- Ec.
  destruct (raster_to_vector_spec c c (Nat.max fuel (box_cells c c)) ltac:(lia)) as (l' & El' & HN & HB).
  rewrite (raster_fuel_mono fuel (Nat.max fuel (box_cells c c)) _ l ltac:(lia) EV) in El'. apply Ok_inj in El'. subst l'.
  assert (U : forall x, In x l <-> x = c).
  { intros [x y]. rewrite HB. destruct c as [i j]. cbn [fst snd]. split; [intros [? ?]; f_equal; lia|intros E; injection E as -> ->; lia]. }
  destruct l as [|a l]; [exfalso; apply (proj2 (U c) eq_refl)|]. assert (Ea : a = c) by (apply U; now left). subst a.
  destruct l as [|b l]; [reflexivity|]. assert (Eb : b = c) by (apply U; right; now left). subst b.
  apply NoDup_cons_iff in HN as [HN _]. exfalso. apply HN. now left.
Qed.

(** sides between 2^-500 and 2^500: the computed area is neither zero nor infinite *)
Lemma ordinary_area (r : rect F64) : fin_rect r ->
  bpow radix2 (-500) <= F2R64 (right r) - F2R64 (left r) <= bpow radix2 500 ->
  bpow radix2 (-500) <= F2R64 (top r) - F2R64 (bot r) <= bpow radix2 500 ->
  deq (rect_area r) (dofZ 0) = false /\ dispinf (rect_area r) = false.
Proof.
  intros (Fl & Fr & Fb & Ft) Hh Hv. destruct F_zero as [E0 F0].
  assert (P5 := bpow_gt_0 radix2 (-500)). assert (B5 := bpow_gt_0 radix2 500).
  assert (O : forall x, bpow radix2 (-500) <= x <= bpow radix2 500 -> no_ovf x).
  { intros x Hx. apply (no_ovf_le (bpow radix2 500)); [apply fmt_bpow; lia|apply bpow_lt; lia|rewrite Rabs_pos_eq; lra]. }
  destruct (F_sub_correct (top r) (bot r) Ft Fb (O _ Hv)) as [A1 B1]. destruct (F_sub_correct (right r) (left r) Fr Fl (O _ Hh)) as [A2 B2].
  assert (R1 := rnd_between _ _ _ (fmt_bpow (-500) ltac:(lia)) (fmt_bpow 500 ltac:(lia)) Hv). rewrite <- A1 in R1.
  assert (R2 := rnd_between _ _ _ (fmt_bpow (-500) ltac:(lia)) (fmt_bpow 500 ltac:(lia)) Hh). rewrite <- A2 in R2.
  assert (M : bpow radix2 (-1000) <= F2R64 (dsub (top r) (bot r)) * F2R64 (dsub (right r) (left r)) <= bpow radix2 1000).
  { change (-1000)%Z with (-500 + -500)%Z. change 1000%Z with (500 + 500)%Z. rewrite !bpow_plus. split; apply Rmult_le_compat; lra. }
  assert (PM := bpow_gt_0 radix2 (-1000)).
  destruct (F_mul_correct (dsub (top r) (bot r)) (dsub (right r) (left r)) B1 B2) as [A3 B3].
  { apply (no_ovf_le (bpow radix2 1000)); [apply fmt_bpow; lia|apply bpow_lt; lia|]. apply Rabs_le. clear - M PM. split; [|apply M]. destruct M as [M _].
    assert (P' := bpow_gt_0 radix2 1000). lra. }
  assert (R3 := rnd_between _ _ _ (fmt_bpow (-1000) ltac:(lia)) (fmt_bpow 1000 ltac:(lia)) M). rewrite <- A3 in R3.
  unfold rect_area, vside_len, hside_len. split.
  - destruct (deq _ _) eqn:E; [|reflexivity]. apply F_eq_fin in E; [|exact B3|exact F0]. rewrite E0 in E. rewrite E in R3. lra.
  - revert B3. generalize (dmul (dsub (top r) (bot r)) (dsub (right r) (left r))). intros x. destruct x; cbn; congruence.
Qed.

Lemma area_F {C} (m : omap F64 C) fuel (area : rect F64) cells : 0 < F2R64 (om_scale m) -> fin_rect area ->
  deq (rect_area area) (dofZ 0) = false -> dispinf (rect_area area) = false -> area_cells m fuel area = Ok cells ->
  enumerates_box (cellx (om_scale m) (left area), cellx (om_scale m) (bot area)) (cellx (om_scale m) (right area), cellx (om_scale m) (top area)) cells.
Proof.
  intros Hs HF A0 AI E. unfold area_cells in E. apply bind_Ok_inv in E as (st & Est & E).
  eapply raster_F; eassumption.
Qed.

(** the running total and the number of cells *)
Lemma mean_loop_F {C} (impact : C -> outcome F64) (m : omap F64 C) : forall l t n t' n', mean_loop impact m l t n = Ok (t', n') ->
  exists vs, Forall2 (fun c v => cell_impact impact m c = Ok v) l vs /\ t' = fold_left dadd vs t /\ n' = (n + Z.of_nat (length l))%Z.
Proof.
  induction l as [|c l IH]; intros t n t' n' E; cbn [mean_loop] in E.
  - apply Ok_inj in E. injection E as <- <-. exists []. cbn [length fold_left]. split; [constructor|]. split; [reflexivity|lia].
  - apply bind_Ok_inv in E as (v & Ev & E). apply IH in E as (vs & H & -> & ->). exists (v :: vs).
    split; [constructor; assumption|]. split; [reflexivity|cbn [length]; lia].
Qed.

Lemma sum_f01 (vs : list F64) : Forall f01 vs -> 0 <= Rsum (map (fun x => F2R64 x) vs) <= INR (length vs) /\
  Rsum (map (fun x => Rabs (F2R64 x)) vs) = Rsum (map (fun x => F2R64 x) vs).
Proof.
  induction 1 as [|v vs [_ [V1 V2]] HV [IH1 IH2]]; [unfold Rsum; cbn; lra|]. unfold Rsum in *. cbn [map fold_right length].
  rewrite S_INR, IH2, (Rabs_pos_eq (F2R64 v)) by exact V1. lra.
Qed.

Lemma mean_value (vs : list F64) : Forall f01 vs -> vs <> [] -> INR (length vs) <= bpow radix2 50 ->
  F_fin (ddiv (fold_left dadd vs (dofZ 0)) (dofZ (Z.of_nat (length vs)))) = true /\
  Rabs (F2R64 (ddiv (fold_left dadd vs (dofZ 0)) (dofZ (Z.of_nat (length vs)))) - Rmean (map (fun x => F2R64 x) vs))
    <= (INR (length vs) + 1) * bpow radix2 (-52).
Proof.
  intros HV NE HN. destruct (sum_f01 vs HV) as [SB SA]. set (n := INR (length vs)) in *.
  assert (N1 : 1 <= n). { unfold n. destruct vs as [|v vs]; [congruence|]. cbn [length]. rewrite S_INR. assert (H := pos_INR (length vs)). lra. }
  destruct F_zero as [E0 F0]. assert (PH := hh_pos). assert (SH := hh_small).
  destruct (sum_error n vs) with (s := (dofZ 0 : F64)) (S := 0) (T := 0) (k := 0%nat) as [FT ET].
  - split; [lra|]. eapply Rle_trans; [exact HN|]. apply bpow_le. lia.
  - exact F0.
  - eapply Forall_impl; [|exact HV]. intros x [Fx _]. exact Fx.
  - rewrite E0. cbn [INR]. rewrite Rminus_0_r, Rabs_R0. lra.
  - rewrite Rabs_R0. lra.
  - rewrite SA. lra.
  - cbn [Nat.add]. fold n. eapply Rle_trans; [exact HN|]. apply bpow_le. lia.
  - cbn [Nat.add] in ET. fold n in ET. rewrite Rplus_0_l in ET. set (S := Rsum (map (fun x : F64 => F2R64 x) vs)) in *.
    set (t := fold_left dadd vs (dofZ 0 : F64)) in *.
    assert (LN : (Z.of_nat (length vs) <= 2 ^ 50)%Z).
    { apply le_IZR. rewrite <- INR_IZR_INZ. fold n. exact HN. }
    destruct (F_ofZ_correct (Z.of_nat (length vs)) ltac:(lia)) as [EN FN]. rewrite <- INR_IZR_INZ in EN. fold n in EN.
    assert (U : n * (2 * hh) <= / 4).
    { eapply Rle_trans; [apply Rmult_le_compat_r; [lra|exact HN]|]. rewrite <- b52, <- bpow_plus. change (50 + -52)%Z with (-2)%Z. right. reflexivity. }
    assert (EQ : Rabs (F2R64 t / n - S / n) <= n * (2 * hh)).
    { replace (F2R64 t / n - S / n) with ((F2R64 t - S) / n) by (field; lra). unfold Rdiv. rewrite Rabs_mult, (Rabs_pos_eq (/ n)) by (left; apply Rinv_0_lt_compat; lra).
      apply Rmult_le_reg_r with n; [lra|]. rewrite Rmult_assoc, Rinv_l, Rmult_1_r by lra. eapply Rle_trans; [exact ET|]. right. ring. }
    assert (QB : 0 <= S / n <= 1).
    { split; (apply Rmult_le_reg_r with n; [lra|]); unfold Rdiv; rewrite Rmult_assoc, Rinv_l by lra; lra. }
    apply Rabs_le_inv in EQ as EQ'. assert (TB : Rabs (F2R64 t / n) <= 2).
    { replace (F2R64 t / n) with ((F2R64 t / n - S / n) + S / n) by ring. eapply Rle_trans; [apply Rabs_triang|]. rewrite (Rabs_pos_eq (S / n)) by apply QB. lra. }
    destruct (F_div_correct t (dofZ (Z.of_nat (length vs))) FT) as [ED FD]; [rewrite EN; lra| |].
    { rewrite EN. apply (no_ovf_small 2); [lia|]. apply Rabs_le_inv in TB. lra. }
    split; [exact FD|]. rewrite ED, EN. unfold Rmean. rewrite map_length. fold n. change (CellSpec.Rsum (map (fun x : F64 => F2R64 x) vs)) with S.
    assert (RE := err_bound (F2R64 t / n) 2 ltac:(change 2 with (bpow radix2 1); apply bpow_le; lia) TB).
    rewrite b52. assert (T3 := Rabs_triang (rnd (F2R64 t / n) - F2R64 t / n) (F2R64 t / n - S / n)).
    replace (rnd (F2R64 t / n) - F2R64 t / n + (F2R64 t / n - S / n)) with (rnd (F2R64 t / n) - S / n) in T3 by ring. lra.
Qed.

Lemma Forall2_len {A B} (P : A -> B -> Prop) l l' : Forall2 P l l' -> length l = length l'.
Proof. induction 1; cbn; congruence. Qed.

(** the cell of a point: the quotient by the scale, rounded, lies in the cell *)
Lemma quotient_in_cell (y : R) (i : Z) : in_int i = true -> Zfloor (rnd y) = i ->
  IZR i - (Rabs (IZR i) + 1) * hh <= y < IZR i + 1.
Proof.
  intros Ii E. apply Zfloor_iff in E. assert (PH := hh_pos). assert (SH := hh_small).
  unfold in_int, int_min, int_max in Ii. apply andb_true_iff in Ii. destruct Ii as [I1 I2]. apply Z.leb_le in I1, I2.
  change (2 ^ 31)%Z with 2147483648%Z in *.
  assert (FI : forall k, (Z.abs k <= 4294967296)%Z -> fmt64 (IZR k)).
  { intros k Hk. apply fmt_IZR. change (2 ^ 53)%Z with 9007199254740992%Z. lia. }
  assert (U : y < IZR i + 1).
  { apply Rnot_le_lt. intros H. rewrite <- plus_IZR in H. apply (rnd_ge _ _ (FI (i + 1)%Z ltac:(lia))) in H. rewrite plus_IZR in H. lra. }
  split; [|exact U]. destruct (Rle_or_lt (IZR i) y) as [H|H].
  - assert (P := Rabs_pos (IZR i)). assert (0 <= (Rabs (IZR i) + 1) * hh) by (apply Rmult_le_pos; lra). lra.
  - assert (L : IZR i - 1 < y).
    { apply Rnot_le_lt. intros HL. rewrite <- minus_IZR in HL. apply (rnd_le_fmt _ _ (FI (i - 1)%Z ltac:(lia))) in HL. rewrite minus_IZR in HL. lra. }
    assert (A : Rabs y <= Rabs (IZR i) + 1).
    { replace y with (IZR i + (y - IZR i)) by ring. eapply Rle_trans; [apply Rabs_triang|]. apply Rplus_le_compat_l. apply Rabs_le. lra. }
    assert (B : Rabs (rnd y - y) <= hh * (Rabs (IZR i) + 1)).
    { apply err_bound; [|exact A]. apply Rle_trans with (bpow radix2 0); [apply bpow_le; lia|]. change (bpow radix2 0) with 1. assert (P := Rabs_pos (IZR i)). lra. }
    apply Rabs_le_inv in B. lra.
Qed.

Lemma coord_in_cell (s x : F64) (i : Z) : 0 < F2R64 s -> in_int i = true -> cellx s x = i ->
  F2R64 s * IZR i - F2R64 s * ((Rabs (IZR i) + 1) * hh) <= F2R64 x < F2R64 s * (IZR i + 1).
Proof.
  intros Hs Ii E. apply quotient_in_cell in E; [|exact Ii]. replace (F2R64 x) with (F2R64 s * (F2R64 x / F2R64 s)) by (field; lra).
  rewrite <- Rmult_minus_distr_l. split; [apply Rmult_le_compat_l; lra|apply Rmult_lt_compat_l; lra].
Qed.

(** a border of a cell as computed: the product by the scale, rounded *)
Lemma border_value (s : F64) (k : Z) : F_fin s = true -> bpow radix2 (-900) <= F2R64 s <= bpow radix2 900 -> (Z.abs k <= 2 ^ 31)%Z ->
  F_fin (dmul s (dofZ k)) = true /\ F2R64 (dmul s (dofZ k)) = rnd (F2R64 s * IZR k) /\
  Rabs (F2R64 (dmul s (dofZ k)) - F2R64 s * IZR k) <= F2R64 s * ((Rabs (IZR k) + 1) * hh).
Proof.
  intros Fs Hs Hk. assert (P9 := bpow_gt_0 radix2 (-900)). assert (PH := hh_pos).
  destruct (F_ofZ_correct k) as [Ek Fk]. { change (2 ^ 53)%Z with 9007199254740992%Z. change (2 ^ 31)%Z with 2147483648%Z in Hk. lia. }
  assert (Ak : Rabs (IZR k) <= bpow radix2 31).
  { rewrite <- abs_IZR. change (bpow radix2 31) with (IZR (2 ^ 31)). apply IZR_le. exact Hk. }
  assert (AB : Rabs (F2R64 s * IZR k) <= F2R64 s * (Rabs (IZR k) + 1)).
  { rewrite Rabs_mult, (Rabs_pos_eq (F2R64 s)) by lra. apply Rmult_le_compat_l; lra. }
  destruct (F_mul_correct s (dofZ k) Fs Fk) as [E F].
  { rewrite Ek. apply ovf_1001. eapply Rle_trans; [exact AB|]. apply Rle_trans with (bpow radix2 900 * bpow radix2 32).
    - apply Rmult_le_compat; [lra| |apply Hs|]; [assert (P := Rabs_pos (IZR k)); lra|]. change 32%Z with (31 + 1)%Z. rewrite bpow_plus.
      change (bpow radix2 1) with 2. assert (1 <= bpow radix2 31) by (change 1 with (bpow radix2 0); apply bpow_le; lia). lra.
    - rewrite <- bpow_plus. apply bpow_le. lia. }
  rewrite Ek in E. split; [exact F|]. split; [exact E|]. rewrite E.
  replace (F2R64 s * ((Rabs (IZR k) + 1) * hh)) with (hh * (F2R64 s * (Rabs (IZR k) + 1))) by ring. apply err_bound; [|exact AB].
  apply Rle_trans with (bpow radix2 (-900)); [apply bpow_le; lia|]. assert (P := Rabs_pos (IZR k)). nra.
Qed.

Lemma world_cell_int (s : F64) (p : point F64) c : world_to_cell s p = Ok c -> in_int (fst c) = true /\ in_int (snd c) = true.
Proof.
  unfold world_to_cell, floor_int. intros E. apply bind_Ok_inv in E as (u & _ & E). apply bind_Ok_inv in E as (x & Ex & E).
  apply bind_Ok_inv in E as (y & Ey & E). apply Ok_inj in E. subst c. cbn [fst snd].
  apply to_int_Ok in Ex, Ey. split; [apply Ex|apply Ey].
Qed.
