(** Scan probability estimation (C29, C30). *)
From Coq Require Import Reals ZArith List Lia Lra Bool.
From Flocq Require Import Core IEEE754.BinarySingleNaN IEEE754.Binary IEEE754.Bits.
From Verif.Base Require Import Outcome Num F64Facts OrdLaws.
From Verif.Model Require Import MathUtils Geometry Grid Sensor Spe.
From Verif.Spec Require Import GeometrySpec GridSpec SpeSpec.
From Verif.Proofs Require Import GridProofs GridNumProofs RasterProofs.
Import ListNotations.
Local Open Scope Z_scope.

(** ** the weighted mean, exactly *)
Lemma estimate_loop_rows (weight : Z -> outcome R) (prob : scan_point R -> outcome R) pts : forall i tp tw tot w,
  estimate_loop weight prob i pts tp tw = Ok (tot, w) ->
  exists rows, length rows = length pts /\
    (forall k s, nth_error pts k = Some s -> exists r, nth_error rows k = Some r /\
        prob s = Ok (r_p r) /\ weight (i + Z.of_nat k) = Ok (r_w r) /\ r_f r = sp_factor s) /\
    tot = (tp + mass_sum rows)%R /\ w = (tw + weight_sum rows)%R.
Proof.
  induction pts as [|s pts IH]; cbn [estimate_loop]; intros i tp tw tot w E.
  - injection E as <- <-. exists []. cbn. repeat split; try lra. intros [|k] s; discriminate.
  - apply bind_Ok_inv in E as (p & Ep & E). apply bind_Ok_inv in E as (wt & Ew & E).
    apply IH in E as (rows & HL & HR & Et & Ew'). exists (mkRow p wt (sp_factor s) :: rows).
    split; [cbn; now rewrite HL|]. split; [|rewrite Et, Ew'; cbn [dadd dmul ROps mass_sum weight_sum fold_right r_p r_w r_f]; split; unfold mass_sum, weight_sum; ring].
    intros [|k] s' Hk; cbn [nth_error] in *.
    + injection Hk as <-. eexists. split; [reflexivity|]. cbn [r_p r_w r_f]. rewrite Z.add_0_r. auto.
    + destruct (HR k s' Hk) as (r & A & B & C & F). exists r. split; [exact A|]. split; [exact B|]. split; [|exact F].
      rewrite <- C. f_equal. lia.
Qed.

Lemma mean_bounds lo hi rows : (forall r, In r rows -> lo <= r_p r <= hi /\ 0 <= r_w r /\ r_f r = 1)%R ->
  (lo * weight_sum rows <= mass_sum rows <= hi * weight_sum rows /\ 0 <= weight_sum rows)%R.
Proof.
  induction rows as [|r rows IH]; intros H; [cbn; lra|].
  change (weight_sum (r :: rows)) with (r_w r + weight_sum rows)%R.
  change (mass_sum (r :: rows)) with (r_p r * r_w r * r_f r + mass_sum rows)%R.
  destruct (H r (or_introl eq_refl)) as (A & B & C). destruct IH as [I J]; [intros; apply H; now right|].
  rewrite C. assert (lo * r_w r <= r_p r * r_w r <= hi * r_w r)%R by (split; apply Rmult_le_compat_r; lra). lra.
Qed.

(** ** the weighted mean in binary64 *)
Lemma F_add_nonneg (x y : F64) : F_fin x = true -> F_fin y = true -> (0 <= F2R64 x)%R -> (0 <= F2R64 y)%R ->
  (F_fin (dadd x y) = true /\ F2R64 (dadd x y) = rnd (F2R64 x + F2R64 y)) \/
  ((dadd x y : F64) = B754_infinity 53 1024 false /\ (fmax_bound <= rnd (F2R64 x + F2R64 y))%R).
Proof.
  intros Fx Fy Hx Hy.
  assert (P : (0 <= rnd (F2R64 x + F2R64 y))%R) by (rewrite <- rnd_0; apply rnd_le; lra).
  destruct (Rlt_or_le (rnd (F2R64 x + F2R64 y)) fmax_bound) as [L|L].
  - left. destruct (F_add_correct x y Fx Fy) as [A B]; [unfold no_ovf; now rewrite Rabs_pos_eq|]. auto.
  - right. split; [|exact L].
    generalize (Bplus_correct 53 1024 eq_refl eq_refl binop_nan_pl64 mode_NE x y Fx Fy).
    change (round radix2 (SpecFloat.fexp 53 1024) (round_mode mode_NE) (B2R 53 1024 x + B2R 53 1024 y)) with (rnd (F2R64 x + F2R64 y)).
    rewrite Rlt_bool_false by (rewrite Rabs_pos_eq by exact P; exact L).
    intros [H1 H2]. apply B2FF_ovf in H1.
    assert (Sx : Bsign 53 1024 x = false).
    { destruct (Bsign 53 1024 x) eqn:E; [exfalso|reflexivity].
      assert (G : forall z : F64, F_fin z = true -> (0 <= F2R64 z)%R -> Bsign 53 1024 z = true -> F2R64 z = 0%R).
      { clear. intros z F P S. destruct z as [s|s|s pl Hpl|s m e He]; try discriminate F; [reflexivity|exfalso].
        cbn in S. subst s. unfold F2R64, B2R in P. rewrite <- F2R_0 with (beta := radix2) (e := e) in P.
        apply le_F2R in P. cbn in P. lia. }
      rewrite (G x Fx Hx E) in L. symmetry in H2. rewrite (G y Fy Hy H2) in L.
      rewrite Rplus_0_l, rnd_0 in L. assert (Hp := bpow_gt_0 radix2 1024). unfold fmax_bound in L. lra. }
    rewrite Sx in H1. exact H1.
Qed.

Definition mean_inv (tp tw : F64) : Prop :=
  (F_fin tp = true /\ F_fin tw = true /\ (0 <= F2R64 tp <= F2R64 tw)%R) \/
  (tw = B754_infinity 53 1024 false /\ (tp = B754_infinity 53 1024 false \/ (F_fin tp = true /\ (0 <= F2R64 tp)%R))).

Lemma F_inf_add (y : F64) : F_fin y = true -> dadd (B754_infinity 53 1024 false : F64) y = B754_infinity 53 1024 false.
Proof. destruct y; cbn; try discriminate; reflexivity. Qed.

Lemma mul_p_w (p w f : F64) : F_fin p = true -> F_fin w = true -> (0 <= F2R64 p <= 1)%R -> (0 <= F2R64 w)%R ->
  F_fin f = true -> F2R64 f = 1%R ->
  F_fin (dmul (dmul p w) f) = true /\ (0 <= F2R64 (dmul (dmul p w) f) <= F2R64 w)%R.
Proof.
  intros Fp Fw Hp Hw Ff Hf.
  assert (B : (0 <= F2R64 p * F2R64 w <= F2R64 w)%R).
  { split; [apply Rmult_le_pos; lra|]. rewrite <- (Rmult_1_l (F2R64 w)) at 2. apply Rmult_le_compat_r; lra. }
  assert (W := F_abs_lt w). rewrite Rabs_pos_eq in W by exact Hw.
  assert (N : no_ovf (F2R64 p * F2R64 w)).
  { apply (no_ovf_le (F2R64 w)); [apply F_fmt|exact W|]. rewrite Rabs_pos_eq; lra. }
  destruct (F_mul_correct p w Fp Fw N) as [E F].
  assert (B1 : (0 <= F2R64 (dmul p w) <= F2R64 w)%R).
  { rewrite E. apply rnd_between; [apply fmt_0|apply F_fmt|exact B]. }
  assert (N' : no_ovf (F2R64 (dmul p w) * F2R64 f)).
  { apply (no_ovf_le (F2R64 w)); [apply F_fmt|exact W|]. rewrite Hf, Rmult_1_r, Rabs_pos_eq; lra. }
  destruct (F_mul_correct (dmul p w) f F Ff N') as [E' F'].
  split; [exact F'|]. rewrite E', Hf, Rmult_1_r, rnd_id by apply F_fmt. exact B1.
Qed.

Lemma mean_inv_step tp tw m w : mean_inv tp tw -> F_fin m = true -> F_fin w = true -> (0 <= F2R64 m <= F2R64 w)%R ->
  mean_inv (dadd tp m) (dadd tw w).
Proof.
  intros [(Fp & Fw & HB)|(-> & HT)] Fm Fw' HM.
  - destruct (F_add_nonneg tp m Fp Fm ltac:(lra) ltac:(lra)) as [[A B]|[A B]],
      (F_add_nonneg tw w Fw Fw' ltac:(lra) ltac:(lra)) as [[C E]|[C E]].
    + left. split; [exact A|]. split; [exact C|]. rewrite B, E. split; [rewrite <- rnd_0; apply rnd_le; lra|apply rnd_le; lra].
    + right. split; [exact C|]. right. split; [exact A|]. rewrite B, <- rnd_0. apply rnd_le; lra.
    + exfalso. assert (W := F_abs_lt (dadd tw w)). rewrite E in W.
      assert (rnd (F2R64 tp + F2R64 m) <= rnd (F2R64 tw + F2R64 w))%R by (apply rnd_le; lra).
      assert (rnd (F2R64 tw + F2R64 w) <= Rabs (rnd (F2R64 tw + F2R64 w)))%R by apply Rle_abs. lra.
    + right. auto.
  - right. split; [now apply F_inf_add|]. destruct HT as [->|[Fp Hp]]; [left; now apply F_inf_add|].
    destruct (F_add_nonneg tp m Fp Fm Hp ltac:(lra)) as [[A B]|[A _]]; [right|left; exact A].
    split; [exact A|]. rewrite B, <- rnd_0. apply rnd_le; lra.
Qed.

Definition unit_F (v : F64) : Prop := F_fin v = true /\ (0 <= F2R64 v <= 1)%R.

Lemma estimate_loop_F (weight : Z -> outcome F64) (prob : scan_point F64 -> outcome F64) pts :
  (forall s, In s pts -> F_fin (sp_factor s) = true /\ F2R64 (sp_factor s) = 1%R) ->
  (forall s p, In s pts -> prob s = Ok p -> unit_F p) ->
  (forall i w, weight i = Ok w -> F_fin w = true /\ (0 <= F2R64 w)%R) ->
  forall i tp tw tot w, mean_inv tp tw ->
  estimate_loop weight prob i pts tp tw = Ok (tot, w) -> mean_inv tot w.
Proof.
  intros HF HP HW. induction pts as [|s pts IH]; cbn [estimate_loop]; intros i tp tw tot w I E.
  - injection E as <- <-. exact I.
  - apply bind_Ok_inv in E as (p & Ep & E). apply bind_Ok_inv in E as (wt & Ew & E).
    destruct (HF s (or_introl eq_refl)) as [Ff Hf]. destruct (HP s p (or_introl eq_refl) Ep) as [Fp Hp].
    destruct (HW _ _ Ew) as [Fw Hw].
    destruct (mul_p_w p wt (sp_factor s) Fp Fw Hp Hw Ff Hf) as [Fm Hm].
    apply IH in E; [exact E|intros; apply HF; now right|intros; eapply HP; eauto; now right|].
    now apply mean_inv_step.
Qed.

Lemma estimate_loop_tw_le (weight : Z -> outcome F64) (prob : scan_point F64 -> outcome F64) pts :
  (forall i w, weight i = Ok w -> unit_F w) ->
  forall i tp tw tot w n, 0 <= n -> F_fin tw = true -> (0 <= F2R64 tw <= IZR n)%R -> n + Z.of_nat (length pts) <= 2 ^ 53 ->
  estimate_loop weight prob i pts tp tw = Ok (tot, w) -> F_fin w = true.
Proof.
  intros HW. induction pts as [|s pts IH]; cbn [estimate_loop length]; intros i tp tw tot w n Hn Ft Ht HL E.
  - now injection E as <- <-.
  - apply bind_Ok_inv in E as (p & Ep & E). apply bind_Ok_inv in E as (wt & Ew & E).
    destruct (HW _ _ Ew) as [Fw Hw].
    assert (Fm : fmt64 (IZR (n + 1))) by (apply fmt_IZR; rewrite Z.abs_eq; lia).
    assert (S1 : (0 <= F2R64 tw + F2R64 wt <= IZR (n + 1))%R) by (rewrite plus_IZR; lra).
    destruct (F_add_correct tw wt Ft Fw) as [A B].
    { apply (no_ovf_le (IZR (n + 1)) _ Fm).
      - apply Rle_lt_trans with (IZR (2 ^ 53)); [apply IZR_le; lia|].
        change (IZR (2 ^ 53)) with (bpow radix2 53). unfold fmax_bound. apply bpow_lt. lia.
      - rewrite Rabs_pos_eq; lra. }
    apply (IH _ _ _ _ _ (n + 1)) in E; auto; try lia.
    rewrite A. apply rnd_between; [apply fmt_0|exact Fm|exact S1].
Qed.

Lemma mean_div tp tw : mean_inv tp tw -> deq tw (dofZ 0) = false ->
  (F_fin tw = true -> unit_F (ddiv tp tw)) /\ (disnan (ddiv tp tw) = true \/ unit_F (ddiv tp tw)).
Proof.
  intros I NZ. destruct (F_ofZ_correct 0 ltac:(cbn; lia)) as [Z0 ZF].
  destruct I as [(Fp & Fw & HB)|(-> & HT)].
  - assert (NE : F2R64 tw <> 0%R).
    { intros C. assert (deq tw (dofZ 0) = true) by (apply F_eq_fin; auto; congruence). congruence. }
    assert (B : (0 <= F2R64 tp / F2R64 tw <= 1)%R).
    { split; [apply Rmult_le_pos; [lra|left; apply Rinv_0_lt_compat; lra]|].
      apply Rmult_le_reg_r with (F2R64 tw); [lra|]. unfold Rdiv. rewrite Rmult_assoc, Rinv_l by lra. lra. }
    destruct (F_div_correct tp tw Fp NE) as [E F]; [apply no_ovf_1; lra|].
    assert (U : unit_F (ddiv tp tw)).
    { split; [exact F|]. rewrite E. apply rnd_between; [apply fmt_0|apply fmt_1|exact B]. }
    auto.
  - split; [discriminate|]. destruct HT as [->|[Fp Hp]]; [left; reflexivity|].
    right. destruct tp as [s|s|s pl Hpl|s m e He]; try discriminate Fp; (split; [reflexivity|]); cbn; lra.
Qed.

(** ** the filter *)
Section Filter.
  Context {D : Type} {ops : DOps D} {C : Type}.
  Variables (datan2 : D -> D -> D) (m : omap D C) (skip_rate : Z) (max_range : D) (pose_pt : point D) (tp : trig D).
  Definition kept_point (i : Z) (s : scan_point D) : Prop :=
    (skip_rate = 0 \/ i mod skip_rate = 0) /\ sp_occ s = true /\ are_strictly_ordered (dofZ 0) max_range (sp_range s) = false /\
    exists p c, sp_move_origin_tp datan2 pose_pt tp s = Ok p /\ world_to_cell (om_scale m) p = Ok c /\ om_has m c = true.

  Lemma filter_loop_select raw : forall i pts,
    filter_loop datan2 m skip_rate max_range pose_pt tp i raw = Ok pts -> select kept_point i raw pts.
  Proof.
    induction raw as [|s raw IH]; cbn [filter_loop select]; intros i pts E; [now injection E as <-|].
    destruct (negb (skip_rate =? 0) && negb (i mod skip_rate =? 0)) eqn:SK.
    - right. split; [|now apply IH]. intros ([A|A] & _).
      + rewrite A, Z.eqb_refl in SK. discriminate.
      + rewrite A, Z.eqb_refl, andb_comm in SK. discriminate.
    - assert (K : skip_rate = 0 \/ i mod skip_rate = 0).
      { apply andb_false_iff in SK as [A|A]; apply negb_false_iff, Z.eqb_eq in A; auto. }
      apply bind_Ok_inv in E as (p & Ep & E). apply bind_Ok_inv in E as (c & Ec & E).
      apply bind_Ok_inv in E as (rest & Er & E). apply IH in Er.
      unfold should_skip in E. destruct (sp_occ s) eqn:O; cbn [negb orb] in E.
      2: { injection E as <-. right. split; [|exact Er]. intros (_ & A & _). congruence. }
      destruct (om_has m c) eqn:H; cbn [negb orb] in E.
      2: { injection E as <-. right. split; [|exact Er]. intros (_ & _ & _ & p' & c' & A & B & F). congruence. }
      destruct (are_strictly_ordered _ _ _) eqn:A.
      + injection E as <-. right. split; [|exact Er]. intros (_ & _ & B & _). congruence.
      + injection E as <-. left. split; [|exists rest; auto]. unfold kept_point.
        split; [exact K|]. split; [exact O|]. split; [exact A|]. eauto 6.
  Qed.
End Filter.

(** ** observation probability estimators *)
Section Oope.
  Context {D : Type} {ops : DOps D} {OL : OrdLaws ops} {C : Type}.
  Variable impact : C -> outcome D.
  Variable m : omap D C.
  Hypothesis no_nan : forall c v, cell_impact impact m c = Ok v -> disnan v = false.

  Lemma max_loop_spec cells : forall best v, disnan best = false -> max_loop impact m cells best = Ok v ->
    disnan v = false /\ dlt v best = false /\
    (forall c, In c cells -> exists i, cell_impact impact m c = Ok i /\ dlt v i = false) /\
    (v = best \/ exists c, In c cells /\ cell_impact impact m c = Ok v).
  Proof.
    induction cells as [|c cells IH]; cbn [max_loop]; intros best v NB E.
    - injection E as <-. split; [exact NB|]. split; [apply lt_irrefl_|]. split; [intros ? []|auto].
    - apply bind_Ok_inv in E as (i & Ei & E).
      assert (NI := no_nan c i Ei).
      assert (NM : disnan (dmax i best) = false) by (unfold dmax; destruct (dlt i best); auto).
      apply IH in E as (NV & L & F & W); [|exact NM].
      assert (LB : dlt (dmax i best) best = false).
      { unfold dmax. destruct (dlt i best) eqn:X; [apply lt_irrefl_|exact X]. }
      assert (LI : dlt (dmax i best) i = false).
      { unfold dmax. destruct (dlt i best) eqn:X; [|apply lt_irrefl_].
        destruct (dlt best i) eqn:Y; [|reflexivity]. assert (Q := lt_trans_ _ _ _ X Y). rewrite lt_irrefl_ in Q. discriminate. }
      assert (CH : forall x, dlt (dmax i best) x = false -> dlt v x = false).
      { intros x Hx. destruct (dlt v x) eqn:Y; [|reflexivity].
        destruct (lt_cotrans_ v (dmax i best) x NM Y); congruence. }
      split; [exact NV|]. split; [now apply CH|]. split.
      + intros c' [<-|Hin]; [exists i; auto|now apply F].
      + destruct W as [->|(c' & Hin & Hc)]; [|right; exists c'; auto using in_cons].
        unfold dmax. destruct (dlt i best); [now left|right; exists c; split; [now left|exact Ei]].
  Qed.
End Oope.

Lemma F_nan_unbounded (v : F64) : is_prob_bounded v = true -> disnan v = false.
Proof.
  destruct v; intros H; try reflexivity. exfalso. revert H. unfold is_prob_bounded, less_or_equal, are_equal, are_equal_eps, less.
  cbn -[F_ofZ]. intros H. revert H. vm_compute. discriminate.
Qed.
Lemma F_cell_impact_nan {C} (impact : C -> outcome F64) m c v : cell_impact impact m c = Ok v -> disnan v = false.
Proof.
  unfold cell_impact. intros E. apply bind_Ok_inv in E as (x & _ & E). apply bind_Ok_inv in E as (y & _ & E).
  apply bind_Ok_inv in E as ([] & A & E). injection E as ->. apply F_nan_unbounded.
  destruct (is_prob_bounded v); [reflexivity|discriminate].
Qed.

Section OopeR.
  Context {C : Type}.
  Variable impact : C -> outcome R.
  Variable m : omap R C.

  Lemma mean_loop_R cells : forall tot n tot' n', mean_loop impact m cells tot n = Ok (tot', n') ->
    n' = n + Z.of_nat (length cells) /\
    (forall c, In c cells -> exists i, cell_impact impact m c = Ok i) /\
    forall lo hi, (forall c i, In c cells -> cell_impact impact m c = Ok i -> lo <= i <= hi)%R ->
      (tot + lo * IZR (Z.of_nat (length cells)) <= tot' <= tot + hi * IZR (Z.of_nat (length cells)))%R.
  Proof.
    induction cells as [|c cells IH]; cbn [mean_loop length]; intros tot n tot' n' E.
    - injection E as <- <-. split; [lia|]. split; [intros ? []|]. cbn. intros; lra.
    - apply bind_Ok_inv in E as (i & Ei & E). apply IH in E as (A & B & F). split; [lia|].
      split; [intros c' [<-|Hin]; eauto|].
      intros lo hi H. specialize (F lo hi (fun c' i' Hin => H c' i' (or_intror Hin))).
      assert (G := H c i (or_introl eq_refl) Ei). cbn [dadd ROps] in F.
      rewrite Nat2Z.inj_succ, succ_IZR. lra.
  Qed.

  Lemma mk_rect_area (b t l r : R) q : mk_rect b t l r = Ok q -> (0 <= rect_area q)%R.
  Proof.
    unfold mk_rect. cbn [dle ROps]. destruct (R_le b t) eqn:E1, (R_le l r) eqn:E2; cbn [andb]; try discriminate.
    apply R_le_true in E1, E2. intros [= <-]. unfold rect_area, vside_len, hside_len. cbn. apply Rmult_le_pos; lra.
  Qed.
  Lemma rect_intersect_area (a b q : rect R) : rect_intersect a b = Ok q -> (0 <= rect_area q)%R.
  Proof.
    unfold rect_intersect, intersect_rev. destruct (corner_analysis a b) as [n [[[x y] z] t]].
    destruct (corner_analysis b a) as [n' [[[x' y'] z'] t']].
    destruct n as [|[|[|[|[|n]]]]]; try discriminate; try apply mk_rect_area.
    destruct n' as [|[|[|[|[|n']]]]]; try discriminate; try apply mk_rect_area.
  Qed.
  Lemma rect_overlap_nonneg (a b : rect R) w : (left a <= right a)%R -> (bot a <= top a)%R ->
    rect_overlap a b = Ok w -> (0 <= w)%R.
  Proof.
    intros HH HV. unfold rect_overlap. cbn [deq ROps].
    assert (A : (0 <= rect_area a)%R) by (unfold rect_area, vside_len, hside_len; cbn; apply Rmult_le_pos; lra).
    destruct (R_eq (rect_area a) (dofZ 0)) eqn:E; cbn [negb].
    - destruct (R_eq (rect_area b) (dofZ 0)); cbn [negb].
      + destruct (_ && _); [|discriminate]. intros [= <-]. destruct (rect_eqb a b); cbn; lra.
      + intros [= <-]. destruct (rect_contains _ _ _); cbn; lra.
    - apply R_eq_false in E. change (rect_area a <> 0%R) in E. intros H. apply bind_Ok_inv in H as (q & Hq & H). injection H as <-.
      apply rect_intersect_area in Hq. cbn [ddiv ROps]. apply Rmult_le_pos; [exact Hq|left; apply Rinv_0_lt_compat; destruct A as [A|A]; [exact A|congruence]].
  Qed.

  Lemma overlap_loop_R (area : rect R) cells : (left area <= right area)%R -> (bot area <= top area)%R ->
    forall tot wt tot' wt', overlap_loop impact m area cells tot wt = Ok (tot', wt') ->
    exists ws, length ws = length cells /\ (forall k c, nth_error cells k = Some c ->
        exists w b, nth_error ws k = Some w /\ world_cell_bounds (om_scale m) c = Ok b /\ rect_overlap area b = Ok w /\ (0 <= w)%R) /\
      (wt <= wt')%R /\
      forall lo hi, (forall c i, In c cells -> cell_impact impact m c = Ok i -> lo <= i <= hi)%R ->
        (lo * (wt' - wt) <= tot' - tot <= hi * (wt' - wt))%R.
  Proof.
    intros HH HV. induction cells as [|c cells IH]; cbn [overlap_loop length]; intros tot wt tot' wt' E.
    - injection E as <- <-. exists []. split; [reflexivity|]. split; [intros [|k] c; discriminate|]. split; [lra|].
      intros. replace (wt - wt)%R with 0%R by lra. replace (tot - tot)%R with 0%R by lra. lra.
    - apply bind_Ok_inv in E as (i & Ei & E). apply bind_Ok_inv in E as (b & Eb & E). apply bind_Ok_inv in E as (w & Ew & E).
      assert (W := rect_overlap_nonneg area b w HH HV Ew).
      apply IH in E as (ws & HL & HW & Hle & HB). cbn [dadd dmul ROps] in *. exists (w :: ws). split; [cbn; now rewrite HL|].
      split.
      { intros [|k] c' Hk; cbn [nth_error] in *; [injection Hk as <-; exists w, b; auto|now apply HW]. }
      split; [lra|]. intros lo hi H. specialize (HB lo hi (fun c' i' Hin => H c' i' (or_intror Hin))).
      assert (G := H c i (or_introl eq_refl) Ei).
      assert (lo * w <= i * w <= hi * w)%R by (split; apply Rmult_le_compat_r; lra).
      set (X := (wt' - (wt + w))%R) in *. replace (wt' - wt)%R with (X + w)%R by (unfold X; lra). lra.
  Qed.
End OopeR.

Lemma raster_fuel_mono fuel : forall fuel' r l, (fuel <= fuel')%nat -> raster_to_vector fuel r = Ok l -> raster_to_vector fuel' r = Ok l.
Proof.
  induction fuel as [|fuel IH]; intros fuel' r l Hle E; destruct fuel' as [|fuel']; cbn [raster_to_vector] in *; try lia;
    destruct (raster_has_next r); try discriminate; auto.
  destruct (raster_next r) as [c r']. apply bind_Ok_inv in E as (t & Et & E). rewrite (IH fuel' r' t) by (auto; lia). exact E.
Qed.

(** the cells of a rectangle with two positive sides are the cells that meet it *)
Lemma area_cells_R {C} (m : omap R C) fuel (area : rect R) cells : (0 < om_scale m)%R ->
  (left area < right area)%R -> (bot area < top area)%R -> area_cells m fuel area = Ok cells ->
  forall c, In c cells <-> cell_meets (om_scale m) c (bot area) (top area) (left area) (right area).
Proof.
  intros Hs Hh Hv E. unfold area_cells in E. apply bind_Ok_inv in E as (st & Est & E).
  assert (E' := Est). unfold raster_rect in E'. cbn [dispinf ROps dofZ dadd dsub deq] in E'.
  assert (Hne : R_eq (rect_area area) 0 = false).
  { apply R_eq_false. unfold rect_area, vside_len, hside_len; cbn.
    assert (0 < (top area - bot area) * (right area - left area))%R by (apply Rmult_lt_0_compat; lra). lra. }
  rewrite Hne in E'. cbn [negb andb] in E'. rewrite !Rplus_0_r, !Rminus_0_r in E'.
  apply bind_Ok_inv in E' as (lb & Elb & E'). apply bind_Ok_inv in E' as (rt & Ert & _).
  destruct (raster_rect_R (om_w m) (om_h m) (om_origin m) (om_scale m) area lb rt Hs Hh Hv Elb Ert) as (st' & Est' & H).
  rewrite Est in Est'. injection Est' as <-.
  destruct (H (Nat.max fuel (box_cells lb rt)) ltac:(lia)) as (l & El & _ & Hl).
  rewrite (raster_fuel_mono fuel (Nat.max fuel (box_cells lb rt)) st cells ltac:(lia) E) in El. injection El as <-. exact Hl.
Qed.
Lemma area_cells_point_R {C} (m : omap R C) fuel (area : rect R) cells : (0 < om_scale m)%R ->
  left area = right area -> bot area = top area -> area_cells m fuel area = Ok cells ->
  exists c, world_to_cell (om_scale m) (left area, bot area) = Ok c /\ cells = [c].
Proof.
  intros Hs Hh Hv E. unfold area_cells in E. apply bind_Ok_inv in E as (st & Est & E).
  assert (E' := Est). unfold raster_rect in E'. cbn [dispinf ROps dofZ dadd dsub deq] in E'.
  assert (Ha : rect_area area = 0%R) by (unfold rect_area, vside_len, hside_len; cbn; rewrite Hh, Hv; lra).
  replace (R_eq (rect_area area) 0) with true in E' by (symmetry; apply R_eq_true; exact Ha).
  cbn [negb andb] in E'. apply bind_Ok_inv in E' as (c & Ec & _). exists c. split; [exact Ec|].
  destruct (raster_empty_rect_R (om_w m) (om_h m) (om_origin m) (om_scale m) area true c Hs Ha Ec) as (st' & Est' & H).
  rewrite Est in Est'. injection Est' as <-.
  specialize (H (Nat.max fuel 1) ltac:(lia)). rewrite (raster_fuel_mono fuel (Nat.max fuel 1) st cells ltac:(lia) E) in H. congruence.
Qed.
