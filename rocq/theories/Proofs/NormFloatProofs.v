(** Sums and normalisation of nonnegative weights in binary64. *)
From Coq Require Import Reals ZArith List Lia Lra Bool.
From Flocq Require Import Core Plus_error Relative IEEE754.BinarySingleNaN IEEE754.Binary IEEE754.Bits.
From Verif.Base Require Import Outcome Num F64Facts.
From Verif.Model Require Import ParticleFilter.
From Verif.Spec Require Import CellSpec ParticleScanSpec.
From Verif.Proofs Require Import TbmFloatProofs.
Import ListNotations.
Local Open Scope R_scope.

Lemma F_add_fin_args (x y : F64) : F_fin (dadd x y) = true -> F_fin x = true /\ F_fin y = true.
Proof. destruct x as [s|s|s p e|s m e H], y as [s'|s'|s' p' e'|s' m' e' H']; cbn; try (intros; split; reflexivity); try (destruct s, s'; cbn; discriminate); try discriminate. Qed.
Lemma F_add_fin (x y : F64) : F_fin (dadd x y) = true -> F2R64 (dadd x y) = rnd (F2R64 x + F2R64 y).
Proof.
  intros F. destruct (F_add_fin_args x y F) as [Fx Fy].
  generalize (Bplus_correct 53 1024 eq_refl eq_refl binop_nan_pl64 mode_NE x y Fx Fy). intros H. ovf_case H.
  - exact (proj1 H).
  - exfalso. destruct H as [H _]. change (dadd x y) with (Bplus 53 1024 eq_refl eq_refl binop_nan_pl64 mode_NE x y) in F.
    destruct (Bplus 53 1024 eq_refl eq_refl binop_nan_pl64 mode_NE x y); cbn in H, F; unfold binary_overflow in H; cbn in H; try discriminate F; discriminate H.
Qed.

Lemma add_err x y : fmt64 x -> fmt64 y -> Rabs (rnd (x + y) - (x + y)) <= hh * Rabs (rnd (x + y)).
Proof.
  intros Fx Fy. destruct (@FLT_plus_error_N_round_ex radix2 (-1074) 53 eq_refl (fun x => negb (Z.even x)) x y Fx Fy) as (e & He & E).
  change (round _ _ _ _) with (rnd (x + y)) in E. rewrite E at 2. replace (rnd (x + y) - rnd (x + y) * (1 + e)) with (- e * rnd (x + y)) by ring.
  rewrite Rabs_mult, Rabs_Ropp. apply Rmult_le_compat_r; [apply Rabs_pos|]. eapply Rle_trans; [exact He|]. unfold u_ro.
  change (/ 2) with (bpow radix2 (-1)). rewrite <- bpow_plus. apply Rle_refl.
Qed.

(** the sum in order of finite nonnegative doubles, if finite: nonnegative, above every summand, and off by at most
    [hh] of itself per summand *)
Lemma fold_sum (ws : list F64) : forall acc, F_fin (fold_left dadd ws acc) = true -> 0 <= F2R64 acc -> Forall (fun w => 0 <= F2R64 w) ws ->
  F_fin acc = true /\ Forall (fun w => F_fin w = true) ws /\ F2R64 acc <= F2R64 (fold_left dadd ws acc) /\
  Forall (fun w => F2R64 w <= F2R64 (fold_left dadd ws acc)) ws /\
  Rabs (F2R64 (fold_left dadd ws acc) - (F2R64 acc + Rsum (map (fun w => F2R64 w) ws))) <= INR (length ws) * (hh * F2R64 (fold_left dadd ws acc)).
Proof.
  induction ws as [|w ws IH]; intros acc F A N; cbn [fold_left] in *.
  - split; [exact F|]. split; [constructor|]. split; [apply Rle_refl|]. split; [constructor|]. unfold Rsum. cbn [length map fold_right INR]. rewrite Rmult_0_l, Rplus_0_r, Rminus_diag_eq by reflexivity. rewrite Rabs_R0. apply Rle_refl.
  - inversion N as [|? ? Hw N']; subst.
    assert (Fa : F_fin (dadd acc w) = true).
    { clear - F. revert F. generalize (dadd acc w). induction ws as [|v ws IH]; intros a; cbn [fold_left]; [auto|]. intros F. apply IH in F. now apply F_add_fin_args in F. }
    assert (Ea := F_add_fin _ _ Fa). destruct (F_add_fin_args _ _ Fa) as [F1 F2].
    assert (G1 : F2R64 acc <= F2R64 (dadd acc w)) by (rewrite Ea; apply rnd_ge; [apply F_fmt|lra]).
    assert (G2 : F2R64 w <= F2R64 (dadd acc w)) by (rewrite Ea; apply rnd_ge; [apply F_fmt|lra]).
    destruct (IH (dadd acc w) F ltac:(lra) N') as (_ & K1 & K2 & K3 & K4).
    split; [exact F1|]. split; [constructor; auto|]. split; [lra|]. split; [constructor; [lra|exact K3]|].
    set (T := F2R64 (fold_left dadd ws (dadd acc w))) in *. cbn [map]. unfold Rsum in *. cbn [fold_right length].
    set (Q := fold_right Rplus 0 (map (fun w => F2R64 w) ws)) in *.
    assert (E := add_err _ _ (F_fmt acc) (F_fmt w)). rewrite <- Ea in E. rewrite (Rabs_pos_eq (F2R64 (dadd acc w))) in E by lra.
    rewrite S_INR. replace (T - (F2R64 acc + (F2R64 w + Q))) with ((T - (F2R64 (dadd acc w) + Q)) + (F2R64 (dadd acc w) - (F2R64 acc + F2R64 w))) by ring.
    eapply Rle_trans; [apply Rabs_triang|]. rewrite Rmult_plus_distr_r, Rmult_1_l. apply Rplus_le_compat; [exact K4|].
    eapply Rle_trans; [exact E|]. apply Rmult_le_compat_l; [apply bpow_ge_0|exact K2].
Qed.

Lemma share_F (w T : F64) : F_fin w = true -> F_fin T = true -> 0 <= F2R64 w <= F2R64 T -> 0 < F2R64 T ->
  F_fin (ddiv w T) = true /\ F2R64 (ddiv w T) = rnd (F2R64 w / F2R64 T) /\ 0 <= F2R64 w / F2R64 T <= 1.
Proof.
  intros Fw FT [H1 H2] HT.
  assert (B : 0 <= F2R64 w / F2R64 T <= 1).
  { split; [apply Rmult_le_pos; [exact H1|left; now apply Rinv_0_lt_compat]|]. apply (Rmult_le_reg_r (F2R64 T)); [exact HT|]. unfold Rdiv. rewrite Rmult_assoc, Rinv_l by lra. lra. }
  destruct (F_div_correct w T Fw ltac:(lra) ltac:(apply no_ovf_1; lra)) as [E F]. auto.
Qed.

Lemma norm_sum (ws : list F64) (T : F64) : F_fin T = true -> 0 < F2R64 T ->
  Forall (fun w => F_fin w = true) ws -> Forall (fun w => 0 <= F2R64 w) ws -> Forall (fun w => F2R64 w <= F2R64 T) ws ->
  Rabs (Rsum (map (fun w => F2R64 (ddiv w T)) ws) - Rsum (map (fun w => F2R64 w) ws) / F2R64 T) <= INR (length ws) * (hh / 2).
Proof.
  intros FT HT F1 F2 F3. induction ws as [|w ws IH].
  - unfold Rsum. cbn [length map fold_right INR]. unfold Rdiv at 1. rewrite !Rmult_0_l, Rminus_diag_eq by reflexivity. rewrite Rabs_R0. lra.
  - inversion F1; inversion F2; inversion F3; subst. destruct (share_F w T) as (_ & E & B); auto.
    cbn [map length]. unfold Rsum in *. cbn [fold_right]. rewrite E, S_INR.
    set (A := fold_right Rplus 0 (map (fun w => F2R64 (ddiv w T)) ws)) in *. set (Q := fold_right Rplus 0 (map (fun w => F2R64 w) ws)) in *.
    replace (rnd (F2R64 w / F2R64 T) + A - (F2R64 w + Q) / F2R64 T) with ((A - Q / F2R64 T) + (rnd (F2R64 w / F2R64 T) - F2R64 w / F2R64 T)) by (field; lra).
    eapply Rle_trans; [apply Rabs_triang|]. rewrite Rmult_plus_distr_r, Rmult_1_l. apply Rplus_le_compat; [auto|].
    assert (X := rnd_err _ B). apply Rabs_le. lra.
Qed.

Theorem norm_F (ws : list F64) : Forall (fun w => 0 <= F2R64 w) ws -> F_fin (sum_in_order ws) = true -> 0 < F2R64 (sum_in_order ws) ->
  Forall (fun w => F_fin (ddiv w (sum_in_order ws)) = true /\ 0 <= F2R64 (ddiv w (sum_in_order ws)) <= 1 /\
    Rabs (F2R64 (ddiv w (sum_in_order ws)) - F2R64 w / F2R64 (sum_in_order ws)) <= hh / 2) ws /\
  (forall v w, In v ws -> In w ws -> F2R64 v <= F2R64 w -> F2R64 (ddiv v (sum_in_order ws)) <= F2R64 (ddiv w (sum_in_order ws))) /\
  Rabs (F2R64 (sum_in_order ws) - Rsum (map (fun w => F2R64 w) ws)) <= INR (length ws) * (hh * F2R64 (sum_in_order ws)) /\
  Rabs (Rsum (map (fun w => F2R64 (ddiv w (sum_in_order ws))) ws) - 1) <= INR (length ws) * (3 / 2 * hh).
Proof.
  intros N F P. destruct F_zero as [Z0 Z1].
  destruct (fold_sum ws (dofZ 0) F ltac:(rewrite Z0; lra) N) as (_ & K1 & _ & K3 & K4). fold (sum_in_order ws) in *. set (T := sum_in_order ws) in *.
  rewrite Z0, Rplus_0_l in K4. rewrite Forall_forall in K1, K3, N.
  assert (SH : forall w, In w ws -> F_fin (ddiv w T) = true /\ F2R64 (ddiv w T) = rnd (F2R64 w / F2R64 T) /\ 0 <= F2R64 w / F2R64 T <= 1).
  { intros w I. apply share_F; auto. }
  split; [|split; [|split]].
  - apply Forall_forall. intros w I. destruct (SH w I) as (A & B & C). split; [exact A|]. rewrite B. split.
    + apply rnd_between; [apply fmt_0|apply fmt_1|exact C].
    + assert (X := rnd_err _ C). apply Rabs_le. lra.
  - intros v w I J H. destruct (SH v I) as (_ & -> & _). destruct (SH w J) as (_ & -> & _). apply rnd_le. apply Rmult_le_compat_r; [left; now apply Rinv_0_lt_compat|exact H].
  - exact K4.
  - assert (X := norm_sum ws T F P ltac:(now apply Forall_forall) ltac:(now apply Forall_forall) ltac:(now apply Forall_forall)).
    set (A := Rsum (map (fun w => F2R64 (ddiv w T)) ws)) in *. set (Q := Rsum (map (fun w => F2R64 w) ws)) in *.
    assert (Y : Rabs (Q / F2R64 T - 1) <= INR (length ws) * hh).
    { replace (Q / F2R64 T - 1) with ((Q - F2R64 T) * / F2R64 T) by (field; lra). rewrite Rabs_mult, (Rabs_pos_eq (/ F2R64 T)) by (left; now apply Rinv_0_lt_compat).
      apply (Rmult_le_reg_r (F2R64 T)); [exact P|]. rewrite Rmult_assoc, Rinv_l, Rmult_1_r by lra. rewrite Rabs_minus_sym. eapply Rle_trans; [exact K4|]. lra. }
    replace (A - 1) with ((A - Q / F2R64 T) + (Q / F2R64 T - 1)) by ring. eapply Rle_trans; [apply Rabs_triang|]. lra.
Qed.

(** * Drawing in binary64 *)
Lemma fold_fin_prefix (ws : list F64) (acc : F64) : F_fin (fold_left dadd ws acc) = true -> F_fin acc = true.
Proof. revert acc. induction ws as [|v ws IH]; intros a; cbn [fold_left]; [auto|]. intros F. apply IH in F. now apply F_add_fin_args in F. Qed.

Lemma draw_F ws : forall j (tot s : F64), F_fin (fold_left dadd ws tot) = true -> F_fin s = true -> F2R64 tot <= F2R64 s < F2R64 (fold_left dadd ws tot) ->
  exists i w, draw ws j tot s = (j + i)%nat /\ nth_error ws i = Some w /\
    F2R64 (fold_left dadd (firstn i ws) tot) <= F2R64 s < F2R64 (fold_left dadd (firstn (S i) ws) tot).
Proof.
  induction ws as [|w ws IH]; intros j tot s F Fs H; cbn [fold_left] in *; [lra|]. cbn [draw]. cbv zeta.
  assert (Fa := fold_fin_prefix _ _ F). destruct (dlt s (dadd tot w)) eqn:E.
  - apply F_lt_fin in E; auto. exists O, w. split; [lia|]. split; [reflexivity|]. cbn [firstn fold_left]. lra.
  - apply F_lt_fin_false in E; auto. destruct (IH (S j) (dadd tot w) s F Fs ltac:(lra)) as (i & v & Hd & Hv & Hb).
    exists (S i), v. split; [lia|]. split; [exact Hv|]. exact Hb.
Qed.
Lemma draw_F_out ws : forall j (tot s : F64), F_fin (fold_left dadd ws tot) = true -> 0 <= F2R64 tot -> Forall (fun w => 0 <= F2R64 w) ws ->
  F_fin s = true -> F2R64 (fold_left dadd ws tot) <= F2R64 s -> draw ws j tot s = O.
Proof.
  induction ws as [|w ws IH]; intros j tot s F Ht N Fs H; cbn [fold_left] in *; [reflexivity|]. cbn [draw]. cbv zeta.
  assert (Fa := fold_fin_prefix _ _ F). inversion N; subst.
  assert (G : 0 <= F2R64 (dadd tot w)) by (rewrite (F_add_fin _ _ Fa); apply rnd_ge; [apply fmt_0|lra]).
  destruct (fold_sum ws (dadd tot w) F G) as (_ & _ & L & _); [assumption|].
  destruct (dlt s (dadd tot w)) eqn:E; [apply F_lt_fin in E; auto; lra|]. apply IH; auto.
Qed.
Lemma firstn_fold (ws : list F64) (tot : F64) i k : F_fin (fold_left dadd ws tot) = true -> 0 <= F2R64 tot -> Forall (fun w => 0 <= F2R64 w) ws ->
  (i <= k)%nat -> F2R64 (fold_left dadd (firstn i ws) tot) <= F2R64 (fold_left dadd (firstn k ws) tot) /\ F_fin (fold_left dadd (firstn k ws) tot) = true.
Proof.
  intros F Ht N L. assert (Q : forall n, F_fin (fold_left dadd (firstn n ws) tot) = true).
  { intros n. rewrite <- (firstn_skipn n ws), fold_left_app in F. now apply fold_fin_prefix in F. }
  split; [|apply Q].
  assert (P : firstn k ws = firstn i ws ++ firstn (k - i) (skipn i ws)).
  { rewrite <- (firstn_skipn i (firstn k ws)), firstn_firstn, Nat.min_l by exact L. f_equal. now rewrite skipn_firstn_comm. }
  rewrite P. rewrite fold_left_app.
  assert (Ni : Forall (fun w => 0 <= F2R64 w) (firstn i ws) /\ Forall (fun w => 0 <= F2R64 w) (firstn (k - i) (skipn i ws))).
  { apply Forall_app. rewrite <- P. rewrite Forall_forall in N |- *. intros x Hx. apply N. rewrite <- (firstn_skipn k ws). apply in_or_app. now left. }
  destruct (fold_sum (firstn i ws) tot (Q i) Ht (proj1 Ni)) as (_ & _ & L1 & _).
  assert (G := Q k). rewrite P, fold_left_app in G.
  destruct (fold_sum _ _ G ltac:(lra) (proj2 Ni)) as (_ & _ & L2 & _). exact L2.
Qed.
Theorem draws_F (ws : list F64) (s : F64) : Forall (fun w => 0 <= F2R64 w) ws -> F_fin (sum_in_order ws) = true -> F_fin s = true -> 0 <= F2R64 s ->
  (F2R64 s < F2R64 (sum_in_order ws) ->
    (forall i, draw ws 0 (dofZ 0) s = i <-> F2R64 (sum_in_order (firstn i ws)) <= F2R64 s < F2R64 (sum_in_order (firstn (S i) ws))) /\
    exists w, nth_error ws (draw ws 0 (dofZ 0) s) = Some w /\ 0 < F2R64 w) /\
  (F2R64 (sum_in_order ws) <= F2R64 s -> draw ws 0 (dofZ 0) s = O).
Proof.
  intros N F Fs Hs. destruct F_zero as [Z0 Z1]. assert (Z2 : 0 <= F2R64 (dofZ 0)) by (rewrite Z0; lra). unfold sum_in_order in *. split.
  - intros Lt. destruct (draw_F ws 0 (dofZ 0) s F Fs) as (i & w & Hd & Hw & Hb); [rewrite Z0; lra|]. cbn [Nat.add] in Hd. rewrite Hd. split.
    + intros k. split; [intros <-; exact Hb|]. intros Hk. destruct (Nat.lt_trichotomy i k) as [C|[C|C]]; [exfalso|exact C|exfalso].
      * destruct (firstn_fold ws (dofZ 0) (S i) k F Z2 N C) as [X _]. lra.
      * destruct (firstn_fold ws (dofZ 0) (S k) i F Z2 N C) as [X _]. lra.
    + exists w. split; [exact Hw|]. assert (P : firstn (S i) ws = firstn i ws ++ [w]).
      { clear - Hw. revert i Hw. induction ws as [|a ws IH]; intros [|i] Hw; cbn in *; try discriminate; [injection Hw as ->; reflexivity|]. f_equal. now apply IH. }
      rewrite P, fold_left_app in Hb. cbn [fold_left] in Hb.
      destruct (firstn_fold ws (dofZ 0) i (S i) F Z2 N (Nat.le_succ_diag_r i)) as [_ G]. rewrite P, fold_left_app in G. cbn [fold_left] in G.
      rewrite (F_add_fin _ _ G) in Hb. apply Rnot_le_lt. intros Q.
      assert (rnd (F2R64 (fold_left dadd (firstn i ws) (dofZ 0)) + F2R64 w) <= F2R64 (fold_left dadd (firstn i ws) (dofZ 0))) by (apply rnd_le_fmt; [apply F_fmt|lra]). lra.
  - intros Ge. eapply draw_F_out; eauto.
Qed.

(** the sum of [n] doubles of the unit interval does not overflow *)
Lemma fold_small (ws : list F64) : forall (acc : F64) (k : nat), (Z.of_nat (k + length ws) <= 2 ^ 53)%Z -> F_fin acc = true -> 0 <= F2R64 acc <= INR k ->
  Forall (fun w => F_fin w = true /\ 0 <= F2R64 w <= 1) ws -> F_fin (fold_left dadd ws acc) = true.
Proof.
  induction ws as [|w ws IH]; intros acc k L F A N; cbn [fold_left]; [exact F|]. inversion N as [|? ? [Fw Hw] N']; subst. cbn [length] in L.
  assert (FK : fmt64 (INR (S k))) by (rewrite INR_IZR_INZ; apply fmt_IZR; lia).
  assert (BK : INR (S k) < fmax_bound).
  { eapply Rle_lt_trans; [|apply bpow1023_lt]. rewrite INR_IZR_INZ. apply Rle_trans with (IZR (2 ^ 53)); [apply IZR_le; lia|].
    change (IZR (2 ^ 53)) with (IZR (radix2 ^ 53)). rewrite IZR_Zpower by lia. apply bpow_le. lia. }
  assert (O : no_ovf (F2R64 acc + F2R64 w)).
  { apply (no_ovf_le (INR (S k))); auto. rewrite S_INR. rewrite Rabs_pos_eq; lra. }
  destruct (F_add_correct acc w F Fw O) as [E F'].
  apply (IH (dadd acc w) (S k)); [lia|exact F'| |exact N']. rewrite E. apply rnd_between; [apply fmt_0|exact FK|]. rewrite S_INR. lra.
Qed.

(** doubles of the unit interval whose exact sum is within [e] of 1 *)
Lemma sum_near_1 (ws : list F64) (e : R) : (Z.of_nat (length ws) <= 2 ^ 53)%Z -> Forall (fun w => F_fin w = true /\ 0 <= F2R64 w <= 1) ws ->
  Rabs (Rsum (map (fun w => F2R64 w) ws) - 1) <= e -> 0 <= e ->
  F_fin (sum_in_order ws) = true /\ 1 - e - INR (length ws) * hh <= F2R64 (sum_in_order ws).
Proof.
  intros L N H He. destruct F_zero as [Z0 Z1]. unfold sum_in_order.
  assert (F : F_fin (fold_left dadd ws (dofZ 0)) = true) by (apply (fold_small ws _ 0); [exact L|exact Z1|rewrite Z0; cbn; lra|exact N]).
  split; [exact F|]. destruct (fold_sum ws (dofZ 0) F) as (_ & _ & G0 & _ & G); [rewrite Z0; lra|eapply Forall_impl; [|exact N]; cbn; intros; tauto|].
  rewrite Z0 in *. set (T := F2R64 (fold_left dadd ws (dofZ 0))) in *. set (n := INR (length ws)) in *. set (Q := Rsum (map (fun w => F2R64 w) ws)) in *.
  assert (Hn : 0 <= n) by apply pos_INR. assert (P := hh_pos). assert (Pn : 0 <= n * hh) by (apply Rmult_le_pos; lra).
  destruct (Rle_lt_dec 1 T) as [C|C]; [lra|]. assert (X : n * (hh * T) <= n * hh) by (rewrite <- (Rmult_1_r (n * hh)), <- Rmult_assoc; apply Rmult_le_compat_l; lra).
  apply Rabs_le_inv in G. apply Rabs_le_inv in H. lra.
Qed.
