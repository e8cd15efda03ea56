(** Running means in binary64: how far the mean-probability and GMapping cells are from the exact means. *)
From Coq Require Import Reals ZArith List Lia Lra Bool.
From Flocq Require Import Core Plus_error Relative IEEE754.BinarySingleNaN IEEE754.Binary IEEE754.Bits.
From Verif.Base Require Import Outcome Num F64Facts.
From Verif.Model Require Import MathUtils Geometry PlainMap Cells.
From Verif.Spec Require Import CellSpec.
From Verif.Proofs Require RenderProofs.
From Verif.Proofs Require Import CellProofs TbmFloatProofs.
Import ListNotations.
Local Open Scope R_scope.

(** rounding a number of magnitude at most [y] *)
Lemma err_bound x y : bpow radix2 (-1022) <= y -> Rabs x <= y -> Rabs (rnd x - x) <= hh * y.
Proof.
  intros Hy Hx. assert (P : 0 < y) by (eapply Rlt_le_trans; [apply bpow_gt_0|exact Hy]).
  assert (V : Valid_exp fexp64) by (apply FLT_exp_valid; reflexivity).
  assert (MM : Monotone_exp fexp64) by apply FLT_exp_monotone.
  eapply Rle_trans; [apply error_le_half_ulp; exact V|].
  assert (U : ulp radix2 fexp64 x <= ulp radix2 fexp64 y) by (apply ulp_le; auto; rewrite (Rabs_pos_eq y) by lra; exact Hx).
  assert (W : ulp radix2 fexp64 y <= Rabs y * bpow radix2 (1 - 53)).
  { apply (ulp_FLT_le radix2 (-1074) 53). rewrite Rabs_pos_eq by lra. exact Hy. }
  rewrite Rabs_pos_eq in W by lra. change (1 - 53)%Z with (-52)%Z in W. rewrite b52 in W. lra.
Qed.

Section Step.
  Variables (e : Z).
  Hypothesis He : (-900 <= e <= 900)%Z.
  Notation B := (bpow radix2 e).
  Lemma B_pos : 0 < B. Proof. apply bpow_gt_0. Qed.
  Lemma B_big : bpow radix2 (-1022) <= B. Proof using He. apply bpow_le. lia. Qed.
  Lemma fmt_Bk k : (Z.abs k <= 2 ^ 53)%Z -> fmt64 (B * IZR k).
  Proof using He.
    intros Hk. assert (F := fmt_IZR k Hk). rewrite Rmult_comm.
    destruct (Z.eq_dec k 0) as [->|N]; [rewrite Rmult_0_l; apply fmt_0|].
    destruct (Z.eq_dec (Z.abs k) (2 ^ 53)) as [E|E].
    - assert (G : fmt64 (bpow radix2 (53 + e))) by (apply fmt_bpow; lia). rewrite bpow_plus in G. change (bpow radix2 53) with (IZR (2 ^ 53)) in G.
      destruct (Z.abs_eq_or_opp k) as [A|A]; rewrite A in E; [rewrite E; exact G|].
      assert (k = - 2 ^ 53)%Z as -> by lia. rewrite opp_IZR. rewrite <- Ropp_mult_distr_l. apply fmt_opp. exact G.
    - apply generic_format_FLT. exists (Float radix2 k e); [reflexivity| |cbn; lia]. cbn. lia.
  Qed.
  Lemma Bk_ovf k r : (0 <= k <= 2 ^ 53)%Z -> Rabs r <= B * IZR k -> no_ovf r.
  Proof using He.
    intros Hk H. apply (no_ovf_le (B * IZR k)); [apply fmt_Bk; lia| |exact H].
    eapply Rle_lt_trans with (bpow radix2 (e + 53)); [|apply bpow_lt; lia]. rewrite bpow_plus. apply Rmult_le_compat_l; [apply bpow_ge_0|].
    change (bpow radix2 53) with (IZR (2 ^ 53)). apply IZR_le. lia.
  Qed.
  Lemma abs_between a r : fmt64 a -> Rabs r <= a -> Rabs (rnd r) <= a.
  Proof. intros F H. apply Rabs_le. apply Rabs_le_inv in H. apply rnd_between; auto. now apply fmt_opp. Qed.

  (** one step of a running mean, from [k] to [k + 1] values of magnitude at most [B] *)
  Lemma running_step (p v kf nf : F64) (k : Z) (m vx d dv : R) : (0 <= k)%Z -> (k + 1 <= 2 ^ 53)%Z ->
    F_fin kf = true -> F2R64 kf = IZR k -> F_fin nf = true -> F2R64 nf = IZR (k + 1) ->
    F_fin p = true -> (k <> 0%Z -> Rabs (F2R64 p) <= B) -> F_fin v = true -> Rabs (F2R64 v) <= B ->
    (k <> 0%Z -> Rabs (F2R64 p - m) <= d) -> Rabs (F2R64 v - vx) <= dv ->
    let r := ddiv (dadd (dmul p kf) v) nf in
    F_fin r = true /\ Rabs (F2R64 r) <= B /\
    Rabs (F2R64 r - (m * IZR k + vx) / IZR (k + 1)) * IZR (k + 1) <= d * IZR k + dv + hh * B * (3 * IZR k + 2).
  Proof using He.
    intros Hk Hk' Fk Ek Fn En Fp Hp Fv Hv Hd Hdv r.
    assert (PB := B_pos). assert (BB := B_big). assert (PH := hh_pos).
    assert (Kr : 0 <= IZR k) by (apply (IZR_le 0); auto).
    assert (K1 : 1 <= IZR (k + 1)) by (apply (IZR_le 1); lia).
    assert (EK : IZR (k + 1) = IZR k + 1) by (rewrite plus_IZR; reflexivity).
    assert (M : Rabs (F2R64 p * IZR k) <= B * IZR k).
    { destruct (Z.eq_dec k 0) as [->|N]; [rewrite !Rmult_0_r, Rabs_R0; lra|]. rewrite Rabs_mult, (Rabs_pos_eq (IZR k)) by exact Kr. apply Rmult_le_compat_r; auto. }
    destruct (F_mul_correct p kf Fp Fk) as [Em Fm]; [rewrite Ek; apply (Bk_ovf k); [lia|exact M]|]. rewrite Ek in Em.
    assert (M1 : Rabs (F2R64 (dmul p kf)) <= B * IZR k) by (rewrite Em; apply abs_between; [apply fmt_Bk; lia|exact M]).
    assert (M2 : Rabs (F2R64 (dmul p kf) - F2R64 p * IZR k) <= hh * (B * IZR k)).
    { rewrite Em. destruct (Z.eq_dec k 0) as [->|N]; [rewrite !Rmult_0_r, rnd_0, Rminus_diag_eq, Rabs_R0 by reflexivity; lra|]. apply err_bound; [|exact M].
      assert (1 <= IZR k) by (apply (IZR_le 1); lia). apply Rle_trans with (B * 1); [lra|]. apply Rmult_le_compat_l; lra. }
    assert (A : Rabs (F2R64 (dmul p kf) + F2R64 v) <= B * IZR (k + 1)).
    { eapply Rle_trans; [apply Rabs_triang|]. rewrite EK. lra. }
    destruct (F_add_correct _ v Fm Fv) as [Ea Fa]; [apply (Bk_ovf (k + 1)); [lia|exact A]|].
    assert (A1 : Rabs (F2R64 (dadd (dmul p kf) v)) <= B * IZR (k + 1)) by (rewrite Ea; apply abs_between; [apply fmt_Bk; lia|exact A]).
    assert (A2 : Rabs (F2R64 (dadd (dmul p kf) v) - (F2R64 (dmul p kf) + F2R64 v)) <= hh * (B * IZR (k + 1))).
    { rewrite Ea. apply err_bound; [|exact A]. apply Rle_trans with (B * 1); [lra|]. apply Rmult_le_compat_l; lra. }
    set (s := F2R64 (dadd (dmul p kf) v)) in *.
    assert (Q : Rabs (s / IZR (k + 1)) <= B).
    { unfold Rdiv. rewrite Rabs_mult, (Rabs_pos_eq (/ IZR (k + 1))) by (left; apply Rinv_0_lt_compat; lra).
      apply (Rmult_le_reg_r (IZR (k + 1))); [lra|]. rewrite Rmult_assoc, Rinv_l by lra. lra. }
    destruct (F_div_correct (dadd (dmul p kf) v) nf Fa) as [Ed Fd]; [rewrite En; lra|rewrite En; apply (Bk_ovf 1); [lia|fold s; lra]|].
    rewrite En in Ed. fold s in Ed. fold r in Ed, Fd. split; [exact Fd|].
    assert (Q2 : Rabs (F2R64 r - s / IZR (k + 1)) <= hh * B) by (rewrite Ed; apply err_bound; [exact BB|exact Q]).
    split; [rewrite Ed; apply abs_between; [apply fmt_bpow; lia|exact Q]|].
    rewrite <- (Rabs_pos_eq (IZR (k + 1))) at 2 by lra. rewrite <- Rabs_mult.
    replace ((F2R64 r - (m * IZR k + vx) / IZR (k + 1)) * IZR (k + 1)) with
      ((F2R64 r - s / IZR (k + 1)) * IZR (k + 1) + ((s - (F2R64 (dmul p kf) + F2R64 v)) + ((F2R64 (dmul p kf) - F2R64 p * IZR k) + ((F2R64 p - m) * IZR k + (F2R64 v - vx))))) by (field; lra).
    assert (T1 : Rabs ((F2R64 r - s / IZR (k + 1)) * IZR (k + 1)) <= hh * B * IZR (k + 1)).
    { rewrite Rabs_mult, (Rabs_pos_eq (IZR (k + 1))) by lra. apply Rmult_le_compat_r; lra. }
    assert (T2 : Rabs ((F2R64 p - m) * IZR k) <= d * IZR k).
    { destruct (Z.eq_dec k 0) as [->|N]; [rewrite !Rmult_0_r, Rabs_R0; lra|]. rewrite Rabs_mult, (Rabs_pos_eq (IZR k)) by exact Kr. apply Rmult_le_compat_r; auto. }
    eapply Rle_trans; [apply Rabs_triang|]. eapply Rle_trans; [apply Rplus_le_compat; [exact T1|apply Rabs_triang]|].
    eapply Rle_trans; [apply Rplus_le_compat_l, Rplus_le_compat; [exact A2|apply Rabs_triang]|].
    eapply Rle_trans; [apply Rplus_le_compat_l, Rplus_le_compat_l, Rplus_le_compat; [exact M2|apply Rabs_triang]|].
    rewrite EK in *. nra.
  Qed.

  (** the same as a step of the mean of a list *)
  Lemma mean_list_step (p v kf nf : F64) (l : list R) (vx dv : R) (dflt : R) : (Z.of_nat (length l) + 1 <= 2 ^ 53)%Z ->
    F_fin kf = true -> F2R64 kf = IZR (Z.of_nat (length l)) -> F_fin nf = true -> F2R64 nf = IZR (Z.of_nat (length l) + 1) ->
    F_fin p = true -> (l <> [] -> Rabs (F2R64 p) <= B) -> F_fin v = true -> Rabs (F2R64 v) <= B ->
    (l <> [] -> Rabs (F2R64 p - mean_or dflt l) <= 3 / 2 * (hh * B) * (INR (length l) + 1)) -> Rabs (F2R64 v - vx) <= dv -> dv <= hh * B ->
    let r := ddiv (dadd (dmul p kf) v) nf in
    F_fin r = true /\ Rabs (F2R64 r) <= B /\ Rabs (F2R64 r - mean_or dflt (l ++ [vx])) <= 3 / 2 * (hh * B) * (INR (length (l ++ [vx])) + 1).
  Proof using He.
    intros Hk Fk Ek Fn En Fp Hp Fv Hv Hd Hdv Hdv' r.
    set (k := Z.of_nat (length l)) in *. assert (NE : k <> 0%Z -> l <> []) by (intros N ->; apply N; reflexivity).
    destruct (running_step p v kf nf k (mean_or dflt l) vx (3 / 2 * (hh * B) * (INR (length l) + 1)) dv) as (R1 & R2 & R3); auto; try (unfold k; lia).
    split; [exact R1|]. split; [exact R2|]. fold r in R3.
    assert (K : INR (length l) = IZR k) by apply INR_IZR_INZ.
    assert (EK : IZR (k + 1) = IZR k + 1) by (rewrite plus_IZR; reflexivity).
    assert (Kr : 0 <= IZR k) by (rewrite <- K; apply pos_INR).
    assert (EM : mean_or dflt (l ++ [vx]) = (mean_or dflt l * IZR k + vx) / IZR (k + 1)).
    { rewrite EK, <- K. destruct l as [|x l].
      - cbn. unfold Rmean. cbn. field.
      - assert (E : mean_or dflt ((x :: l) ++ [vx]) = Rmean ((x :: l) ++ [vx])) by reflexivity. rewrite E. unfold mean_or, Rmean.
        rewrite Rsum_app, app_length. cbn [Rsum fold_right]. rewrite Nat.add_1_r, S_INR, Rplus_0_r. cbn [length].
        assert (0 < INR (S (length l))) by (apply lt_0_INR; lia). field. lra. }
    rewrite EM. assert (L : INR (length (l ++ [vx])) = IZR k + 1) by (rewrite app_length; cbn [length]; rewrite Nat.add_1_r, S_INR, K; reflexivity).
    rewrite L, K in *. assert (PB := B_pos). assert (PH := hh_pos). assert (0 < hh * B) by (apply Rmult_lt_0_compat; lra). set (u := hh * B) in *. clearbody u.
    apply (Rmult_le_reg_r (IZR (k + 1))); [lra|]. eapply Rle_trans; [exact R3|]. rewrite EK. nra.
  Qed.
End Step.

Lemma half_err x : Rabs x <= / 2 -> Rabs (rnd x - x) <= hh / 4.
Proof.
  intros H. destruct (Req_dec (Rabs x) (/ 2)) as [E|E].
  - assert (F : fmt64 x).
    { assert (x = / 2 \/ x = - / 2) as [->| ->].
      { destruct (Rle_or_lt 0 x); [left; rewrite Rabs_pos_eq in E by lra; lra|right; rewrite Rabs_left in E by lra; lra]. }
      - apply fmt_half.
      - apply fmt_opp, fmt_half. }
    rewrite (rnd_id _ F), Rminus_diag_eq, Rabs_R0 by reflexivity. assert (X := hh_pos). lra.
  - assert (L : Rabs x < bpow radix2 (-1)) by (change (bpow radix2 (-1)) with (/ 2); lra).
    assert (X := RenderProofs.rnd_err (-1) x ltac:(lia) L). change (-1 - 53)%Z with (-54)%Z in X. rewrite b54 in X. lra.
Qed.

Lemma adjusted_err (o q : F64) : f01 o -> f01 q ->
  Rabs (F2R64 (dadd dhalf (dmul (dsub o dhalf) q)) - quality_adjusted (F2R64 o) (F2R64 q)) <= hh.
Proof.
  intros [Fo [O1 O2]] [Fq [Q1 Q2]]. destruct F_half as [Eh Fh].
  destruct (F_sub_correct o dhalf Fo Fh) as [Es Fs]; [rewrite Eh; apply no_ovf_1; lra|]. rewrite Eh in Es.
  assert (A0 : Rabs (F2R64 o - / 2) <= / 2) by (apply Rabs_le; lra).
  assert (A1 := half_err _ A0). rewrite <- Es in A1. set (a := F2R64 (dsub o dhalf)) in *.
  assert (Sa : Rabs a <= / 2) by (rewrite Es; apply abs_between; [apply fmt_half|exact A0]).
  assert (B0 : Rabs (a * F2R64 q) <= / 2).
  { rewrite Rabs_mult. replace (/ 2) with (/ 2 * 1) by ring. apply Rmult_le_compat; try apply Rabs_pos; auto. apply Rabs_le; lra. }
  destruct (F_mul_correct _ q Fs Fq) as [Em Fm]; [fold a; apply no_ovf_1; apply Rabs_le_inv in B0; lra|]. fold a in Em.
  assert (B1 := half_err _ B0). rewrite <- Em in B1. set (b := F2R64 (dmul (dsub o dhalf) q)) in *.
  assert (Sb : Rabs b <= / 2) by (rewrite Em; apply abs_between; [apply fmt_half|exact B0]).
  apply Rabs_le_inv in Sb. destruct (F_add_correct dhalf _ Fh Fm) as [Ea Fa]; [rewrite Eh; fold b; apply no_ovf_1; lra|]. rewrite Eh in Ea. fold b in Ea.
  assert (C1 := TbmFloatProofs.rnd_err (/ 2 + b) ltac:(lra)). rewrite <- Ea in C1. set (c := F2R64 (dadd dhalf (dmul (dsub o dhalf) q))) in *.
  assert (D1 : Rabs ((a - (F2R64 o - / 2)) * F2R64 q) <= hh / 4).
  { rewrite Rabs_mult. replace (hh / 4) with (hh / 4 * 1) by ring. apply Rmult_le_compat; try apply Rabs_pos; auto. apply Rabs_le; lra. }
  unfold quality_adjusted. apply Rabs_le_inv in B1. apply Rabs_le_inv in D1. apply Rabs_le. lra.
Qed.

(** mean-probability cell *)
Definition mean_float (l : list R) (c : mcell F64) : Prop :=
  F_fin (m_n c) = true /\ F2R64 (m_n c) = IZR (Z.of_nat (length l)) /\ f01 (c_prob (m_cell c)) /\
  Rabs (F2R64 (c_prob (m_cell c)) - mean_or (/ 2) l) <= 3 / 2 * hh * (INR (length l) + 1).
Definition adj_of (a : aoo F64) : R := quality_adjusted (F2R64 (prob_occ (a_occ a))) (F2R64 (a_quality a)).

Lemma counter_next (n : F64) (k : Z) : (0 <= k)%Z -> (k + 1 <= 2 ^ 53)%Z -> F_fin n = true -> F2R64 n = IZR k ->
  let n' := dadd n (dofZ 1) in F_fin n' = true /\ F2R64 n' = IZR (k + 1) /\ F_fin (dsub n' (dofZ 1)) = true /\ F2R64 (dsub n' (dofZ 1)) = IZR k.
Proof.
  intros Hk Hk' Fn En n'. destruct F_one as [E1 F1].
  assert (R0 : 0 <= IZR k <= p53) by (split; [apply (IZR_le 0); auto|apply IZR_le; lia]).
  assert (R1 : 0 <= IZR (k + 1) <= p53) by (split; [apply (IZR_le 0); lia|apply IZR_le; lia]).
  destruct (F_add_correct n (dofZ 1) Fn F1) as [Ea Fa]; [rewrite En, E1, <- plus_IZR; apply p53_ovf; lra|].
  rewrite En, E1, <- plus_IZR, rnd_id in Ea by (apply fmt_IZR; lia). split; [exact Fa|]. split; [exact Ea|]. fold n' in Ea, Fa.
  destruct (F_sub_correct n' (dofZ 1) Fa F1) as [Es Fs]; [rewrite Ea, E1, <- minus_IZR; apply p53_ovf; replace (k + 1 - 1)%Z with k by lia; lra|].
  split; [exact Fs|]. rewrite Es, Ea, E1, <- minus_IZR. replace (k + 1 - 1)%Z with k by lia. apply rnd_id, fmt_IZR. lia.
Qed.

Lemma mean_float_step l c a : mean_float l c -> obs01 a -> (Z.of_nat (length l) + 1 <= 2 ^ 53)%Z ->
  mean_float (if occ_valid (a_occ a) then l ++ [adj_of a] else l) (mean_upd c a).
Proof.
  intros (Fn & En & Hp & He) Ha Hl. unfold mean_upd. destruct (occ_valid (a_occ a)) eqn:Ev; [|split; auto].
  destruct Ha as [Ha|[Ho Hq]]; [congruence|].
  destruct (counter_next (m_n c) (Z.of_nat (length l)) ltac:(lia) Hl Fn En) as (F1 & E1 & F2 & E2). cbv zeta in F1, E1, F2, E2.
  assert (V := adjusted01 _ _ Ho Hq). destruct V as [FV [V1 V2]]. destruct Hp as [FP [P1 P2]].
  destruct (mean_list_step 0 ltac:(lia) (c_prob (m_cell c)) _ _ _ l (adj_of a) hh (/ 2) Hl F2 E2 F1 E1 FP ltac:(intros _; cbn [bpow]; apply Rabs_le; lra) FV ltac:(cbn [bpow]; apply Rabs_le; lra)
    ltac:(intros _; cbn [bpow]; rewrite Rmult_1_r; exact He) (adjusted_err _ _ Ho Hq) ltac:(cbn [bpow]; lra)) as (K1 & _ & K3).
  cbn [bpow] in K3. rewrite Rmult_1_r in K3. unfold mean_float. cbn [m_n m_cell]. unfold c_prob at 1 2. cbn [c_occ prob_occ].
  split; [exact F1|]. split; [rewrite E1, app_length; cbn [length]; f_equal; lia|]. split; [|exact K3].
  apply (running_mean01 _ _ _ _ (Z.of_nat (length l))); auto; try lia.
  - intros _. split; auto.
  - unfold c_prob in *; apply Rabs_le; lra.
  - split; [exact FV|split; auto].
Qed.

Theorem mean_float_run h : Forall obs01 h -> (Z.of_nat (length h) <= 2 ^ 53)%Z ->
  mean_float (map adj_of (filter (fun a => occ_valid (a_occ a)) h)) (fold_left mean_upd h mean_new).
Proof.
  intros Hh Hl.
  assert (G : forall h l c, mean_float l c -> Forall obs01 h -> (Z.of_nat (length l) + Z.of_nat (length h) <= 2 ^ 53)%Z ->
    mean_float (l ++ map adj_of (filter (fun a => occ_valid (a_occ a)) h)) (fold_left mean_upd h c)).
  { clear. induction h as [|a h IH]; intros l c I Hh Hl; cbn [fold_left filter map].
    - rewrite app_nil_r. exact I.
    - inversion Hh; subst. cbn [length] in Hl. assert (X := mean_float_step l c a I ltac:(assumption) ltac:(lia)).
      destruct (occ_valid (a_occ a)) eqn:Ev.
      + cbn [map]. replace (l ++ adj_of a :: map adj_of (filter (fun a => occ_valid (a_occ a)) h)) with ((l ++ [adj_of a]) ++ map adj_of (filter (fun a => occ_valid (a_occ a)) h)) by (rewrite <- app_assoc; reflexivity).
        apply IH; auto. rewrite app_length. cbn [length]. lia.
      + apply IH; auto. lia. }
  apply (G h [] mean_new); auto; try (cbn [length]; lia).
  destruct mean_new01 as [P (F & E & _)]. split; [exact F|]. split; [exact E|]. split; [exact P|].
  destruct F_half as [Eh _]. change (c_prob (m_cell (mean_new : mcell F64))) with (dhalf : F64). rewrite Eh. cbn [mean_or length INR]. rewrite Rminus_diag_eq, Rabs_R0 by reflexivity. assert (X := hh_pos). lra.
Qed.

(** GMapping cell: occupancy and obstacle; [e]: the obstacles' coordinates are at most 2^e in magnitude *)
Definition is_hitF (a : aoo F64) : bool := occ_valid (a_occ a) && negb (dle (prob_occ (a_occ a)) dhalf).
Definition contrF (a : aoo F64) : R := if dle (prob_occ (a_occ a)) dhalf then 0 else F2R64 (prob_occ (a_occ a)).
Definition near_mean (e : Z) (dflt : R) (x : F64) (l : list R) : Prop :=
  F_fin x = true /\ (l = [] -> F2R64 x = dflt) /\ (l <> [] -> Rabs (F2R64 x) <= bpow radix2 e) /\
  Rabs (F2R64 x - mean_or dflt l) <= 3 / 2 * (hh * bpow radix2 e) * (INR (length l) + 1).
Definition gm_float (e : Z) (h : list (aoo F64)) (c : gmcell F64) : Prop :=
  g_tries c = Z.of_nat (length (filter (fun a => occ_valid (a_occ a)) h)) /\ g_hits c = Z.of_nat (length (filter is_hitF h)) /\
  near_mean 0 (-1) (c_prob (g_cell c)) (map contrF (filter (fun a => occ_valid (a_occ a)) h)) /\
  near_mean e 0 (ptx (g_obst c)) (map (fun a => F2R64 (ptx (a_obst a))) (filter is_hitF h)) /\
  near_mean e 0 (pty (g_obst c)) (map (fun a => F2R64 (pty (a_obst a))) (filter is_hitF h)).
Definition obst_within (e : Z) (a : aoo F64) : Prop :=
  F_fin (ptx (a_obst a)) = true /\ Rabs (F2R64 (ptx (a_obst a))) <= bpow radix2 e /\ F_fin (pty (a_obst a)) = true /\ Rabs (F2R64 (pty (a_obst a))) <= bpow radix2 e.

Lemma near_step e dflt x l v k : (-900 <= e <= 900)%Z -> near_mean e dflt x l -> F_fin v = true -> Rabs (F2R64 v) <= bpow radix2 e ->
  k = Z.of_nat (length l) -> (k + 1 <= 2 ^ 53)%Z ->
  near_mean e dflt (ddiv (dadd (dmul x (dofZ (k + 1 - 1))) v) (dofZ (k + 1))) (l ++ [F2R64 v]).
Proof.
  intros He (Fx & _ & Hx & Hm) Fv Hv -> Hk. replace (Z.of_nat (length l) + 1 - 1)%Z with (Z.of_nat (length l)) by lia.
  destruct (F_ofZ_correct (Z.of_nat (length l))) as [E1 F1]; [lia|]. destruct (F_ofZ_correct (Z.of_nat (length l) + 1)) as [E2 F2]; [lia|].
  destruct (mean_list_step e He x v _ _ l (F2R64 v) 0 dflt Hk F1 E1 F2 E2 Fx Hx Fv Hv) as (K1 & K2 & K3).
  - intros _. exact Hm.
  - rewrite Rminus_diag_eq, Rabs_R0 by reflexivity. lra.
  - apply Rmult_le_pos; [left; apply hh_pos|apply bpow_ge_0].
  - split; [exact K1|]. split; [intros X; destruct l; discriminate X|]. split; [intros _; exact K2|exact K3].
Qed.

Lemma gm_float_step e h c a : (-900 <= e <= 900)%Z -> gm_float e h c -> gm_obs01 a -> obst_within e a -> (Z.of_nat (length h) + 1 < 2 ^ 31)%Z ->
  exists c', gm_upd c a = Ok c' /\ gm_float e (h ++ [a]) c'.
Proof.
  intros He (Ht & Hh & Hp & Hx & Hy) Ha (Fx & Bx & Fy & By) Hl. unfold gm_upd, gm_float. rewrite !filter_app. cbn [filter].
  assert (LV := filter_length_le (fun a => occ_valid (a_occ a)) h). assert (LH := filter_length_le is_hitF h).
  unfold is_hitF at 2 4 6. destruct (occ_valid (a_occ a)) eqn:Ev; cbn [andb].
  2: { exists c. rewrite !app_nil_r. repeat split; auto; apply Hp || apply Hx || apply Hy. }
  destruct Ha as [Ha|Ha]; [congruence|]. destruct Ha as [Fo [O1 O2]].
  unfold int_incr, in_int, int_min, int_max.
  replace (((- 2 ^ 31 <=? g_tries c + 1) && (g_tries c + 1 <=? 2 ^ 31 - 1))%Z) with true
    by (symmetry; apply andb_true_intro; split; apply Z.leb_le; lia).
  cbn [bind]. destruct F_zero as [Z0 Z1].
  assert (PP : forall v, F_fin v = true -> Rabs (F2R64 v) <= 1 -> F2R64 v = contrF a ->
    near_mean 0 (-1) (ddiv (dadd (dmul (c_prob (g_cell c)) (dofZ (g_tries c + 1 - 1))) v) (dofZ (g_tries c + 1))) (map contrF (filter (fun a => occ_valid (a_occ a)) h) ++ [contrF a])).
  { intros v Fv Hv <-. apply near_step; auto; [lia|now rewrite map_length|lia]. }
  destruct (dle (prob_occ (a_occ a)) dhalf) eqn:Ef; cbn [negb].
  - eexists. split; [reflexivity|]. cbn [g_tries g_hits g_cell g_obst]. unfold c_prob at 1. cbn [c_occ prob_occ].
    rewrite !app_nil_r, app_length. cbn [length]. split; [lia|]. split; [lia|]. split; [|split; assumption].
    rewrite map_app. apply PP; [exact Z1|rewrite Z0, Rabs_R0; lra|]. unfold contrF. rewrite Ef. exact Z0.
  - replace (((- 2 ^ 31 <=? g_hits c + 1) && (g_hits c + 1 <=? 2 ^ 31 - 1))%Z) with true
      by (symmetry; apply andb_true_intro; split; apply Z.leb_le; lia).
    cbn [bind]. eexists. split; [reflexivity|]. cbn [g_tries g_hits g_cell g_obst]. unfold c_prob at 1. cbn [c_occ prob_occ].
    rewrite !app_length. cbn [length]. split; [lia|]. split; [lia|]. rewrite !map_app. split; [|split].
    + apply PP; [exact Fo|apply Rabs_le; lra|]. unfold contrF. now rewrite Ef.
    + cbn [ptx fst map]. apply near_step; auto; [now rewrite map_length|lia].
    + cbn [pty snd map]. apply near_step; auto; [now rewrite map_length|lia].
Qed.

Theorem gm_float_run e h : (-900 <= e <= 900)%Z -> Forall gm_obs01 h -> Forall (obst_within e) h -> (Z.of_nat (length h) < 2 ^ 31)%Z ->
  exists c, gm_run gm_new h = Ok c /\ gm_float e h c.
Proof.
  intros He Hh Ho Hl.
  assert (G : forall h2 h1 c, gm_float e h1 c -> Forall gm_obs01 h2 -> Forall (obst_within e) h2 -> (Z.of_nat (length h1) + Z.of_nat (length h2) < 2 ^ 31)%Z ->
    exists c', gm_run c h2 = Ok c' /\ gm_float e (h1 ++ h2) c').
  { clear - He. induction h2 as [|a h2 IH]; intros h1 c I Hh Ho Hl; cbn [gm_run].
    - exists c. rewrite app_nil_r. auto.
    - inversion Hh; inversion Ho; subst. cbn [length] in Hl. destruct (gm_float_step e h1 c a He I) as (c1 & E1 & I1); auto; [lia|]. rewrite E1. cbn [bind].
      replace (h1 ++ a :: h2) with ((h1 ++ [a]) ++ h2) by (rewrite <- app_assoc; reflexivity). apply IH; auto. rewrite app_length. cbn [length]. lia. }
  destruct (F_ofZ_correct (-1)) as [E3 F3]; [lia|]. destruct F_zero as [Z0 Z1]. assert (PH := hh_pos).
  destruct (G h [] gm_new) as (c & E & I); [|exact Hh|exact Ho|cbn [length]; lia|exists c; auto].
  unfold gm_float, gm_new, near_mean, c_prob. cbn [g_tries g_hits g_cell g_obst ptx pty fst snd filter map length mean_or INR gcell_new c_occ prob_occ].
  assert (PB := bpow_gt_0 radix2 e). assert (0 < hh * bpow radix2 e) by (apply Rmult_lt_0_compat; lra).
  change (bpow radix2 0) with 1. rewrite E3, Z0. rewrite !Rminus_diag_eq, Rabs_R0 by reflexivity. repeat split; auto; try congruence; lra.
Qed.
