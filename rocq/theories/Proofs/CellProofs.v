(** Naive and GMapping cells: exact arithmetic (XR) and binary64. *)
From Coq Require Import Reals ZArith List Bool Lra Lia.
From Flocq Require Import Core IEEE754.BinarySingleNaN IEEE754.Binary IEEE754.Bits.
From Verif.Base Require Import Outcome Num XReal F64Facts.
From Verif.Model Require Import MathUtils Geometry PlainMap Cells.
From Verif.Spec Require Import CellSpec.
Import ListNotations.
Local Open Scope R_scope.

(** ** binary64 *)
Definition f01 (x : F64) : Prop := F_fin x = true /\ in01 (F2R64 x).

Lemma F_one : F2R64 (dofZ 1) = 1 /\ F_fin (dofZ 1 : F64) = true.
Proof. apply F_ofZ_correct. lia. Qed.
Lemma F_half : F2R64 dhalf = / 2 /\ F_fin (dhalf : F64) = true.
Proof.
  destruct (F_dlit_correct 1 2) as [E F]; try lia.
  - apply no_ovf_1. lra.
  - split; auto. unfold dhalf. rewrite E. replace (1 / 2) with (/ 2) by lra. apply rnd_id, fmt_half.
Qed.

Lemma succ_1 : succ radix2 fexp64 1 = 1 + bpow radix2 (-52).
Proof.
  rewrite succ_eq_pos by lra. f_equal. change 1 with (bpow radix2 0) at 1. rewrite ulp_bpow. reflexivity.
Qed.
Lemma rnd_le_1 x : x <= 1 + bpow radix2 (-54) -> rnd x <= 1.
Proof.
  intros H. unfold rnd. apply round_N_le_midp; auto with typeclass_instances.
  - apply fmt_1.
  - rewrite succ_1. apply Rle_lt_trans with (1 := H).
    assert (B : bpow radix2 (-54) < bpow radix2 (-53)) by (apply bpow_lt; lia).
    assert (E : bpow radix2 (-52) = 2 * bpow radix2 (-53)).
    { change 2 with (bpow radix2 1). rewrite <- bpow_plus. reflexivity. }
    lra.
Qed.
(** rounding a number of [0, 1) errs by at most 2^-54 *)
Lemma rnd_err_01 x : 0 <= x < 1 -> rnd x <= x + bpow radix2 (-54).
Proof.
  intros [H0 H1]. destruct (Req_dec x 0) as [->|Hne].
  - rewrite rnd_0. assert (0 < bpow radix2 (-54)) by apply bpow_gt_0. lra.
  - assert (E := error_le_half_ulp radix2 fexp64 (fun x => negb (Z.even x)) x).
    assert (U : ulp radix2 fexp64 x <= bpow radix2 (-53)).
    { rewrite ulp_neq_0 by auto. apply bpow_le. unfold cexp.
      assert (M : (mag radix2 x <= 0)%Z).
      { apply mag_le_bpow; auto. rewrite Rabs_pos_eq by auto. exact H1. }
      change (-53)%Z with (fexp64 0). apply fexp64_monotone. exact M. }
    assert (B : bpow radix2 (-53) = 2 * bpow radix2 (-54)).
    { change 2 with (bpow radix2 1). rewrite <- bpow_plus. reflexivity. }
    unfold rnd in *. apply Rabs_le_inv in E. lra.
Qed.

Lemma mul_01 (a b : F64) hi : F_fin a = true -> f01 b -> 0 <= F2R64 a <= hi -> hi <= 1 ->
  F_fin (dmul a b) = true /\ 0 <= F2R64 (dmul a b) <= F2R64 a.
Proof.
  intros Fa [Fb [B1 B2]] [A1 A2] Hhi.
  assert (M : 0 <= F2R64 a * F2R64 b <= F2R64 a).
  { split; [apply Rmult_le_pos; auto|]. rewrite <- (Rmult_1_r (F2R64 a)) at 2. apply Rmult_le_compat_l; auto. }
  destruct (F_mul_correct a b Fa Fb) as [E F]; [apply no_ovf_1; lra|].
  split; auto. rewrite E. apply rnd_between; auto; [apply fmt_0|apply F_fmt].
Qed.

Lemma affine_f01 p o q : f01 p -> f01 o -> f01 q ->
  f01 (dadd (dmul (dsub (dofZ 1) q) p) (dmul q o)).
Proof.
  intros Hp Ho Hq. destruct F_one as [E1 F1]. assert (Hq' := Hq). destruct Hq' as [Fq [Q1 Q2]].
  destruct (F_sub_correct (dofZ 1) q F1 Fq) as [Es Fs]; [rewrite E1; apply no_ovf_1; lra|].
  rewrite E1 in Es.
  assert (S01 : 0 <= F2R64 (dsub (dofZ 1) q) <= 1).
  { rewrite Es. apply rnd_between; [apply fmt_0|apply fmt_1|lra]. }
  destruct (mul_01 (dsub (dofZ 1) q) p 1 Fs Hp) as [Fm Mm]; auto; try lra.
  destruct (mul_01 q o 1 Fq Ho) as [Fn Mn]; auto; try lra.
  assert (UB : F2R64 (dmul (dsub (dofZ 1) q) p) + F2R64 (dmul q o) <= 1 + bpow radix2 (-54)).
  { apply Rle_trans with (rnd (1 - F2R64 q) + F2R64 q); [rewrite <- Es; lra|].
    destruct (Req_dec (F2R64 q) 0) as [Z|NZ].
    - rewrite Z, Rminus_0_r, (rnd_id 1 fmt_1). assert (0 < bpow radix2 (-54)) by apply bpow_gt_0. lra.
    - assert (H := rnd_err_01 (1 - F2R64 q)). lra. }
  assert (B2 : 1 + bpow radix2 (-54) <= 2).
  { assert (bpow radix2 (-54) <= bpow radix2 0) by (apply bpow_le; lia). cbn in H |- *. lra. }
  destruct (F_add_correct (dmul (dsub (dofZ 1) q) p) (dmul q o) Fm Fn) as [Ea Fa].
  { apply (no_ovf_le 2); [apply (fmt_IZR 2); lia| |apply Rabs_le; lra].
    change 2 with (bpow radix2 1). apply bpow_lt. lia. }
  split; auto. split; rewrite Ea; [apply rnd_ge; [apply fmt_0|lra]|apply rnd_le_1; lra].
Qed.

(** what the cell is told: NaN somewhere, or numbers of [0,1] *)
Definition obs01 (a : aoo F64) : Prop :=
  occ_valid (a_occ a) = false \/ (f01 (prob_occ (a_occ a)) /\ f01 (a_quality a)).

Lemma affine_run01 h : forall c, f01 (c_prob c) -> Forall obs01 h -> f01 (c_prob (fold_left affine_upd h c)).
Proof.
  induction h as [|a h IH]; intros c Hc Hh; cbn [fold_left]; auto.
  inversion Hh as [|x y Ha Hh']; subst. apply IH; auto. unfold affine_upd.
  destruct (occ_valid (a_occ a)) eqn:E; auto. destruct Ha as [Ha|[Ho Hq]]; [congruence|].
  unfold c_prob at 1. cbn [c_occ prob_occ]. apply affine_f01; auto.
Qed.
Lemma affine_new01 : f01 (c_prob (affine_new : gcell F64)).
Proof. destruct F_half as [E F]. split; [exact F|].
  change (c_prob affine_new) with (dhalf : F64). rewrite E. unfold in01; lra. Qed.

Lemma affine_q0 c a : f01 (c_prob c) -> F_fin (prob_occ (a_occ a)) = true -> occ_valid (a_occ a) = true ->
  F_fin (a_quality a) = true -> F2R64 (a_quality a) = 0 ->
  F2R64 (c_prob (affine_upd c a)) = F2R64 (c_prob c).
Proof.
  intros [Fc Hc] Fo Hv Fq Hq. unfold affine_upd. rewrite Hv. unfold c_prob at 1. cbn [c_occ prob_occ].
  destruct F_one as [E1 F1].
  destruct (F_sub_correct (dofZ 1) (a_quality a) F1 Fq) as [Es Fs]; [rewrite E1, Hq; apply no_ovf_1; lra|].
  rewrite E1, Hq, Rminus_0_r, (rnd_id 1 fmt_1) in Es.
  destruct (F_mul_correct (dsub (dofZ 1) (a_quality a)) (c_prob c) Fs Fc) as [Em Fm].
  { rewrite Es, Rmult_1_l. apply no_ovf_1. unfold in01 in Hc; lra. }
  rewrite Es, Rmult_1_l, (rnd_id _ (F_fmt _)) in Em.
  destruct (F_mul_correct (a_quality a) (prob_occ (a_occ a)) Fq Fo) as [En Fn].
  { rewrite Hq, Rmult_0_l. apply no_ovf_1. lra. }
  rewrite Hq, Rmult_0_l, rnd_0 in En.
  destruct (F_add_correct _ _ Fm Fn) as [Ea _].
  { rewrite Em, En, Rplus_0_r. apply no_ovf_1. unfold in01 in Hc; lra. }
  rewrite Ea, Em, En, Rplus_0_r. apply rnd_id, F_fmt.
Qed.
Lemma affine_q1 c a : f01 (c_prob c) -> f01 (prob_occ (a_occ a)) -> occ_valid (a_occ a) = true ->
  F_fin (a_quality a) = true -> F2R64 (a_quality a) = 1 ->
  F2R64 (c_prob (affine_upd c a)) = F2R64 (prob_occ (a_occ a)).
Proof.
  intros [Fc Hc] [Fo Ho] Hv Fq Hq. unfold affine_upd. rewrite Hv. unfold c_prob at 1. cbn [c_occ prob_occ].
  destruct F_one as [E1 F1].
  destruct (F_sub_correct (dofZ 1) (a_quality a) F1 Fq) as [Es Fs]; [rewrite E1, Hq; apply no_ovf_1; lra|].
  rewrite E1, Hq, Rminus_diag_eq, rnd_0 in Es by reflexivity.
  destruct (F_mul_correct (dsub (dofZ 1) (a_quality a)) (c_prob c) Fs Fc) as [Em Fm].
  { rewrite Es, Rmult_0_l. apply no_ovf_1. lra. }
  rewrite Es, Rmult_0_l, rnd_0 in Em.
  destruct (F_mul_correct (a_quality a) (prob_occ (a_occ a)) Fq Fo) as [En Fn].
  { rewrite Hq, Rmult_1_l. apply no_ovf_1. unfold in01 in Ho. lra. }
  rewrite Hq, Rmult_1_l, (rnd_id _ (F_fmt _)) in En.
  destruct (F_add_correct _ _ Fm Fn) as [Ea _].
  { rewrite Em, En, Rplus_0_l. apply no_ovf_1. unfold in01 in Ho; lra. }
  rewrite Ea, Em, En, Rplus_0_l. apply rnd_id, F_fmt.
Qed.

(** *** weighted running mean in binary64 *)
Definition p53 : R := IZR (2 ^ 53).
Lemma p53_ovf r : -p53 <= r <= p53 -> no_ovf r.
Proof.
  intros H. apply (no_ovf_le p53); [apply fmt_IZR; lia| |apply Rabs_le; auto].
  unfold p53. change (IZR (2 ^ 53)) with (bpow radix2 53). apply bpow_lt. lia.
Qed.

(** (p * k + v) / n for n = k + 1 *)
Lemma running_mean01 (p v kf nf : F64) (k : Z) : (0 <= k)%Z -> (k + 1 <= 2 ^ 53)%Z ->
  F_fin kf = true -> F2R64 kf = IZR k -> F_fin nf = true -> F2R64 nf = IZR (k + 1) ->
  F_fin p = true -> (k <> 0%Z -> in01 (F2R64 p)) -> Rabs (F2R64 p) <= 1 -> f01 v ->
  f01 (ddiv (dadd (dmul p kf) v) nf).
Proof.
  intros Hk Hk' Fk Ek Fn En Fp Hp Hp1 [Fv [V1 V2]].
  assert (Kr : 0 <= IZR k) by (apply (IZR_le 0); auto).
  assert (Kr' : IZR (k + 1) <= p53) by (apply IZR_le; auto).
  assert (Kr1 : 1 <= IZR (k + 1)) by (apply (IZR_le 1); lia).
  rewrite plus_IZR in Kr'.
  assert (M : 0 <= F2R64 p * IZR k <= IZR k).
  { destruct (Z.eq_dec k 0) as [->|Hne]; [rewrite Rmult_0_r; lra|].
    specialize (Hp Hne). unfold in01 in Hp. split; [apply Rmult_le_pos; lra|].
    rewrite <- (Rmult_1_l (IZR k)) at 2. apply Rmult_le_compat_r; lra. }
  destruct (F_mul_correct p kf Fp Fk) as [Em Fm]; [rewrite Ek; apply p53_ovf; lra|].
  assert (M' : 0 <= F2R64 (dmul p kf) <= IZR k).
  { rewrite Em, Ek. apply rnd_between; auto; [apply fmt_0|apply fmt_IZR; lia]. }
  destruct (F_add_correct _ v Fm Fv) as [Ea Fa]; [apply p53_ovf; lra|].
  assert (A' : 0 <= F2R64 (dadd (dmul p kf) v) <= IZR (k + 1)).
  { rewrite Ea. apply rnd_between; [apply fmt_0|apply fmt_IZR; lia|rewrite plus_IZR; lra]. }
  assert (D' : 0 <= F2R64 (dadd (dmul p kf) v) / IZR (k + 1) <= 1).
  { split; [apply Rle_mult_inv_pos; lra|]. apply Rmult_le_reg_r with (IZR (k + 1)); [lra|].
    unfold Rdiv. rewrite Rmult_assoc, Rinv_l by lra. lra. }
  destruct (F_div_correct (dadd (dmul p kf) v) nf Fa) as [Ed Fd]; [rewrite En; lra|rewrite En; apply no_ovf_1; lra|].
  split; auto. rewrite Ed, En. unfold in01. apply rnd_between; auto; [apply fmt_0|apply fmt_1].
Qed.

Lemma adjusted01 o q : f01 o -> f01 q -> f01 (dadd dhalf (dmul (dsub o dhalf) q)).
Proof.
  intros [Fo [O1 O2]] [Fq [Q1 Q2]]. destruct F_half as [Eh Fh].
  destruct (F_sub_correct o dhalf Fo Fh) as [Es Fs]; [rewrite Eh; apply no_ovf_1; lra|].
  assert (S : - / 2 <= F2R64 (dsub o dhalf) <= / 2).
  { rewrite Es, Eh. apply rnd_between; [apply fmt_opp, fmt_half|apply fmt_half|lra]. }
  assert (M : - / 2 <= F2R64 (dsub o dhalf) * F2R64 q <= / 2).
  { apply Rabs_le_inv. rewrite Rabs_mult. replace (/ 2) with (/ 2 * 1) by ring.
    apply Rmult_le_compat; try apply Rabs_pos; apply Rabs_le; lra. }
  destruct (F_mul_correct _ q Fs Fq) as [Em Fm]; [apply no_ovf_1; lra|].
  assert (M' : - / 2 <= F2R64 (dmul (dsub o dhalf) q) <= / 2).
  { rewrite Em. apply rnd_between; auto; [apply fmt_opp, fmt_half|apply fmt_half]. }
  destruct (F_add_correct dhalf _ Fh Fm) as [Ea Fa]; [rewrite Eh; apply no_ovf_1; lra|].
  split; auto. rewrite Ea, Eh. unfold in01. apply rnd_between; [apply fmt_0|apply fmt_1|lra].
Qed.

(** the counter: an integer that saturates at 2^53 *)
Definition counter (n : F64) (k : Z) : Prop := F_fin n = true /\ F2R64 n = IZR k /\ (0 <= k <= 2 ^ 53)%Z.
Lemma counter_incr n k : counter n k ->
  exists k', counter (dadd n (dofZ 1)) (k' + 1) /\ (0 <= k')%Z /\ (k' <> 0 -> k <> 0)%Z /\
    F_fin (dsub (dadd n (dofZ 1)) (dofZ 1)) = true /\ F2R64 (dsub (dadd n (dofZ 1)) (dofZ 1)) = IZR k'.
Proof.
  intros (Fn & En & Hk). destruct F_one as [E1 F1].
  assert (P : exists k', counter (dadd n (dofZ 1)) (k' + 1) /\ (0 <= k')%Z /\ (k' <> 0 -> k <> 0)%Z).
  { destruct (Z.eq_dec k (2 ^ 53)) as [->|Hne].
    - exists (2 ^ 53 - 1)%Z. split; [|split; lia].
      assert (Ek : n = F_ofZ (2 ^ 53)).
      { destruct (F_ofZ_correct (2 ^ 53)) as [E F]; [lia|]. cbn [dofZ FOps] in E, F.
        apply (B2R_inj 53 1024).
        - destruct n as [s|s|s pl H|s m e H]; auto; try discriminate Fn.
          exfalso. unfold F2R64 in En. cbn [B2R] in En. apply (eq_IZR 0) in En. lia.
        - vm_compute. reflexivity.
        - fold (F2R64 n) (F2R64 (F_ofZ (2 ^ 53))). rewrite En, E. reflexivity. }
      subst n. replace (2 ^ 53 - 1 + 1)%Z with (2 ^ 53)%Z by lia.
      assert (Q : dadd (F_ofZ (2 ^ 53)) (dofZ 1) = F_ofZ (2 ^ 53)).
      { apply (B2R_Bsign_inj 53 1024); vm_compute; reflexivity. }
      rewrite Q. repeat split; auto; lia.
    - exists k. split; [|split; lia].
      destruct (F_add_correct n (dofZ 1) Fn F1) as [Ea Fa].
      { rewrite En, E1. rewrite <- plus_IZR. apply p53_ovf. unfold p53. split.
        - apply Rle_trans with 0; [|apply (IZR_le 0); lia]. assert (0 <= IZR (2 ^ 53)) by (apply (IZR_le 0); lia). lra.
        - apply IZR_le; lia. }
      split; auto. split; [|lia]. rewrite Ea, En, E1, <- plus_IZR. apply rnd_id, fmt_IZR. lia. }
  destruct P as (k' & (Fa & Ea & Hk') & P1 & P2). exists k'. split; [split; auto|]. split; auto. split; auto.
  assert (R0 : 0 <= IZR k' <= p53) by (split; [apply (IZR_le 0); auto|apply IZR_le; lia]).
  destruct (F_sub_correct (dadd n (dofZ 1)) (dofZ 1) Fa F1) as [Es Fs].
  { rewrite Ea, E1, plus_IZR. apply p53_ovf. lra. }
  split; auto. rewrite Es, Ea, E1, plus_IZR. replace (IZR k' + 1 - 1) with (IZR k') by ring. apply rnd_id, fmt_IZR. lia.
Qed.

Lemma mean_run01 h : forall c k, f01 (c_prob (m_cell c)) -> counter (m_n c) k -> Forall obs01 h ->
  f01 (c_prob (m_cell (fold_left mean_upd h c))).
Proof.
  induction h as [|a h IH]; intros c k Hc Hn Hh; cbn [fold_left]; auto.
  inversion Hh as [|x y Ha Hh']; subst. unfold mean_upd at 2.
  destruct (occ_valid (a_occ a)) eqn:E; [|eauto]. destruct Ha as [Ha|[Ho Hq]]; [congruence|].
  destruct (counter_incr _ _ Hn) as (k' & Hn' & K0 & K1 & Fs & Es).
  apply (IH _ (k' + 1)%Z); auto. unfold c_prob at 1. cbn [m_cell c_occ prob_occ].
  destruct Hn' as (Fn & En & Hk'). destruct Hc as [Fc [C1 C2]].
  apply (running_mean01 _ _ _ _ k'); auto; try lia.
  - intros _. split; auto.
  - apply Rabs_le; lra.
  - apply adjusted01; auto.
Qed.
Lemma mean_new01 : f01 (c_prob (m_cell (mean_new : mcell F64))) /\ counter (m_n (mean_new : mcell F64)) 0.
Proof.
  split; [exact affine_new01|]. destruct (F_ofZ_correct 0) as [E F]; [lia|]. repeat split; auto; lia.
Qed.

(** *** GMapping cell in binary64 *)
Lemma dle_half_dec (p : F64) : f01 p -> dle p dhalf = false -> f01 p /\ / 2 < F2R64 p.
Proof.
  intros H E. split; auto. destruct F_half as [Eh Fh]. destruct H as [Fp _].
  destruct (Rle_dec (F2R64 p) (/ 2)) as [L|L]; [|lra].
  rewrite <- Eh in L. apply (F_le_fin p dhalf Fp Fh) in L. congruence.
Qed.
Definition gm_ok (c : gmcell F64) : Prop :=
  (0 <= g_hits c <= g_tries c)%Z /\
  ((g_tries c = 0%Z /\ c_prob (g_cell c) = dofZ (-1)) \/ (0 < g_tries c)%Z /\ f01 (c_prob (g_cell c))).
Definition gm_obs01 (a : aoo F64) : Prop := occ_valid (a_occ a) = false \/ f01 (prob_occ (a_occ a)).

Lemma gm_upd_ok c a : gm_ok c -> gm_obs01 a -> (g_tries c + 1 < 2 ^ 31)%Z ->
  exists c', gm_upd c a = Ok c' /\ gm_ok c' /\ (g_tries c' <= g_tries c + 1)%Z /\
    (occ_valid (a_occ a) = true -> (0 < g_tries c')%Z) /\ (g_tries c <= g_tries c')%Z.
Proof.
  intros [Hh Hc] Ha Ht. unfold gm_upd. destruct (occ_valid (a_occ a)) eqn:Ev.
  2:{ exists c. repeat split; auto; try lia. }
  destruct Ha as [Ha|Ha]; [congruence|].
  unfold int_incr, in_int, int_min, int_max.
  replace (((- 2 ^ 31 <=? g_tries c + 1) && (g_tries c + 1 <=? 2 ^ 31 - 1))%Z) with true
    by (symmetry; apply andb_true_intro; split; apply Z.leb_le; lia).
  cbn [bind]. replace (g_tries c + 1 - 1)%Z with (g_tries c) by lia.
  assert (K : forall v, f01 v -> f01 (ddiv (dadd (dmul (c_prob (g_cell c)) (dofZ (g_tries c))) v) (dofZ (g_tries c + 1)))).
  { intros v Hv. destruct (F_ofZ_correct (g_tries c)) as [E1 F1]; [lia|].
    destruct (F_ofZ_correct (g_tries c + 1)) as [E2 F2]; [lia|].
    destruct (F_ofZ_correct (-1)) as [E3 F3]; [lia|].
    apply (running_mean01 _ _ _ _ (g_tries c)); auto; try lia.
    - destruct Hc as [[_ ->]|[_ [F _]]]; auto.
    - intros Hne. destruct Hc as [[Z _]|[_ [_ H]]]; [lia|exact H].
    - destruct Hc as [[_ ->]|[_ [_ H]]]; [rewrite E3; apply Rabs_le; lra|].
      unfold in01 in H. apply Rabs_le; lra. }
  assert (Z0 : f01 (dofZ 0)).
  { destruct (F_ofZ_correct 0) as [E F]; [lia|]. split; auto. rewrite E. unfold in01; lra. }
  destruct (dle (prob_occ (a_occ a)) dhalf) eqn:Ef.
  - eexists. split; [reflexivity|]. unfold gm_ok. cbn [g_hits g_tries g_cell]. repeat split; try lia.
    right. split; [lia|]. apply K. exact Z0.
  - replace (((- 2 ^ 31 <=? g_hits c + 1) && (g_hits c + 1 <=? 2 ^ 31 - 1))%Z) with true
      by (symmetry; apply andb_true_intro; split; apply Z.leb_le; lia).
    cbn [bind]. eexists. split; [reflexivity|]. unfold gm_ok. cbn [g_hits g_tries g_cell]. repeat split; try lia.
    right. split; [lia|]. apply K. exact Ha.
Qed.

(** a history of updates *)
Fixpoint gm_run {D} {ops : DOps D} (c : gmcell D) (h : list (aoo D)) : outcome (gmcell D) :=
  match h with [] => Ok c | a :: h => bind (gm_upd c a) (fun c => gm_run c h) end.

Lemma gm_run_ok h : forall c, gm_ok c -> Forall gm_obs01 h -> (g_tries c + Z.of_nat (length h) < 2 ^ 31)%Z ->
  exists c', gm_run c h = Ok c' /\ gm_ok c' /\ (g_tries c <= g_tries c')%Z /\
    (Exists (fun a => occ_valid (a_occ a) = true) h -> (0 < g_tries c')%Z).
Proof.
  induction h as [|a h IH]; intros c Hc Hh Hl; cbn [gm_run].
  - exists c. repeat split; auto; try apply Hc; try lia. intros H; inversion H.
  - inversion Hh as [|x y Ha Hh']; subst. cbn [length] in Hl.
    destruct (gm_upd_ok c a Hc Ha) as (c1 & E1 & H1 & T1 & P1 & M1); [lia|].
    rewrite E1. cbn [bind]. destruct (IH c1 H1 Hh') as (c2 & E2 & H2 & T2 & P2); [lia|].
    exists c2. repeat split; auto; try apply H2; try lia.
    intros HE. inversion HE; subst; auto. specialize (P1 H0). lia.
Qed.
Lemma gm_new_ok : gm_ok gm_new.
Proof. split; [cbn; lia|]. left. split; reflexivity. Qed.

(** ** exact arithmetic *)
(** readings of a history: the valid observations *)
Definition reading (a : aoo XR) : option (R * R) :=
  match prob_occ (a_occ a), est_quality (a_occ a), a_quality a with
  | Some o, Some _, Some q => Some (o, q)
  | _, _, _ => None
  end.
Fixpoint readings (h : list (aoo XR)) : list (R * R) :=
  match h with
  | [] => []
  | a :: h => match reading a with Some r => r :: readings h | None => readings h end
  end.
(** quality is a number (the code does not check it) *)
Definition num_quality (a : aoo XR) : Prop := a_quality a <> None.

Lemma Rsum_app l l' : Rsum (l ++ l') = Rsum l + Rsum l'.
Proof. induction l as [|x l IH]; [symmetry; apply Rplus_0_l|]. change (x + Rsum (l ++ l') = x + Rsum l + Rsum l'). rewrite IH. ring. Qed.

Definition adj_all (l : list (R * R)) : list R := map (fun r => quality_adjusted (fst r) (snd r)) l.

Lemma xhalf : (dhalf : XR) = Some (/ 2).
Proof. unfold dhalf. rewrite X_lit by lia. f_equal. lra. Qed.

(** the new mean of k values with sum s and one more value v *)
Lemma mean_step (s v : R) (k : nat) : (k <> 0)%nat ->
  (s / INR k * (INR k + 1 - 1) + v) / (INR k + 1) = (s + v) / INR (S k).
Proof.
  intros Hk. rewrite S_INR. assert (0 < INR k) by (apply lt_0_INR; lia). field. lra.
Qed.

Definition mean_state (l : list R) (c : mcell XR) : Prop :=
  m_n c = Some (INR (length l)) /\ c_prob (m_cell c) = Some (mean_or (/ 2) l).

Lemma mean_upd_state l c a : mean_state l c -> num_quality a ->
  mean_state (match reading a with Some r => l ++ adj_all [r] | None => l end) (mean_upd c a).
Proof.
  intros [Hn Hp] Hq. unfold mean_upd, occ_valid, reading.
  destruct (prob_occ (a_occ a)) as [o|] eqn:Eo; cbn [disnan XOps negb andb]; [|split; auto].
  destruct (est_quality (a_occ a)) as [e|] eqn:Ee; cbn [disnan XOps negb andb]; [|split; auto].
  destruct (a_quality a) as [q|] eqn:Eq; [|contradiction Hq; exact Eq].
  rewrite Hn, Hp, xhalf. unfold mean_state. cbn [m_n m_cell c_prob c_occ prob_occ adj_all map fst snd].
  unfold c_prob. cbn [c_occ prob_occ].
  change (dadd (Some (INR (length l)) : XR) (dofZ 1)) with (Some (INR (length l) + 1)).
  split.
  - rewrite app_length. cbn [length]. rewrite plus_INR. reflexivity.
  - assert (L : INR (length l) + 1 <> 0) by (assert (H := pos_INR (length l)); lra).
    change (dadd (Some (/ 2) : XR) (dmul (dsub (Some o) (Some (/ 2))) (Some q))) with (Some (quality_adjusted o q)).
    change (dadd (dmul (Some (mean_or (/ 2) l) : XR) (dsub (Some (INR (length l) + 1)) (dofZ 1))) (Some (quality_adjusted o q)))
      with (Some (mean_or (/ 2) l * (INR (length l) + 1 - 1) + quality_adjusted o q)).
    rewrite X_div by exact L. f_equal.
    destruct l as [|x l].
    + cbn. unfold Rmean. cbn. field.
    + assert (E : mean_or (/ 2) ((x :: l) ++ [quality_adjusted o q]) = Rmean ((x :: l) ++ [quality_adjusted o q])) by reflexivity.
      rewrite E. unfold mean_or, Rmean. rewrite mean_step by (cbn; lia).
      rewrite Rsum_app, app_length. cbn [Rsum fold_right length]. rewrite Nat.add_1_r, Rplus_0_r. reflexivity.
Qed.

Lemma mean_run_state h : forall l c, mean_state l c -> Forall num_quality h ->
  mean_state (l ++ adj_all (readings h)) (fold_left mean_upd h c).
Proof.
  induction h as [|a h IH]; intros l c Hc Hh; cbn [fold_left readings].
  - rewrite app_nil_r. exact Hc.
  - inversion Hh as [|x y Ha Hh']; subst. assert (S1 := mean_upd_state l c a Hc Ha).
    destruct (reading a) as [r|]; specialize (IH _ _ S1 Hh'); auto.
    rewrite <- app_assoc in IH. exact IH.
Qed.

(** GMapping: (probability, obstacle) of the valid observations *)
Definition gm_reading (a : aoo XR) : option (R * (R * R)) :=
  match prob_occ (a_occ a), est_quality (a_occ a), ptx (a_obst a), pty (a_obst a) with
  | Some o, Some _, Some x, Some y => Some (o, (x, y))
  | _, _, _, _ => None
  end.
Fixpoint gm_readings (h : list (aoo XR)) : list (R * (R * R)) :=
  match h with
  | [] => []
  | a :: h => match gm_reading a with Some r => r :: gm_readings h | None => gm_readings h end
  end.
(** an obstacle point is given with every observation *)
Definition num_obst (a : aoo XR) : Prop := ptx (a_obst a) <> None /\ pty (a_obst a) <> None.
(** hits: the observations above 1/2 *)
Definition is_hit (r : R * (R * R)) : bool := negb (R_le (fst r) (/ 2)).
Definition hits_of (l : list (R * (R * R))) := filter is_hit l.
(** contribution of an observation to the occupancy *)
Definition contribution (r : R * (R * R)) : R := if is_hit r then fst r else 0.

Definition gm_state (l : list (R * (R * R))) (c : gmcell XR) : Prop :=
  g_tries c = Z.of_nat (length l) /\ g_hits c = Z.of_nat (length (hits_of l)) /\
  c_prob (g_cell c) = Some (mean_or (-1) (map contribution l)) /\
  g_obst c = (Some (mean_or 0 (map (fun r => fst (snd r)) (hits_of l))),
              Some (mean_or 0 (map (fun r => snd (snd r)) (hits_of l)))).

Lemma mean_or_snoc d l (v : R) : mean_or d (l ++ [v]) =
  (mean_or d l * IZR (Z.of_nat (length l) + 1 - 1) + v) / IZR (Z.of_nat (length l) + 1).
Proof.
  replace (Z.of_nat (length l) + 1 - 1)%Z with (Z.of_nat (length l)) by lia.
  replace (Z.of_nat (length l) + 1)%Z with (Z.of_nat (S (length l))) by lia. rewrite <- !INR_IZR_INZ.
  destruct l as [|x l].
  - cbn. unfold Rmean. cbn. field.
  - assert (E : mean_or d ((x :: l) ++ [v]) = Rmean ((x :: l) ++ [v])) by reflexivity. rewrite E.
    unfold mean_or, Rmean. assert (M := mean_step (Rsum (x :: l)) v (length (x :: l)) ltac:(cbn; lia)).
    replace (INR (length (x :: l)) + 1 - 1) with (INR (length (x :: l))) in M by ring.
    rewrite <- S_INR in M. rewrite M.
    rewrite Rsum_app, app_length. cbn [Rsum fold_right length]. rewrite Nat.add_1_r, Rplus_0_r. reflexivity.
Qed.

Lemma filter_length_le {A} (f : A -> bool) l : (length (filter f l) <= length l)%nat.
Proof. induction l as [|x l IH]; cbn; auto. destruct (f x); cbn; lia. Qed.

Lemma gm_upd_state l c a : gm_state l c -> num_obst a -> (Z.of_nat (length l) + 1 < 2 ^ 31)%Z ->
  exists c', gm_upd c a = Ok c' /\ gm_state (match gm_reading a with Some r => l ++ [r] | None => l end) c'.
Proof.
  intros (Ht & Hh & Hp & Ho) [Hx Hy] Hl. unfold gm_upd, occ_valid, gm_reading.
  destruct (prob_occ (a_occ a)) as [o|] eqn:Eo; cbn [disnan XOps negb andb];
    [|exists c; split; [reflexivity|repeat split; auto]].
  destruct (est_quality (a_occ a)) as [e|] eqn:Ee; cbn [disnan XOps negb andb];
    [|exists c; split; [reflexivity|repeat split; auto]].
  destruct (ptx (a_obst a)) as [x|] eqn:Ex; [|congruence].
  destruct (pty (a_obst a)) as [y|] eqn:Ey; [|congruence].
  assert (LH : (length (hits_of l) <= length l)%nat) by apply filter_length_le.
  unfold int_incr, in_int, int_min, int_max. rewrite Ht, Hh, Ho, Hp.
  replace (((- 2 ^ 31 <=? Z.of_nat (length l) + 1) && (Z.of_nat (length l) + 1 <=? 2 ^ 31 - 1))%Z) with true
    by (symmetry; apply andb_true_intro; split; apply Z.leb_le; lia).
  replace (((- 2 ^ 31 <=? Z.of_nat (length (hits_of l)) + 1) && (Z.of_nat (length (hits_of l)) + 1 <=? 2 ^ 31 - 1))%Z) with true
    by (symmetry; apply andb_true_intro; split; apply Z.leb_le; lia).
  cbn [bind]. rewrite xhalf. change (dle (Some o : XR) (Some (/ 2))) with (R_le o (/ 2)).
  assert (N : forall (p v : R) (k : nat), ddiv (dadd (dmul (Some p : XR) (dofZ (Z.of_nat k + 1 - 1))) (Some v)) (dofZ (Z.of_nat k + 1))
              = Some ((p * IZR (Z.of_nat k + 1 - 1) + v) / IZR (Z.of_nat k + 1))).
  { intros p v k. apply X_div. apply not_0_IZR. lia. }
  assert (HA : hits_of (l ++ [(o, (x, y))]) = hits_of l ++ (if R_le o (/ 2) then [] else [(o, (x, y))])).
  { unfold hits_of. rewrite filter_app. cbn. unfold is_hit at 2. cbn [fst]. destruct (R_le o (/ 2)); reflexivity. }
  assert (CA : map contribution (l ++ [(o, (x, y))]) = map contribution l ++ [if R_le o (/ 2) then 0 else o]).
  { rewrite map_app. cbn. do 2 f_equal. unfold contribution, is_hit. cbn. destruct (R_le o (/ 2)); reflexivity. }
  destruct (R_le o (/ 2)) eqn:Ef.
  - eexists. split; [reflexivity|]. unfold gm_state. cbn [g_tries g_hits g_cell g_obst].
    rewrite HA, CA, app_nil_r. unfold c_prob. cbn [c_occ prob_occ].
    split; [rewrite app_length; cbn; lia|]. split; [auto|]. split; [|reflexivity].
    change (dofZ 0 : XR) with (Some 0). rewrite N. f_equal. rewrite mean_or_snoc, map_length. reflexivity.
  - eexists. split; [reflexivity|]. unfold gm_state. cbn [g_tries g_hits g_cell g_obst].
    rewrite HA, CA. unfold c_prob. cbn [c_occ prob_occ].
    split; [rewrite app_length; cbn; lia|]. split; [rewrite app_length; cbn; lia|]. split.
    + rewrite N. f_equal. rewrite mean_or_snoc, map_length. reflexivity.
    + unfold ptx, pty. cbn [fst snd]. rewrite !N. rewrite !map_app. cbn [map fst snd].
      rewrite !mean_or_snoc, !map_length. reflexivity.
Qed.

Lemma gm_run_state h : forall l c, gm_state l c -> Forall num_obst h ->
  (Z.of_nat (length l + length h) < 2 ^ 31)%Z ->
  exists c', gm_run c h = Ok c' /\ gm_state (l ++ gm_readings h) c'.
Proof.
  induction h as [|a h IH]; intros l c Hc Hh Hl; cbn [gm_run gm_readings].
  - exists c. rewrite app_nil_r. auto.
  - inversion Hh as [|x y Ha Hh']; subst. cbn [length] in Hl.
    destruct (gm_upd_state l c a Hc Ha) as (c1 & E1 & S1); [lia|]. rewrite E1. cbn [bind].
    destruct (gm_reading a) as [r|].
    + destruct (IH _ _ S1 Hh') as (c2 & E2 & S2); [rewrite app_length; cbn; lia|].
      exists c2. split; auto. rewrite <- app_assoc in S2. exact S2.
    + destruct (IH _ _ S1 Hh') as (c2 & E2 & S2); [lia|]. exists c2. auto.
Qed.
Lemma gm_new_state : gm_state [] gm_new.
Proof. repeat split. Qed.

(** GMapping discrepancy with the exponential of the reals *)
Definition xexp (x : XR) : XR := option_map exp x.
Lemma gm_discrepancy_ok (c : gmcell XR) (a : aoo XR) x y x' y' :
  g_obst c = (Some x, Some y) -> a_obst a = (Some x', Some y') ->
  exists d, gm_discrepancy xexp c a = Some d /\ 0 <= d < 1.
Proof.
  intros Ec Ea. unfold gm_discrepancy, gm_dist_variance. rewrite Ec, Ea, X_lit by lia.
  unfold dist_sq, ptx, pty. cbn [fst snd].
  set (d2 := (x - x') * (x - x') + (y - y') * (y - y')).
  change (dadd (dmul (dsub (Some x : XR) (Some x')) (dsub (Some x) (Some x')))
               (dmul (dsub (Some y) (Some y')) (dsub (Some y) (Some y')))) with (Some d2).
  change (dopp (Some d2 : XR)) with (Some (- d2)). rewrite X_div by lra.
  exists (1 - exp (- d2 / (5 / 100))). split; [reflexivity|].
  assert (P : 0 <= d2).
  { unfold d2. assert (H1 := Rle_0_sqr (x - x')). assert (H2 := Rle_0_sqr (y - y')). unfold Rsqr in *. lra. }
  assert (exp (- d2 / (5 / 100)) <= 1).
  { rewrite <- exp_0. destruct P as [P|P].
    - left. apply exp_increasing. lra.
    - rewrite <- P. right. f_equal. lra. }
  assert (H0 := exp_pos (- d2 / (5 / 100))). lra.
Qed.
Lemma gcell_discrepancy_ok (c : gcell XR) (a : aoo XR) p o :
  c_prob c = Some p -> prob_occ (a_occ a) = Some o -> in01 p -> in01 o ->
  exists d, gcell_discrepancy c a = Some d /\ in01 d.
Proof.
  intros Ep Eo P O. unfold gcell_discrepancy. rewrite Ep, Eo. exists (Rabs (p - o)). split; [reflexivity|].
  unfold in01 in *. split; [apply Rabs_pos|apply Rabs_le; lra].
Qed.
