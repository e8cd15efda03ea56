(** Equal weights in binary64: normalising keeps them equal and near 1/n, and they never ask for resampling. *)
From Coq Require Import Reals ZArith List Lia Lra Bool.
From Flocq Require Import Core IEEE754.BinarySingleNaN IEEE754.Binary IEEE754.Bits.
From Verif.Base Require Import Outcome Num F64Facts.
From Verif.Model Require Import ParticleFilter.
From Verif.Spec Require Import WorldSpec.
From Verif.Proofs Require Import TbmFloatProofs PoseFloatProofs RenderProofs.
Import ListNotations.
Local Open Scope R_scope.

Notation WRsum := Verif.Spec.WorldSpec.Rsum.
Lemma hh_val : hh = / 9007199254740992.
Proof. change hh with (/ IZR (2 ^ 53)). reflexivity. Qed.
Lemma rnd_err2 x : 0 <= x < 2 -> x - hh <= rnd x <= x + hh.
Proof.
  intros H. assert (E := RenderProofs.rnd_err 1 x ltac:(lia)). assert (A : Rabs x < bpow radix2 1) by (rewrite Rabs_pos_eq by lra; change (bpow radix2 1) with 2; lra).
  specialize (E A). change (1 - 53)%Z with (-52)%Z in E. rewrite b52 in E. apply Rabs_le_inv in E. lra.
Qed.
Lemma total_fold (ws : list F64) : forall acc, total_weight ws acc = fold_left dadd ws acc.
Proof. induction ws as [|w ws IH]; intros acc; cbn [total_weight fold_left]; auto. Qed.
Lemma squares_fold (ws : list F64) : forall acc, sum_squares ws acc = fold_left dadd (map (fun w => dmul w w) ws) acc.
Proof. induction ws as [|w ws IH]; intros acc; cbn [sum_squares fold_left map]; auto. Qed.
Lemma rep_sum (f : F64 -> R) c n : WRsum (map f (repeat c n)) = INR n * f c.
Proof. induction n as [|n IH]; [cbn; lra|]. cbn [repeat map]. unfold Rsum in *. cbn [fold_right]. rewrite IH, S_INR. lra. Qed.
Lemma rep_map {A B} (f : A -> B) c n : map f (repeat c n) = repeat (f c) n.
Proof. induction n as [|n IH]; cbn [repeat map]; congruence. Qed.
Lemma rep_fin (c : F64) n : F_fin c = true -> Forall (fun x => F_fin x = true) (repeat c n).
Proof. intros H. apply Forall_forall. intros x I. apply repeat_spec in I. now subst. Qed.

(** the sum of [n] copies *)
Lemma rep_total (c : F64) n : F_fin c = true -> (0 < n)%nat -> INR n <= 1048576 -> 0 <= F2R64 c -> INR n * F2R64 c <= 2 ->
  let T := fold_left dadd (repeat c n) (dofZ 0 : F64) in
  F_fin T = true /\ Rabs (F2R64 T - INR n * F2R64 c) <= INR n * (2 * hh * (INR n * F2R64 c)).
Proof.
  intros Fc Hn HN H0 H2 T. destruct F_zero as [E0 F0].
  assert (N1 : 1 <= INR n) by (change 1 with (INR 1); apply le_INR; lia).
  destruct (sum_error (INR n * F2R64 c) (repeat c n)) with (s := (dofZ 0 : F64)) (S := 0) (T := 0) (k := 0%nat) as [FT ET].
  - split; [nra|]. eapply Rle_trans; [exact H2|]. change 2 with (bpow radix2 1). apply bpow_le. lia.
  - exact F0.
  - now apply rep_fin.
  - rewrite E0, Rminus_0_r, Rabs_R0. cbn [INR]. lra.
  - rewrite Rabs_R0. lra.
  - rewrite rep_sum, Rabs_pos_eq by exact H0. lra.
  - rewrite repeat_length. cbn [Nat.add]. eapply Rle_trans; [exact HN|]. change 1048576 with (bpow radix2 20). apply bpow_le. lia.
  - split; [exact FT|]. rewrite repeat_length, rep_sum, Rplus_0_l in ET. exact ET.
Qed.

Section Even.
  Variables (n : nat) (c : F64).
  Hypothesis Hn : (0 < n)%nat.
  Hypothesis HN : INR n <= 1048576.
  Hypothesis Fc : F_fin c = true.
  Hypothesis HC : 7 / 8 <= INR n * F2R64 c <= 9 / 8.
  Let N := INR n.
  Let total := total_weight (repeat c n) (dofZ 0 : F64).

  Lemma N1 : 1 <= N.
  Proof using Hn. unfold N. change 1 with (INR 1). apply le_INR. lia. Qed.
  Lemma u_small : N * hh <= / 8000000000.
  Proof using HN. rewrite hh_val. unfold N. lra. Qed.
  Lemma u2_small : N * N * hh <= / 8000.
  Proof using HN Hn. rewrite hh_val. assert (A := N1). unfold N in *. nra. Qed.

  Lemma even_total : F_fin total = true /\ Rabs (F2R64 total - N * F2R64 c) <= / 3000000000.
  Proof using Hn HN Fc HC.
    assert (A := N1). assert (U := u_small). assert (C0 : 0 <= F2R64 c) by (unfold N in *; nra).
    destruct (rep_total c n Fc Hn HN C0 ltac:(lra)) as [FT ET]. unfold total. rewrite total_fold. split; [exact FT|].
    eapply Rle_trans; [exact ET|]. fold N. fold N in HC. replace (N * (2 * hh * (N * F2R64 c))) with (2 * (N * hh) * (N * F2R64 c)) by ring.
    assert (P := hh_pos). assert (0 <= N * hh) by nra. nra.
  Qed.
  Let c' := ddiv c total.
  Lemma even_next : F_fin c' = true /\ Rabs (N * F2R64 c' - 1) <= / 1000000000.
  Proof using Hn HN Fc HC.
    assert (A := N1). assert (U := u_small). destruct even_total as [FT ET]. apply Rabs_le_inv in ET. fold N in HC. set (t := F2R64 total) in *. set (x := F2R64 c) in *.
    assert (T0 : 8 / 10 < t) by lra.
    assert (V : Rabs (N * (x / t) - 1) <= / 2000000000).
    { replace (N * (x / t) - 1) with ((N * x - t) * / t) by (field; lra). rewrite Rabs_mult, (Rabs_pos_eq (/ t)) by (left; apply Rinv_0_lt_compat; lra).
      assert (Q : / t <= 10 / 8). { replace (10 / 8) with (/ (8 / 10)) by lra. apply Rinv_le_contravar; lra. }
      assert (Q0 : 0 < / t) by (apply Rinv_0_lt_compat; lra).
      assert (W : Rabs (N * x - t) <= / 3000000000) by (apply Rabs_le; lra). assert (W0 := Rabs_pos (N * x - t)). nra. }
    apply Rabs_le_inv in V. set (v := x / t) in *. assert (V0 : 0 <= v) by nra. assert (V2 : v < 2) by nra.
    destruct (F_div_correct c total Fc) as [E F].
    - fold t. lra.
    - fold x t v. apply ovf_1001. rewrite Rabs_pos_eq by exact V0. eapply Rle_trans; [left; exact V2|]. change 2 with (bpow radix2 1). apply bpow_le. lia.
    - split; [exact F|]. fold c' x t v in E. rewrite E. assert (R := rnd_err2 v ltac:(lra)). apply Rabs_le. assert (P := hh_pos). nra.
  Qed.
  Lemma even_no_resampling : resampling_is_required (repeat c' n) = false.
  Proof using Hn HN Fc HC.
    assert (A := N1). assert (U := u_small). assert (U2 := u2_small). destruct even_next as [Fc' Ec']. apply Rabs_le_inv in Ec'. assert (P := hh_pos).
    set (x := F2R64 c') in *. assert (X0 : 0 <= x) by nra. assert (X2 : x <= 1001 / 1000) by nra.
    assert (XX : 0 <= x * x < 2) by nra.
    destruct (F_mul_correct c' c' Fc' Fc') as [Eq Fq].
    { fold x. apply ovf_1001. rewrite Rabs_pos_eq by apply XX. eapply Rle_trans; [left; apply XX|]. change 2 with (bpow radix2 1). apply bpow_le. lia. }
    fold x in Eq. assert (R := rnd_err2 (x * x) XX). rewrite <- Eq in R. set (q := F2R64 (dmul c' c')) in *.
    assert (Q0 : 0 <= q). { rewrite Eq. rewrite <- rnd_0. apply rnd_le. apply XX. }
    assert (NX : 999 / 1000 <= (N * x) * (N * x) <= 1001 / 1000) by (split; nra).
    assert (NQ : 998 / 1000 <= N * N * q <= 1002 / 1000).
    { assert (H1 : N * N * (x * x - hh) <= N * N * q <= N * N * (x * x + hh)) by (split; apply Rmult_le_compat_l; nra).
      replace (N * N * (x * x - hh)) with ((N * x) * (N * x) - N * N * hh) in H1 by ring. replace (N * N * (x * x + hh)) with ((N * x) * (N * x) + N * N * hh) in H1 by ring. lra. }
    assert (NQ2 : N * q <= 2). { assert (N * q <= N * (N * q)) by (assert (0 <= N * q) by nra; nra). lra. }
    destruct (rep_total (dmul c' c') n Fq Hn HN Q0 NQ2) as [FS ES]. fold N q in ES.
    assert (EM : map (fun w : F64 => dmul w w) (repeat c' n) = repeat (dmul c' c') n) by exact (rep_map (fun w : F64 => dmul w w) _ n).
    unfold resampling_is_required. rewrite squares_fold, EM, repeat_length. set (s := fold_left dadd (repeat (dmul c' c') n) (dofZ 0 : F64)) in *.
    set (y := F2R64 s) in *.
    assert (NY : 997 / 1000 <= N * y <= 1003 / 1000).
    { apply Rabs_le_inv in ES. assert (H1 : N * (N * q - N * (2 * hh * (N * q))) <= N * y <= N * (N * q + N * (2 * hh * (N * q)))) by (split; apply Rmult_le_compat_l; lra).
      replace (N * (N * q - N * (2 * hh * (N * q)))) with (N * N * q - 2 * (N * hh) * (N * N * q)) in H1 by ring.
      replace (N * (N * q + N * (2 * hh * (N * q)))) with (N * N * q + 2 * (N * hh) * (N * N * q)) in H1 by ring.
      assert (0 <= N * hh) by nra. nra. }
    assert (Y0 : 0 < y) by nra.
    assert (IY : N * (99 / 100) <= 1 / y <= N * (101 / 100)).
    { split.
      - apply Rmult_le_reg_r with y; [exact Y0|]. replace (1 / y * y) with 1 by (field; lra). nra.
      - apply Rmult_le_reg_r with y; [exact Y0|]. replace (1 / y * y) with 1 by (field; lra). nra. }
    destruct (F_ofZ_correct 1 ltac:(lia)) as [E1 F1]. destruct F_two as [E2 F2].
    assert (BB : bpow radix2 22 = 4194304) by reflexivity.
    assert (HB : bpow radix2 22 <= bpow radix2 1001) by (apply bpow_le; lia).
    fold N in HN.
    destruct (F_div_correct (dofZ 1) s F1) as [ED FD]; [fold y; lra|rewrite E1; fold y; apply ovf_1001; rewrite Rabs_pos_eq by lra; lra|].
    rewrite E1 in ED. fold y in ED. set (d := ddiv (dofZ 1 : F64) s) in *.
    assert (RD := RenderProofs.rnd_err 22 (1 / y) ltac:(lia)). rewrite <- ED in RD. rewrite Rabs_pos_eq in RD by lra. specialize (RD ltac:(rewrite BB; lra)). apply Rabs_le_inv in RD.
    assert (B31 : / 2 * bpow radix2 (22 - 53) <= / 1000). { assert (bpow radix2 (22 - 53) <= bpow radix2 (-10)) by (apply bpow_le; lia). change (bpow radix2 (-10)) with (/ 1024) in H. lra. }
    assert (DV : N / 2 <= F2R64 d <= 2 * N) by lra.
    destruct (F_mul_correct d (dofZ 2) FD F2) as [EP FP].
    { rewrite E2. apply ovf_1001. rewrite Rabs_pos_eq by lra. lra. }
    assert (Zn : (Z.of_nat n <= 1048576)%Z). { apply le_IZR. rewrite <- INR_IZR_INZ. exact HN. }
    destruct (F_ofZ_correct (Z.of_nat n) ltac:(lia)) as [EN FN]. rewrite <- INR_IZR_INZ in EN. fold N in EN.
    apply F_lt_fin_false; [exact FP|exact FN|]. rewrite EN, EP, E2. apply rnd_ge; [|lra].
    unfold N. rewrite INR_IZR_INZ. apply fmt_IZR. lia.
  Qed.
End Even.
(** 1/n *)
Lemma even_start n : (0 < n)%nat -> INR n <= 1048576 ->
  let c := ddiv (dofZ 1 : F64) (dofZ (Z.of_nat n)) in F_fin c = true /\ Rabs (INR n * F2R64 c - 1) <= / 1000000000.
Proof.
  intros Hn HN c. assert (A : 1 <= INR n) by (change 1 with (INR 1); apply le_INR; lia).
  assert (Zn : (Z.of_nat n <= 1048576)%Z). { apply le_IZR. rewrite <- INR_IZR_INZ. exact HN. }
  destruct (F_ofZ_correct (Z.of_nat n) ltac:(lia)) as [EN FN]. rewrite <- INR_IZR_INZ in EN. destruct (F_ofZ_correct 1 ltac:(lia)) as [E1 F1].
  assert (V : 0 <= 1 / INR n <= 1). { split; [apply Rle_mult_inv_pos; lra|]. apply Rmult_le_reg_r with (INR n); [lra|]. replace (1 / INR n * INR n) with 1 by (field; lra). lra. }
  destruct (F_div_correct (dofZ 1) (dofZ (Z.of_nat n)) F1) as [E F]; [rewrite EN; lra|rewrite E1, EN; apply no_ovf_1; lra|].
  split; [exact F|]. unfold c. rewrite E, E1, EN. assert (R := rnd_err2 (1 / INR n) ltac:(lra)). assert (P := hh_pos).
  assert (U : INR n * hh <= / 8000000000) by (rewrite hh_val; lra).
  assert (Q : INR n * (1 / INR n) = 1) by (field; lra). apply Rabs_le. split.
  - assert (INR n * (1 / INR n - hh) <= INR n * rnd (1 / INR n)) by (apply Rmult_le_compat_l; lra). lra.
  - assert (INR n * rnd (1 / INR n) <= INR n * (1 / INR n + hh)) by (apply Rmult_le_compat_l; lra). lra.
Qed.
