(** The growth arithmetic of the unbounded plain map, in IEEE double arithmetic (C06). *)
From Coq Require Import Reals ZArith List Lia Lra Bool.
From Flocq Require Import Core Sterbenz IEEE754.BinarySingleNaN IEEE754.Binary IEEE754.Bits.
From Verif.Base Require Import Outcome Num F64Facts.
From Verif.Model Require Import MathUtils Geometry Grid PlainMap.
From Verif.Proofs Require Import GridNumProofs.
Import ListNotations.
Local Open Scope Z_scope.

Lemma u32_id z : 0 <= z < 2 ^ 32 -> u32 z = z.
Proof. intros H. apply Z.mod_small. exact H. Qed.
Lemma wrap32_id z : 0 <= z < 2 ^ 31 -> wrap32 z = z.
Proof.
  intros H. unfold wrap32. assert (2 ^ 31 < 2 ^ 32) by (apply Z.pow_lt_mono_r; lia).
  rewrite Z.mod_small by lia. destruct (Z.ltb_spec z (2 ^ 31)); lia.
Qed.

Definition E12 (dim : Z) : R := rnd (rnd (12 / 10) * IZR dim)%R.

Lemma F_er : F2R64 (expansion_rate : F64) = rnd (12 / 10)%R /\ F_fin (expansion_rate : F64) = true.
Proof.
  apply (F_dlit_correct 12 10); [cbn; lia|cbn; lia|].
  apply (no_ovf_le 2); [apply (fmt_IZR 2); cbn; lia | apply (bpow_lt radix2 1 1024); lia |].
  apply Rabs_le. lra.
Qed.

Lemma rnd12_bounds : exists e, (Rabs e <= bpow radix2 (-53))%R /\ (rnd (12 / 10) = 12 / 10 * (1 + e))%R.
Proof.
  apply rel_err. apply Rle_trans with (bpow radix2 0); [apply bpow_le; lia|].
  rewrite Rabs_right by lra. change (bpow radix2 0) with 1%R. lra.
Qed.

Lemma E12_close dim : 1 <= dim < 2 ^ 31 ->
  (Rabs (E12 dim - 12 / 10 * IZR dim) <= / 1024)%R.
Proof.
  intros H. destruct rnd12_bounds as [e1 [He1 E1]]. unfold E12. rewrite E1.
  assert (Hd : (1 <= IZR dim)%R) by (apply IZR_le; lia).
  assert (Hd2 : (IZR dim <= bpow radix2 31)%R).
  { change (bpow radix2 31) with (IZR (2 ^ 31)). apply IZR_le; lia. }
  assert (Hsm : (bpow radix2 (-53) <= / 1024)%R).
  { apply Rle_trans with (bpow radix2 (-10)); [apply bpow_le; lia | right; reflexivity]. }
  assert (He1' := Rabs_le_inv _ _ He1).
  destruct (rel_err (12 / 10 * (1 + e1) * IZR dim)) as [e2 [He2 E2]].
  { apply Rle_trans with (bpow radix2 0); [apply bpow_le; lia|]. change (bpow radix2 0) with 1%R.
    rewrite Rabs_right; nra. }
  rewrite E2. assert (He2' := Rabs_le_inv _ _ He2).
  replace (12 / 10 * (1 + e1) * IZR dim * (1 + e2) - 12 / 10 * IZR dim)%R
    with (12 / 10 * IZR dim * (e1 + e2 + e1 * e2))%R by ring.
  rewrite Rabs_mult. rewrite (Rabs_right (12 / 10 * IZR dim)) by nra.
  assert (Hee : (Rabs (e1 + e2 + e1 * e2) <= 3 * bpow radix2 (-53))%R).
  { eapply Rle_trans; [apply Rabs_triang|]. eapply Rle_trans.
    - apply Rplus_le_compat_r. apply Rabs_triang.
    - rewrite Rabs_mult.
      assert (Rabs e1 * Rabs e2 <= bpow radix2 (-53) * 1)%R.
      { apply Rmult_le_compat; try apply Rabs_pos; lra. }
      lra. }
  apply Rle_trans with (2 * bpow radix2 31 * (3 * bpow radix2 (-53)))%R.
  - apply Rmult_le_compat; auto; [nra | apply Rabs_pos | nra].
  - replace (2 * bpow radix2 31 * (3 * bpow radix2 (-53)))%R
      with (6 * (bpow radix2 31 * bpow radix2 (-53)))%R by ring.
    rewrite <- bpow_plus.
    apply Rle_trans with (6 * bpow radix2 (-20))%R; [apply Rmult_le_compat_l; [lra|apply bpow_le; lia]|].
    change (bpow radix2 (-20)) with (/ IZR (2 ^ 20))%R. change (2 ^ 20) with 1048576. lra.
Qed.

Lemma F_E12 dim : 1 <= dim < 2 ^ 31 ->
  F2R64 (dmul expansion_rate (dofZ dim) : F64) = E12 dim /\
  F_fin (dmul expansion_rate (dofZ dim) : F64) = true.
Proof.
  intros H. destruct F_er as [Er Fr].
  destruct (F_ofZ_correct dim) as [Ed Fd].
  { assert (2 ^ 31 <= 2 ^ 53) by (apply Z.pow_le_mono_r; lia). lia. }
  unfold E12. rewrite <- Er, <- Ed. apply F_mul_correct; auto.
  rewrite Er, Ed. apply (no_ovf_le (bpow radix2 32)); [apply fmt_bpow; lia | apply bpow_lt; lia |].
  destruct rnd12_bounds as [e1 [He1 E1]]. rewrite E1.
  assert (Hd : (1 <= IZR dim)%R) by (apply IZR_le; lia).
  assert (Hd2 : (IZR dim <= bpow radix2 31)%R).
  { change (bpow radix2 31) with (IZR (2 ^ 31)). apply IZR_le; lia. }
  assert (Hsm : (bpow radix2 (-53) <= / 1024)%R).
  { apply Rle_trans with (bpow radix2 (-10)); [apply bpow_le; lia | right; reflexivity]. }
  assert (He1' := Rabs_le_inv _ _ He1).
  replace 32 with (31 + 1) by lia. rewrite bpow_plus. change (bpow radix2 1) with 2%R.
  rewrite Rabs_right by nra. nra.
Qed.

Lemma fmt_E12 dim : fmt64 (E12 dim).
Proof. apply rnd_fmt. Qed.

Lemma trunc_sub_int (x : R) (z : Z) : (0 <= x)%R -> (IZR z <= x)%R -> Ztrunc (x - IZR z) = Ztrunc x - z.
Proof.
  intros H1 H2. rewrite !Ztrunc_floor by lra.
  apply Zfloor_iff. rewrite minus_IZR. assert (A := Zfloor_lb x). assert (B := Zfloor_ub x). lra.
Qed.

(** what [UPDATE_DIM] does when a dimension has to grow on at most one side *)
Lemma update_dim_F64 (dim prep app : Z) :
  1 <= dim < 2 ^ 31 -> 0 <= prep < 2 ^ 31 -> 0 <= app < 2 ^ 31 -> prep = 0 \/ app = 0 ->
  exists new' prep' app',
    @update_dim F64 FOps dim (prep + dim + app) prep app = Ok (new', prep', app') /\
    new' = prep' + dim + app' /\ prep <= prep' /\ app <= app' /\
    (prep = 0 -> prep' = 0) /\ (app = 0 -> app' = 0) /\
    5 * new' <= Z.max (5 * (prep + dim + app)) (6 * dim).
Proof.
  intros Hd Hp Ha Hpa.
  assert (P31 : 2 ^ 31 = 2147483648) by reflexivity.
  unfold update_dim.
  destruct (Z.ltb_spec dim (prep + dim + app)) as [Hgrow|Hgrow]; cbn [andb].
  2:{ assert (prep = 0) by lia. assert (app = 0) by lia. subst.
      exists (0 + dim + 0), 0, 0. repeat split; lia. }
  destruct (F_E12 dim Hd) as [EE EF].
  set (new := prep + dim + app) in *.
  assert (Hnew : dim < new < 2 ^ 33) by (change (2 ^ 33) with 8589934592; lia).
  destruct (F_ofZ_correct new) as [En Fn].
  { assert (2 ^ 33 <= 2 ^ 53) by (apply Z.pow_le_mono_r; lia). lia. }
  destruct (F_ofZ_correct dim) as [Ed Fd].
  { assert (2 ^ 31 <= 2 ^ 53) by (apply Z.pow_le_mono_r; lia). lia. }
  destruct (F_ofZ_correct prep) as [Ep Fp].
  { assert (2 ^ 31 <= 2 ^ 53) by (apply Z.pow_le_mono_r; lia). lia. }
  destruct (dlt (dofZ new) (dmul expansion_rate (dofZ dim : F64))) eqn:Hlt.
  2:{ exists new, prep, app. unfold new. repeat split; lia. }
  apply F_lt_fin in Hlt; auto. rewrite EE, En in Hlt.
  set (E := E12 dim) in *.
  assert (Hcl := Rabs_le_inv _ _ (E12_close dim Hd)). fold E in Hcl.
  assert (Hd1 : (1 <= IZR dim)%R) by (apply IZR_le; lia).
  assert (HdN : (IZR dim + 1 <= IZR new)%R) by (rewrite <- plus_IZR; apply IZR_le; lia).
  assert (HE2 : (E <= 2 * IZR dim)%R) by lra.
  assert (HE33 : (E <= bpow radix2 32)%R).
  { assert (IZR dim <= IZR (2 ^ 31))%R by (apply IZR_le; lia).
    change (bpow radix2 32) with (2 * IZR (2 ^ 31))%R || (replace (bpow radix2 32) with (2 * IZR (2^31))%R by (cbn; lra)).
    lra. }
  (* trunc of E *)
  assert (HT : dtrunc (dmul expansion_rate (dofZ dim) : F64) = Some (Ztrunc E)).
  { rewrite F_trunc_correct by exact EF. rewrite EE. reflexivity. }
  rewrite HT. set (T := Ztrunc E) in *.
  assert (HTf : T = Zfloor E) by (apply Ztrunc_floor; lra).
  assert (HTl := Zfloor_lb E). assert (HTu := Zfloor_ub E). rewrite <- HTf in HTl, HTu.
  assert (HTn : new <= T).
  { assert (IZR new < IZR T + 1)%R by lra. rewrite <- plus_IZR in H. apply lt_IZR in H. lia. }
  assert (HT5 : 5 * T <= 6 * dim).
  { assert (IZR (5 * T) < IZR (6 * dim + 1))%R by (rewrite plus_IZR, !mult_IZR; lra).
    apply lt_IZR in H. lia. }
  assert (HT32 : 0 <= T < 2 ^ 32) by (change (2 ^ 32) with 4294967296; lia).
  assert (HU : to_uint (Some T) = Ok T).
  { unfold to_uint. destruct (Z.leb_spec 0 T), (Z.ltb_spec T (2 ^ 32)); try lia. reflexivity. }
  (* the difference is exact *)
  assert (Fsub : fmt64 (E - IZR new)).
  { apply sterbenz; try typeclasses eauto.
    - apply fmt_E12.
    - apply fmt_IZR. assert (2 ^ 33 <= 2 ^ 53) by (apply Z.pow_le_mono_r; lia). lia.
    - lra. }
  assert (Bsub : (Rabs (E - IZR new) <= bpow radix2 32)%R).
  { apply Rabs_le. assert (Hb := bpow_gt_0 radix2 32). lra. }
  destruct (F_sub_correct (dmul expansion_rate (dofZ dim)) (dofZ new) EF Fn) as [Es Fs].
  { rewrite EE, En. apply (no_ovf_le (bpow radix2 32)); [apply fmt_bpow; lia | apply bpow_lt; lia | exact Bsub]. }
  rewrite EE, En, (rnd_id _ Fsub) in Es.
  assert (Hu : u32 (new - dim) = new - dim).
  { apply u32_id. change (2 ^ 32) with 4294967296. lia. }
  rewrite Hu.
  destruct Hpa as [-> | ->].
  - (* append *)
    assert (Hz : 0 / (new - dim) = 0) by (apply Z.div_0_l; lia). rewrite Hz.
    destruct (F_ofZ_correct 0 ltac:(cbn; lia)) as [E0 F0].
    destruct (F_mul_correct (dsub (dmul expansion_rate (dofZ dim)) (dofZ new)) (dofZ 0) Fs F0) as [Em Fm].
    { rewrite E0, Rmult_0_r. apply no_ovf_1. lra. }
    rewrite E0, Rmult_0_r, rnd_0 in Em.
    destruct (F_add_correct (dofZ 0) _ F0 Fm) as [Ea Fa].
    { rewrite E0, Em, Rplus_0_r. apply no_ovf_1. lra. }
    rewrite E0, Em, Rplus_0_r, rnd_0 in Ea.
    rewrite (F_trunc_correct _ Fa), Ea. change (Ztrunc 0) with (Ztrunc (IZR 0)). rewrite Ztrunc_IZR.
    change (to_uint (Some 0)) with (Ok 0 : outcome Z). cbn [bind].
    rewrite HU. cbn [bind].
    assert (H1 : u32 (0 + dim) = dim) by (rewrite Z.add_0_l; apply u32_id; change (2 ^ 32) with 4294967296; lia).
    rewrite H1. rewrite u32_id by (change (2 ^ 32) with 4294967296; lia).
    exists T, 0, (T - dim). unfold new in *. repeat split; lia.
  - (* prepend *)
    assert (Hnd : new - dim = prep) by (unfold new; lia). rewrite Hnd.
    assert (Hz : prep / prep = 1) by (apply Z.div_same; lia). rewrite Hz.
    destruct (F_ofZ_correct 1 ltac:(cbn; lia)) as [E1 F1].
    destruct (F_mul_correct (dsub (dmul expansion_rate (dofZ dim)) (dofZ new)) (dofZ 1) Fs F1) as [Em Fm].
    { rewrite E1, Rmult_1_r, Es. apply (no_ovf_le (bpow radix2 32)); [apply fmt_bpow; lia | apply bpow_lt; lia | exact Bsub]. }
    rewrite E1, Rmult_1_r, Es, (rnd_id _ Fsub) in Em.
    assert (HpR : IZR prep = (IZR new - IZR dim)%R) by (rewrite <- minus_IZR; f_equal; lia).
    assert (Fadd : fmt64 (E - IZR dim)).
    { apply sterbenz; try typeclasses eauto.
      - apply fmt_E12.
      - apply fmt_IZR. assert (2 ^ 31 <= 2 ^ 53) by (apply Z.pow_le_mono_r; lia). lia.
      - lra. }
    assert (Hsum : (F2R64 (dofZ prep) + (E - IZR new) = E - IZR dim)%R) by (rewrite Ep, HpR; ring).
    destruct (F_add_correct (dofZ prep) _ Fp Fm) as [Ea Fa].
    { rewrite Em, Hsum. apply (no_ovf_le (bpow radix2 32)); [apply fmt_bpow; lia | apply bpow_lt; lia |].
      apply Rabs_le. assert (Hb := bpow_gt_0 radix2 32). lra. }
    rewrite Em, Hsum, (rnd_id _ Fadd) in Ea.
    rewrite (F_trunc_correct _ Fa), Ea. rewrite trunc_sub_int by lra. fold T.
    assert (HU' : to_uint (Some (T - dim)) = Ok (T - dim)).
    { unfold to_uint. destruct (Z.leb_spec 0 (T - dim)), (Z.ltb_spec (T - dim) (2 ^ 32)); try lia. reflexivity. }
    rewrite HU'. cbn [bind]. rewrite HU. cbn [bind].
    replace (T - dim + dim) with T by lia.
    rewrite (u32_id T) by lia. rewrite Z.sub_diag. change (u32 0) with 0.
    exists T, (T - dim), 0. unfold new in *. repeat split; lia.
Qed.
