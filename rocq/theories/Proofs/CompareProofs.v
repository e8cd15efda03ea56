(** Approximate comparisons (C47). *)
From Coq Require Import Reals ZArith Lia Lra Bool.
From Flocq Require Import Core IEEE754.BinarySingleNaN IEEE754.Binary IEEE754.Bits.
From Verif.Base Require Import Outcome Num F64Facts OrdLaws.
From Verif.Model Require Import MathUtils.
From Verif.Proofs Require Import GridNumProofs.
Local Open Scope R_scope.

(** ** exact reals *)
Definition tol (a b : R) : R := 1 / 10000000 * Rmax 1 (Rmax (Rabs a) (Rabs b)).

Lemma tol_pos a b : 1 / 10000000 <= tol a b.
Proof. unfold tol. assert (H := Rmax_l 1 (Rmax (Rabs a) (Rabs b))). lra. Qed.
Lemma tol_sym a b : tol a b = tol b a.
Proof. unfold tol. now rewrite (Rmax_comm (Rabs a)). Qed.
Lemma R_are_equal a b : are_equal a b = true <-> Rabs (a - b) <= tol a b.
Proof. unfold are_equal, are_equal_eps, eq_eps, dlit. rewrite !R_dmax. cbn. apply R_le_true. Qed.
Lemma eps52 : 0 < 1 / IZR (2 ^ 52) < 1 / 10000000.
Proof.
  split; [apply Rmult_lt_0_compat; [lra|apply Rinv_0_lt_compat, IZR_lt; lia]|].
  unfold Rdiv. apply Rmult_lt_compat_l; [lra|]. apply Rinv_lt_contravar; [|apply IZR_lt; lia].
  apply Rmult_lt_0_compat; [lra|apply IZR_lt; lia].
Qed.
Lemma R_less a b : less a b = true <-> a < b + 1 / IZR (2 ^ 52).
Proof. unfold less, dbl_epsilon, dlit. cbn [dlt dadd ddiv dofZ ROps]. apply R_lt_true. Qed.
Lemma R_less_or_equal a b : less_or_equal a b = true <-> a <= b + tol a b.
Proof.
  unfold less_or_equal. rewrite orb_true_iff, R_are_equal, R_less.
  assert (E := eps52). assert (T := tol_pos a b). split.
  - intros [H|H]; [|lra]. assert (a - b <= Rabs (a - b)) by apply Rle_abs. lra.
  - intros H. destruct (Rlt_or_le a b) as [L|L]; [right; lra|left]. rewrite Rabs_pos_eq; lra.
Qed.
(** the two values are equal or differ by more than the comparison tolerance *)
Definition separated (a b : R) : Prop := a = b \/ tol a b < Rabs (a - b).
Lemma R_less_or_equal_sep a b : separated a b -> less_or_equal a b = R_le a b.
Proof.
  intros S. assert (T := tol_pos a b). destruct (R_le a b) eqn:E.
  - apply R_less_or_equal. apply R_le_true in E. lra.
  - apply R_le_false in E. apply not_true_is_false. rewrite R_less_or_equal. intros C.
    destruct S as [->|S]; [lra|]. rewrite Rabs_pos_eq in S by lra. lra.
Qed.

(** ** binary64 *)
Lemma F_eps_facts : F_fin (eq_eps : F64) = true /\ 0 < F2R64 eq_eps <= 1.
Proof.
  assert (Q : 0 <= IZR 1 / IZR 10000000 <= 1) by lra.
  destruct (F_dlit_correct 1 10000000 ltac:(cbn; lia) ltac:(cbn; lia)) as [E F]; [apply no_ovf_1; lra|].
  split; [exact F|]. unfold eq_eps. rewrite E. split; [|apply rnd_le_fmt; [apply fmt_1|lra]].
  apply Rlt_le_trans with (bpow radix2 (-24)); [apply bpow_gt_0|]. apply rnd_ge; [apply fmt_bpow; lia|].
  change (bpow radix2 (-24)) with (/ 16777216). lra.
Qed.
Lemma F_dmax_fin (a b : F64) : F_fin a = true -> F_fin b = true -> F_fin (dmax a b) = true /\ F2R64 (dmax a b) = Rmax (F2R64 a) (F2R64 b).
Proof.
  intros Fa Fb. unfold dmax. destruct (dlt a b) eqn:E.
  - apply F_lt_fin in E; auto. split; [exact Fb|]. rewrite Rmax_right; lra.
  - apply F_lt_fin_false in E; auto. split; [exact Fa|]. rewrite Rmax_left; lra.
Qed.
Lemma F_1 : F_fin (dofZ 1 : F64) = true /\ F2R64 (dofZ 1) = 1.
Proof. destruct (F_ofZ_correct 1 ltac:(cbn; lia)); auto. Qed.
Definition F_tol (a b : F64) : F64 := dmul eq_eps (dmax (dofZ 1) (dmax (dabs a) (dabs b))).
Lemma F_tol_fin a b : F_fin a = true -> F_fin b = true ->
  F_fin (F_tol a b) = true /\ F2R64 (F_tol a b) = rnd (F2R64 eq_eps * Rmax 1 (Rmax (Rabs (F2R64 a)) (Rabs (F2R64 b)))) /\ 0 <= F2R64 (F_tol a b).
Proof.
  intros Fa Fb. destruct F_1 as [F1 E1]. destruct F_eps_facts as [Fe He].
  destruct (F_dabs_correct a) as [Ea Fa']. destruct (F_dabs_correct b) as [Eb Fb'].
  destruct (F_dmax_fin (dabs a) (dabs b)) as [Fm Em]; [now rewrite Fa'|now rewrite Fb'|].
  destruct (F_dmax_fin (dofZ 1) (dmax (dabs a) (dabs b)) F1 Fm) as [FM EM].
  rewrite E1, Em, Ea, Eb in EM. set (M := Rmax 1 (Rmax (Rabs (F2R64 a)) (Rabs (F2R64 b)))) in *.
  assert (M1 : 1 <= M) by apply Rmax_l.
  assert (FMM : fmt64 M) by (rewrite <- EM; apply F_fmt).
  assert (B : 0 <= F2R64 eq_eps * M <= M).
  { split; [apply Rmult_le_pos; lra|]. rewrite <- (Rmult_1_l M) at 2. apply Rmult_le_compat_r; lra. }
  assert (L : M < fmax_bound) by (rewrite <- (Rabs_pos_eq M), <- EM by lra; apply F_abs_lt).
  destruct (F_mul_correct eq_eps (dmax (dofZ 1) (dmax (dabs a) (dabs b))) Fe FM) as [E F].
  { rewrite EM. apply (no_ovf_le M); auto. rewrite Rabs_pos_eq; lra. }
  unfold F_tol. rewrite EM in E. split; [exact F|]. split; [exact E|]. rewrite E. apply rnd_ge; [apply fmt_0|lra].
Qed.
Lemma F_are_equal_unfold (a b : F64) : are_equal a b = dle (dabs (dsub a b)) (F_tol a b).
Proof. reflexivity. Qed.

(** the difference of finite doubles: the rounded difference, or an infinity *)
Lemma F_sub_fin (a b : F64) : F_fin a = true -> F_fin b = true ->
  (F_fin (dsub a b) = true /\ F2R64 (dsub a b) = rnd (F2R64 a - F2R64 b) /\ Rabs (rnd (F2R64 a - F2R64 b)) < fmax_bound) \/
  ((exists s, (dsub a b : F64) = B754_infinity 53 1024 s) /\ fmax_bound <= Rabs (rnd (F2R64 a - F2R64 b))).
Proof.
  intros Fa Fb. destruct (Rlt_or_le (Rabs (rnd (F2R64 a - F2R64 b))) fmax_bound) as [L|L].
  - left. destruct (F_sub_correct a b Fa Fb L) as [E F]. auto.
  - right. split; [|exact L].
    generalize (Bminus_correct 53 1024 eq_refl eq_refl binop_nan_pl64 mode_NE a b Fa Fb).
    change (round radix2 (SpecFloat.fexp 53 1024) (round_mode mode_NE) (B2R 53 1024 a - B2R 53 1024 b)) with (rnd (F2R64 a - F2R64 b)).
    rewrite Rlt_bool_false by exact L. intros [H1 H2]. apply B2FF_ovf in H1. eexists. exact H1.
Qed.
Lemma F_inf_not_le (y : F64) s : F_fin y = true -> dle (dabs (B754_infinity 53 1024 s : F64)) y = false.
Proof. destruct y as [q|q|q pl Hp|[] mm e He]; cbn; try discriminate; reflexivity. Qed.

Lemma F_are_equal_fin (a b : F64) : F_fin a = true -> F_fin b = true ->
  (are_equal a b = true <-> Rabs (rnd (F2R64 a - F2R64 b)) <= F2R64 (F_tol a b)).
Proof.
  intros Fa Fb. rewrite F_are_equal_unfold. destruct (F_tol_fin a b Fa Fb) as (FT & _ & _).
  destruct (F_sub_fin a b Fa Fb) as [(F & E & _)|((s & E) & L)].
  - destruct (F_dabs_correct (dsub a b)) as [EA FA]. rewrite F_le_fin, EA, E; [tauto|now rewrite FA|exact FT].
  - rewrite E, F_inf_not_le by exact FT. split; [discriminate|]. intros H.
    assert (W := F_abs_lt (F_tol a b)). assert (Q := Rle_abs (F2R64 (F_tol a b))). lra.
Qed.

Lemma F_are_equal_refl (a : F64) : F_fin a = true -> are_equal a a = true.
Proof.
  intros Fa. apply F_are_equal_fin; auto. rewrite Rminus_diag_eq, rnd_0, Rabs_R0 by reflexivity.
  now destruct (F_tol_fin a a Fa Fa) as (_ & _ & H).
Qed.

Lemma F_nan_le_l (x y : F64) : disnan x = true -> dle x y = false.
Proof. destruct x; cbn; try discriminate. reflexivity. Qed.

Lemma F_are_equal_sym (a b : F64) : are_equal a b = are_equal b a.
Proof.
  destruct (F_fin a) eqn:Fa, (F_fin b) eqn:Fb.
  - apply eq_true_iff_eq. rewrite !F_are_equal_fin by auto.
    destruct (F_tol_fin a b Fa Fb) as (_ & E1 & _). destruct (F_tol_fin b a Fb Fa) as (_ & E2 & _).
    rewrite E1, E2, (Rmax_comm (Rabs (F2R64 a))). replace (F2R64 a - F2R64 b) with (- (F2R64 b - F2R64 a)) by ring.
    rewrite rnd_opp, Rabs_Ropp. tauto.
  - destruct b as [s|s|s pl Hp|s mm e He]; try discriminate Fb; destruct a as [s'|s'|s' pl' Hp'|s' mm' e' He']; try discriminate Fa;
      rewrite !F_are_equal_unfold; destruct s, s'; reflexivity.
  - destruct a as [s|s|s pl Hp|s mm e He]; try discriminate Fa; destruct b as [s'|s'|s' pl' Hp'|s' mm' e' He']; try discriminate Fb;
      rewrite !F_are_equal_unfold; destruct s, s'; reflexivity.
  - destruct a as [s|s|s pl Hp|s mm e He]; try discriminate Fa; destruct b as [s'|s'|s' pl' Hp'|s' mm' e' He']; try discriminate Fb;
      rewrite !F_are_equal_unfold; destruct s, s'; reflexivity.
Qed.

Lemma F_eps52 : F_fin (dbl_epsilon : F64) = true /\ F2R64 dbl_epsilon = bpow radix2 (-52).
Proof.
  destruct (F_dlit_correct 1 (2 ^ 52) ltac:(cbn; lia) ltac:(cbn; lia)) as [E F].
  - apply no_ovf_1. assert (H := eps52). lra.
  - split; [exact F|]. unfold dbl_epsilon. rewrite E.
    replace (IZR 1 / IZR (2 ^ 52)) with (bpow radix2 (-52)); [apply rnd_id, fmt_bpow; lia|].
    change (bpow radix2 (-52)) with (/ IZR (2 ^ 52)). unfold Rdiv. now rewrite Rmult_1_l.
Qed.
(** b + epsilon, when finite, is not below b; it never overflows *)
Lemma F_add_eps (b : F64) : F_fin b = true ->
  F_fin (dadd b dbl_epsilon) = true /\ F2R64 (dadd b dbl_epsilon) = rnd (F2R64 b + bpow radix2 (-52)) /\ F2R64 b <= F2R64 (dadd b dbl_epsilon).
Proof.
  intros Fb. destruct F_eps52 as [Fe Ee].
  assert (Pe : 0 < bpow radix2 (-52)) by apply bpow_gt_0.
  assert (N : no_ovf (F2R64 b + F2R64 dbl_epsilon)).
  { rewrite Ee. unfold no_ovf. set (m := bpow radix2 1024 - bpow radix2 (1024 - 53)).
    assert (Lb : Rabs (F2R64 b) <= m) by apply (abs_B2R_le_emax_minus_prec 53 1024 eq_refl).
    assert (Fm : fmt64 m).
    { unfold m. replace (bpow radix2 1024 - bpow radix2 (1024 - 53)) with (F2R (Float radix2 (2 ^ 53 - 1) 971)).
      - apply generic_format_FLT. exists (Float radix2 (2 ^ 53 - 1) 971); [reflexivity|cbn; lia|cbn; lia].
      - unfold F2R. cbn [Fnum Fexp]. rewrite minus_IZR. change (1024 - 53)%Z with 971%Z. change 1024%Z with (53 + 971)%Z.
        rewrite bpow_plus. change (IZR (2 ^ 53)) with (bpow radix2 53). ring. }
    assert (HP : forall r, - m <= r <= m -> Rabs (rnd r) <= m).
    { intros r Hr. apply Rabs_le. apply rnd_between; auto. now apply fmt_opp. }
    assert (ML : m < fmax_bound) by (unfold m, fmax_bound; assert (Q := bpow_gt_0 radix2 (1024 - 53)); lra).
    destruct (Rle_or_lt (F2R64 b + bpow radix2 (-52)) m) as [A|A].
    - apply Rle_lt_trans with m; [|exact ML]. apply HP. apply Rabs_le_inv in Lb. lra.
    - (* m < b + eps, so b is within 2^-52 of the largest double: it is the largest double; b + eps rounds down *)
      assert (Eb : F2R64 b = m).
      { apply Rle_antisym; [apply Rabs_le_inv in Lb; lra|]. apply Rnot_lt_le. intros C.
        assert (F2R64 b <= pred radix2 fexp64 m) by (apply pred_ge_gt; auto using F_fmt; typeclasses eauto).
        assert (pred radix2 fexp64 m <= m - bpow radix2 0).
        { assert (Pm : 0 < m).
          { unfold m. assert (bpow radix2 (1024 - 53) < bpow radix2 1024) by (apply bpow_lt; lia). lra. }
          rewrite pred_eq_pos by lra. unfold pred_pos.
          assert (mag radix2 m = 1024%Z :> Z) as Mg.
          { apply mag_unique. rewrite Rabs_pos_eq by lra. split; [|exact ML]. unfold m.
            change (1024 - 1)%Z with 1023%Z.
            assert (bpow radix2 (1024 - 53) <= bpow radix2 1023) by (apply bpow_le; lia).
            assert (bpow radix2 1024 = 2 * bpow radix2 1023) by (change 1024%Z with (1 + 1023)%Z; rewrite bpow_plus; reflexivity). lra. }
          rewrite Mg. case Req_bool_spec.
          - intros E. exfalso. unfold m in E. change (1024 - 1)%Z with 1023%Z in E.
            assert (bpow radix2 1024 = 2 * bpow radix2 1023) by (change 1024%Z with (1 + 1023)%Z; rewrite bpow_plus; reflexivity).
            assert (bpow radix2 (1024 - 53) < bpow radix2 1023) by (apply bpow_lt; lia). lra.
          - intros _. unfold ulp. rewrite Req_bool_false by lra. unfold cexp. rewrite Mg.
            assert (bpow radix2 0 <= bpow radix2 (fexp64 1024)) by (apply bpow_le; unfold fexp64, FLT_exp; lia). lra. }
        assert (bpow radix2 (-52) < bpow radix2 0) by (apply bpow_lt; lia). lra. }
      rewrite Eb in *.
      assert (RM : rnd (m + bpow radix2 (-52)) <= m).
      { unfold rnd. apply round_N_le_midp; [typeclasses eauto|exact Fm|].
        assert (S : m + bpow radix2 0 <= succ radix2 fexp64 m).
        { assert (Pm : 0 < m).
          { unfold m. assert (bpow radix2 (1024 - 53) < bpow radix2 1024) by (apply bpow_lt; lia). lra. }
          rewrite succ_eq_pos by lra. unfold ulp. rewrite Req_bool_false by lra. unfold cexp.
          assert (mag radix2 m = 1024%Z :> Z) as Mg.
          { apply mag_unique. rewrite Rabs_pos_eq by lra. split; [|exact ML]. unfold m.
            change (1024 - 1)%Z with 1023%Z.
            assert (bpow radix2 (1024 - 53) <= bpow radix2 1023) by (apply bpow_le; lia).
            assert (bpow radix2 1024 = 2 * bpow radix2 1023) by (change 1024%Z with (1 + 1023)%Z; rewrite bpow_plus; reflexivity). lra. }
          rewrite Mg. assert (bpow radix2 0 <= bpow radix2 (fexp64 1024)) by (apply bpow_le; unfold fexp64, FLT_exp; lia). lra. }
        assert (bpow radix2 (-52) < bpow radix2 (-1)) by (apply bpow_lt; lia).
        assert (bpow radix2 0 = 2 * bpow radix2 (-1)) by (cbn; lra). lra. }
      assert (0 <= rnd (m + bpow radix2 (-52))).
      { rewrite <- rnd_0. apply rnd_le. assert (0 <= m) by (rewrite <- Eb; apply Rabs_le_inv in Lb; lra). lra. }
      rewrite Rabs_pos_eq by assumption. lra. }
  destruct (F_add_correct b dbl_epsilon Fb Fe N) as [E F]. rewrite Ee in E.
  split; [exact F|]. split; [exact E|]. rewrite E. apply rnd_ge; [apply F_fmt|lra].
Qed.

(** exactly ordered values are reported ordered, except that an infinity is not [less_or_equal] to itself *)
Lemma F_less_or_equal_of_le (a b : F64) : dle a b = true -> (F_fin a = true \/ F_fin b = true) -> less_or_equal a b = true.
Proof.
  intros H F. unfold less_or_equal. apply orb_true_iff. destruct (F_fin a) eqn:Fa, (F_fin b) eqn:Fb.
  - apply F_le_fin in H; auto. destruct (Req_dec (F2R64 a) (F2R64 b)) as [E|NE].
    + left. apply F_are_equal_fin; auto. rewrite E, Rminus_diag_eq, rnd_0, Rabs_R0 by reflexivity.
      now destruct (F_tol_fin a b Fa Fb) as (_ & _ & P).
    + right. unfold less. destruct (F_add_eps b Fb) as (Fs & _ & L). apply F_lt_fin; auto. lra.
  - right. unfold less. destruct b as [s|[]|s pl Hp|s mm e He]; try discriminate Fb.
    + destruct a as [s'|s'|s' pl' Hp'|[] mm' e' He']; try discriminate Fa; cbn in H; discriminate H.
    + destruct a as [s'|s'|s' pl' Hp'|[] mm' e' He']; try discriminate Fa; reflexivity.
    + destruct a; cbn in H; discriminate H.
  - right. unfold less. destruct (F_add_eps b Fb) as (Fs & _ & _). destruct a as [s|[]|s pl Hp|s mm e He]; try discriminate Fa.
    + set (y := dadd b dbl_epsilon) in *. clearbody y. destruct y as [s'|s'|s' pl' Hp'|[] mm' e' He']; try discriminate Fs; reflexivity.
    + destruct b as [s'|s'|s' pl' Hp'|[] mm' e' He']; try discriminate Fb; cbn in H; discriminate H.
    + destruct b; cbn in H; discriminate H.
  - destruct F; discriminate.
Qed.

(** a reported order is exact up to 2^-22 of the magnitude *)
Lemma F_less_or_equal_tol (a b : F64) : F_fin a = true -> F_fin b = true -> less_or_equal a b = true ->
  F2R64 a <= F2R64 b + bpow radix2 (-22) * Rmax 1 (Rmax (Rabs (F2R64 a)) (Rabs (F2R64 b))).
Proof.
  intros Fa Fb H. set (M := Rmax 1 (Rmax (Rabs (F2R64 a)) (Rabs (F2R64 b)))).
  assert (M1 : 1 <= M) by apply Rmax_l.
  assert (FM : fmt64 M).
  { unfold M, Rmax. destruct (Rle_dec (Rabs (F2R64 a)) (Rabs (F2R64 b))), (Rle_dec 1 _); auto using fmt_abs, F_fmt, fmt_1. }
  assert (P22 : 0 < bpow radix2 (-22)) by apply bpow_gt_0.
  apply Rnot_lt_le. intros C. unfold less_or_equal in H. apply orb_true_iff in H as [H|H].
  - apply F_are_equal_fin in H; auto. destruct (F_tol_fin a b Fa Fb) as (_ & E & _). rewrite E in H. fold M in H.
    assert (FS : forall k, (-1000 <= k <= 0)%Z -> fmt64 (bpow radix2 k * M)).
    { intros k Hk. assert (PG : Prec_gt_0 53) by reflexivity. destruct (FLT_format_generic radix2 (-1074) 53 M FM) as [[mm ee] Em Hm Hee]. cbn [Fnum Fexp] in *.
      assert (L : (-53 < ee)%Z).
      { apply (lt_bpow radix2). apply Rmult_lt_reg_l with (IZR (2 ^ 53)); [apply IZR_lt; lia|].
        change (IZR (2 ^ 53)) with (bpow radix2 53) at 1. rewrite <- bpow_plus. cbn [Z.add Pos.add Z.pos_sub bpow].
        apply Rle_lt_trans with M; [exact M1|]. rewrite Em. unfold F2R. cbn [Fnum Fexp]. apply Rmult_lt_compat_r; [apply bpow_gt_0|].
        apply IZR_lt. change (radix2 ^ 53)%Z with (2 ^ 53)%Z in Hm. lia. }
      apply generic_format_FLT. exists (Float radix2 mm (k + ee)); cbn [Fnum Fexp]; [|exact Hm|lia].
      rewrite Em. unfold F2R. cbn [Fnum Fexp]. rewrite bpow_plus. ring. }
    assert (He : F2R64 eq_eps <= bpow radix2 (-23)).
    { destruct (F_dlit_correct 1 10000000 ltac:(cbn; lia) ltac:(cbn; lia)) as [E1 _]; [apply no_ovf_1; lra|].
      unfold eq_eps. rewrite E1. apply rnd_le_fmt; [apply fmt_bpow; lia|]. change (bpow radix2 (-23)) with (/ 8388608). lra. }
    assert (U : rnd (F2R64 eq_eps * M) <= bpow radix2 (-23) * M).
    { apply rnd_le_fmt; [apply FS; lia|]. apply Rmult_le_compat_r; lra. }
    assert (L : bpow radix2 (-22) * M <= rnd (F2R64 a - F2R64 b)) by (apply rnd_ge; [apply FS; lia|lra]).
    assert (bpow radix2 (-22) = 2 * bpow radix2 (-23)) by (cbn; lra).
    assert (Q := Rle_abs (rnd (F2R64 a - F2R64 b))). nra.
  - unfold less in H. destruct (F_add_eps b Fb) as (Fs & Es & _). apply F_lt_fin in H; auto. rewrite Es in H.
    assert (bpow radix2 (-52) < bpow radix2 (-22)) by (apply bpow_lt; lia).
    assert (bpow radix2 (-22) <= bpow radix2 (-22) * M) by (rewrite <- (Rmult_1_r (bpow radix2 (-22))) at 1; apply Rmult_le_compat_l; lra).
    assert (rnd (F2R64 b + bpow radix2 (-52)) <= F2R64 a) by (apply rnd_le_fmt; [apply F_fmt|lra]). lra.
Qed.
