(** Facts about the binary64 instance: every operation is the correctly rounded real operation. *)
From Coq Require Import Reals ZArith Lia Lra Bool.
From Flocq Require Import Core IEEE754.BinarySingleNaN IEEE754.Binary IEEE754.Bits.
From Verif.Base Require Import Outcome Num.
Local Open Scope R_scope.

Definition fexp64 := FLT_exp (-1074) 53.
Notation fmt64 := (generic_format radix2 fexp64).
Definition rnd (x : R) : R := round radix2 fexp64 ZnearestE x.

#[global] Instance fexp64_valid : Valid_exp fexp64.
Proof. apply FLT_exp_valid. reflexivity. Qed.
#[global] Instance fexp64_monotone : Monotone_exp fexp64.
Proof. apply FLT_exp_monotone. Qed.

(** the threshold above which rounding overflows *)
Definition fmax_bound : R := bpow radix2 1024.

Lemma rnd_le x y : x <= y -> rnd x <= rnd y.
Proof. apply round_le; typeclasses eauto. Qed.
Lemma rnd_id x : fmt64 x -> rnd x = x.
Proof. apply round_generic; typeclasses eauto. Qed.
Lemma rnd_fmt x : fmt64 (rnd x).
Proof. apply generic_format_round; typeclasses eauto. Qed.
Lemma rnd_0 : rnd 0 = 0.
Proof. apply round_0; typeclasses eauto. Qed.
Lemma rnd_opp x : rnd (- x) = - rnd x.
Proof. unfold rnd; apply round_NE_opp. Qed.
Lemma fmt_0 : fmt64 0.
Proof. apply generic_format_0. Qed.
Lemma fmt_opp x : fmt64 x -> fmt64 (- x).
Proof. apply generic_format_opp. Qed.
Lemma fmt_abs x : fmt64 x -> fmt64 (Rabs x).
Proof. apply generic_format_abs. Qed.

Lemma fmt_IZR (z : Z) : (Z.abs z <= 2 ^ 53)%Z -> fmt64 (IZR z).
Proof.
  intros H.
  destruct (Z.eq_dec (Z.abs z) (2 ^ 53)) as [E|NE].
  - assert (Hp : fmt64 (bpow radix2 53)).
    { apply generic_format_FLT_bpow; [reflexivity | lia]. }
    destruct (Z.abs_eq_or_opp z) as [Hz|Hz]; rewrite Hz in E.
    + rewrite E. change (IZR (2 ^ 53)) with (bpow radix2 53). exact Hp.
    + replace z with (- (2 ^ 53))%Z by lia. rewrite opp_IZR.
      apply fmt_opp. change (IZR (2 ^ 53)) with (bpow radix2 53). exact Hp.
  - apply generic_format_FLT. exists (Float radix2 z 0); simpl.
    + unfold F2R; simpl. ring.
    + change (2 ^ 53)%Z with 9007199254740992%Z in *. lia.
    + lia.
Qed.

Lemma fmt_1 : fmt64 1.
Proof. apply (fmt_IZR 1). lia. Qed.

Lemma fmt_bpow e : (-1074 <= e)%Z -> fmt64 (bpow radix2 e).
Proof. intros H. apply generic_format_FLT_bpow; [reflexivity | exact H]. Qed.

Lemma fmt_half : fmt64 (/ 2).
Proof. apply (fmt_bpow (-1)). lia. Qed.

Lemma rnd_between a b x : fmt64 a -> fmt64 b -> a <= x <= b -> a <= rnd x <= b.
Proof.
  intros Ha Hb [H1 H2]. rewrite <- (rnd_id a Ha), <- (rnd_id b Hb).
  split; apply rnd_le; assumption.
Qed.
Lemma rnd_ge a x : fmt64 a -> a <= x -> a <= rnd x.
Proof. intros Ha H. rewrite <- (rnd_id a Ha). now apply rnd_le. Qed.
Lemma rnd_le_fmt b x : fmt64 b -> x <= b -> rnd x <= b.
Proof. intros Hb H. rewrite <- (rnd_id b Hb). now apply rnd_le. Qed.

Lemma F_fmt (x : F64) : fmt64 (F2R64 x).
Proof. unfold F2R64. apply (generic_format_B2R 53 1024). Qed.

Lemma F_abs_lt (x : F64) : Rabs (F2R64 x) < fmax_bound.
Proof. unfold F2R64, fmax_bound. apply abs_B2R_lt_emax. Qed.

(** ** Correctness of the operations on finite operands when the rounded result does not overflow *)
Definition no_ovf (r : R) : Prop := Rabs (rnd r) < fmax_bound.

Lemma no_ovf_le b r : fmt64 b -> b < fmax_bound -> Rabs r <= b -> no_ovf r.
Proof.
  intros Hb Hlt Hr. unfold no_ovf.
  apply Rle_lt_trans with b; [|assumption].
  assert (H := Rabs_le_inv _ _ Hr).
  apply Rabs_le. apply rnd_between; auto. now apply fmt_opp.
Qed.

Lemma bpow1023_lt : bpow radix2 1023 < fmax_bound.
Proof. apply bpow_lt. lia. Qed.
Lemma one_lt_bound : 1 < fmax_bound.
Proof. apply (bpow_lt radix2 0 1024). lia. Qed.

Lemma no_ovf_1 r : -1 <= r <= 1 -> no_ovf r.
Proof.
  intros H. apply (no_ovf_le 1); [apply fmt_1 | apply one_lt_bound | now apply Rabs_le].
Qed.

Ltac ovf_case H :=
  match type of H with
  | if Rlt_bool ?a ?b then _ else _ =>
      let E := fresh "E" in
      destruct (Rlt_bool_spec a b) as [E|E]
  end.

Lemma F_add_correct x y : F_fin x = true -> F_fin y = true -> no_ovf (F2R64 x + F2R64 y) ->
  F2R64 (dadd x y) = rnd (F2R64 x + F2R64 y) /\ F_fin (dadd x y) = true.
Proof.
  intros Fx Fy Ho. unfold no_ovf in Ho.
  generalize (Bplus_correct 53 1024 eq_refl eq_refl binop_nan_pl64 mode_NE x y Fx Fy).
  intros H. ovf_case H.
  - destruct H as [H1 [H2 _]]. split; assumption.
  - exfalso. apply (Rlt_not_le _ _ Ho). exact E.
Qed.

Lemma F_sub_correct x y : F_fin x = true -> F_fin y = true -> no_ovf (F2R64 x - F2R64 y) ->
  F2R64 (dsub x y) = rnd (F2R64 x - F2R64 y) /\ F_fin (dsub x y) = true.
Proof.
  intros Fx Fy Ho. unfold no_ovf in Ho.
  generalize (Bminus_correct 53 1024 eq_refl eq_refl binop_nan_pl64 mode_NE x y Fx Fy).
  intros H. ovf_case H.
  - destruct H as [H1 [H2 _]]. split; assumption.
  - exfalso. apply (Rlt_not_le _ _ Ho). exact E.
Qed.

Lemma F_mul_correct x y : F_fin x = true -> F_fin y = true -> no_ovf (F2R64 x * F2R64 y) ->
  F2R64 (dmul x y) = rnd (F2R64 x * F2R64 y) /\ F_fin (dmul x y) = true.
Proof.
  intros Fx Fy Ho. unfold no_ovf in Ho.
  generalize (Bmult_correct 53 1024 eq_refl eq_refl binop_nan_pl64 mode_NE x y).
  intros H. ovf_case H.
  - destruct H as [H1 [H2 _]]. split; [exact H1|].
    unfold F_fin in *. rewrite Fx, Fy in H2. exact H2.
  - exfalso. apply (Rlt_not_le _ _ Ho). exact E.
Qed.

Lemma F_div_correct x y : F_fin x = true -> F2R64 y <> 0 -> no_ovf (F2R64 x / F2R64 y) ->
  F2R64 (ddiv x y) = rnd (F2R64 x / F2R64 y) /\ F_fin (ddiv x y) = true.
Proof.
  intros Fx Hy Ho. unfold no_ovf in Ho.
  generalize (Bdiv_correct 53 1024 eq_refl eq_refl binop_nan_pl64 mode_NE x y Hy).
  intros H. ovf_case H.
  - destruct H as [H1 [H2 _]]. split; [exact H1|].
    unfold F_fin in *. rewrite Fx in H2. exact H2.
  - exfalso. apply (Rlt_not_le _ _ Ho). exact E.
Qed.

Lemma F_ofZ_correct (z : Z) : (Z.abs z <= 2 ^ 53)%Z ->
  F2R64 (dofZ z) = IZR z /\ F_fin (dofZ z : F64) = true.
Proof.
  intros Hz.
  generalize (binary_normalize_correct 53 1024 F_prec_gt_0 F_prec_lt_emax mode_NE z 0 false).
  assert (HF : F2R (Float radix2 z 0) = IZR z) by (unfold F2R; simpl; ring).
  rewrite HF. intros H.
  match type of H with context [round ?r ?f ?m (IZR z)] =>
    change (round r f m (IZR z)) with (rnd (IZR z)) in H end.
  rewrite (rnd_id (IZR z) (fmt_IZR z Hz)) in H.
  ovf_case H.
  - destruct H as [H1 [H2 _]]. split; assumption.
  - exfalso. apply (Rlt_not_le _ _) in E; [exact E|].
    apply Rle_lt_trans with (IZR (2 ^ 53)).
    + rewrite <- abs_IZR. now apply IZR_le.
    + change (IZR (2 ^ 53)) with (bpow radix2 53). apply bpow_lt. lia.
Qed.

Lemma F_dabs_correct (x : F64) : F2R64 (dabs x) = Rabs (F2R64 x) /\ (F_fin (dabs x) = F_fin x).
Proof.
  split.
  - apply (B2R_Babs 53 1024 unop_nan_pl64).
  - apply (is_finite_Babs 53 1024 unop_nan_pl64).
Qed.
Lemma F_dopp_correct (x : F64) : F2R64 (dopp x) = - (F2R64 x) /\ (F_fin (dopp x) = F_fin x).
Proof.
  split.
  - apply (B2R_Bopp 53 1024 unop_nan_pl64).
  - apply (is_finite_Bopp 53 1024 unop_nan_pl64).
Qed.

Lemma F_lt_fin x y : F_fin x = true -> F_fin y = true ->
  (dlt x y = true <-> F2R64 x < F2R64 y).
Proof.
  intros Fx Fy. cbn. unfold F_lt, b64_compare.
  rewrite (Bcompare_correct 53 1024 x y Fx Fy). fold (F2R64 x) (F2R64 y).
  destruct (Rcompare_spec (F2R64 x) (F2R64 y)); split; intros; auto; try discriminate; lra.
Qed.
Lemma F_lt_fin_false x y : F_fin x = true -> F_fin y = true ->
  (dlt x y = false <-> F2R64 y <= F2R64 x).
Proof.
  intros Fx Fy. cbn. unfold F_lt, b64_compare.
  rewrite (Bcompare_correct 53 1024 x y Fx Fy). fold (F2R64 x) (F2R64 y).
  destruct (Rcompare_spec (F2R64 x) (F2R64 y)); split; intros; auto; try discriminate; lra.
Qed.
Lemma F_le_fin x y : F_fin x = true -> F_fin y = true ->
  (dle x y = true <-> F2R64 x <= F2R64 y).
Proof.
  intros Fx Fy. cbn. unfold F_le, b64_compare.
  rewrite (Bcompare_correct 53 1024 x y Fx Fy). fold (F2R64 x) (F2R64 y).
  destruct (Rcompare_spec (F2R64 x) (F2R64 y)); split; intros; auto; try discriminate; lra.
Qed.
Lemma F_eq_fin x y : F_fin x = true -> F_fin y = true ->
  (deq x y = true <-> F2R64 x = F2R64 y).
Proof.
  intros Fx Fy. cbn. unfold F_eq, b64_compare.
  rewrite (Bcompare_correct 53 1024 x y Fx Fy). fold (F2R64 x) (F2R64 y).
  destruct (Rcompare_spec (F2R64 x) (F2R64 y)); split; intros; auto; try discriminate; lra.
Qed.

Lemma F_fin_nan x : F_fin x = true -> disnan x = false.
Proof. destruct x; cbn; auto. Qed.

Lemma F_floor_correct x : F_fin x = true -> dfloor x = Some (Zfloor (F2R64 x)).
Proof.
  destruct x as [s|s|s pl Hpl|s m e He]; cbn; intros Fx; try discriminate.
  - f_equal. unfold F2R64; simpl. symmetry. apply (Zfloor_IZR 0).
  - f_equal. unfold F2R64; simpl. unfold F2R; simpl.
    assert (Hs : cond_Zopp s (Z.pos m) = if s then Z.neg m else Z.pos m) by now destruct s.
    rewrite Hs. set (sm := if s then Z.neg m else Z.pos m).
    destruct e as [|p|p].
    + simpl. rewrite Rmult_1_r. symmetry. apply Zfloor_IZR.
    + replace (IZR sm * bpow radix2 (Z.pos p))%R with (IZR (sm * 2 ^ Z.pos p)).
      * symmetry. apply Zfloor_IZR.
      * rewrite mult_IZR. f_equal. 
    + replace (bpow radix2 (Z.neg p)) with (/ IZR (2 ^ Z.pos p)) by reflexivity.
      symmetry. apply (Zfloor_div sm (2 ^ Z.pos p)).
      assert (0 < 2 ^ Z.pos p)%Z by (apply Z.pow_pos_nonneg; lia). lia.
Qed.

Lemma F_trunc_correct x : F_fin x = true -> dtrunc x = Some (Ztrunc (F2R64 x)).
Proof.
  intros Fx.
  assert (H := Binary.Btrunc_correct 53 1024 eq_refl x).
  rewrite round_FIX_IZR in H. apply eq_IZR in H.
  destruct x as [s|s|s pl Hpl|s m e He]; try discriminate Fx.
  - cbn. f_equal. unfold F2R64; simpl. symmetry. apply (Ztrunc_IZR 0).
  - cbn. f_equal. exact H.
Qed.

(** literals *)
Lemma F_dlit_correct (n d : Z) : (Z.abs n <= 2 ^ 53)%Z -> (0 < d <= 2 ^ 53)%Z ->
  no_ovf (IZR n / IZR d) ->
  F2R64 (dlit n d) = rnd (IZR n / IZR d) /\ F_fin (dlit n d : F64) = true.
Proof.
  intros Hn Hd Ho. destruct (F_ofZ_correct n Hn) as [En Fn].
  destruct (F_ofZ_correct d ltac:(lia)) as [Ed Fd].
  assert (Hd0 : IZR d <> 0) by (apply not_0_IZR; lia).
  unfold dlit. rewrite <- En, <- Ed. apply F_div_correct; auto; rewrite ?En, ?Ed; auto.
Qed.
