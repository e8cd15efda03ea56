(** Rendering a map: lists of pixels, decimal numbers, roundings. *)
From Coq Require Import Ascii String Reals ZArith List Bool Lia Lra Psatz.
From Flocq Require Import Core Relative IEEE754.BinarySingleNaN IEEE754.Binary IEEE754.Bits.
From Verif.Base Require Import Outcome Num F64Facts.
From Verif.Model Require Import MathUtils Geometry Properties Render.
From Verif.Spec Require Import PropertiesSpec RenderSpec.
Import ListNotations.
Local Open Scope Z_scope.

(** *** loops *)
Section Loops.
  Context {A : Type}.
  (** rows of [w] elements each *)
  Definition rows_ok (w : Z) (body : Z -> outcome (list A)) (f : Z -> list A) (lo hi : Z) : Prop :=
    forall i, lo <= i < hi -> body i = Ok (f i) /\ Z.of_nat (length (f i)) = w.

  Lemma for_up_spec (w hi : Z) (body : Z -> outcome (list A)) f : forall fuel lo, rows_ok w body f lo hi ->
    (Z.to_nat (hi - lo) < fuel)%nat -> 0 <= w ->
    exists l, for_up fuel lo hi body = Ok l /\ Z.of_nat (length l) = Z.max 0 (hi - lo) * w /\
      forall r c, 0 <= r < hi - lo -> 0 <= c < w -> at_row_col w l r c = nth_error (f (lo + r)) (Z.to_nat c).
  Proof.
    induction fuel as [|fuel IH]; intros lo Hok Hf Hw; [lia|]. cbn [for_up].
    destruct (Z.ltb_spec lo hi) as [L|L].
    - destruct (Hok lo ltac:(lia)) as [E Ln]. rewrite E. cbn [bind].
      destruct (IH (lo + 1)) as (l & El & Ll & Hl); [intros i Hi; apply Hok; lia|lia|exact Hw|].
      rewrite El. cbn [bind]. exists (f lo ++ l). split; [reflexivity|]. split.
      + rewrite app_length, Nat2Z.inj_add, Ln, Ll. nia.
      + intros r c Hr Hc. unfold at_row_col. destruct (Z.eq_dec r 0) as [->|N].
        * rewrite nth_error_app1 by (apply Nat2Z.inj_lt; rewrite Ln, Z2Nat.id; lia). rewrite Z.add_0_r, Z.mul_0_l, Z.add_0_l; reflexivity.
        * rewrite nth_error_app2 by (apply Nat2Z.inj_le; rewrite Ln, Z2Nat.id; nia).
          specialize (Hl (r - 1) c ltac:(lia) Hc). unfold at_row_col in Hl.
          replace (Z.to_nat (r * w + c) - length (f lo))%nat with (Z.to_nat ((r - 1) * w + c)) by nia.
          rewrite Hl. f_equal; f_equal; lia.
    - exists []. split; [reflexivity|]. split; [cbn; lia|lia].
  Qed.
  Lemma for_down_spec (w lo : Z) (body : Z -> outcome (list A)) f : forall fuel hi, rows_ok w body f lo (hi + 1) ->
    (Z.to_nat (hi - lo + 1) < fuel)%nat -> 0 <= w ->
    exists l, for_down fuel hi lo body = Ok l /\ Z.of_nat (length l) = Z.max 0 (hi - lo + 1) * w /\
      forall r c, 0 <= r < hi - lo + 1 -> 0 <= c < w -> at_row_col w l r c = nth_error (f (hi - r)) (Z.to_nat c).
  Proof.
    induction fuel as [|fuel IH]; intros hi Hok Hf Hw; [lia|]. cbn [for_down].
    destruct (Z.leb_spec lo hi) as [L|L].
    - destruct (Hok hi ltac:(lia)) as [E Ln]. rewrite E. cbn [bind].
      destruct (IH (hi - 1)) as (l & El & Ll & Hl); [intros i Hi; apply Hok; lia|lia|exact Hw|].
      rewrite El. cbn [bind]. exists (f hi ++ l). split; [reflexivity|]. split.
      + rewrite app_length, Nat2Z.inj_add, Ln, Ll. nia.
      + intros r c Hr Hc. unfold at_row_col. destruct (Z.eq_dec r 0) as [->|N].
        * rewrite nth_error_app1 by (apply Nat2Z.inj_lt; rewrite Ln, Z2Nat.id; lia). rewrite Z.sub_0_r, Z.mul_0_l, Z.add_0_l; reflexivity.
        * rewrite nth_error_app2 by (apply Nat2Z.inj_le; rewrite Ln, Z2Nat.id; nia).
          specialize (Hl (r - 1) c ltac:(lia) Hc). unfold at_row_col in Hl.
          replace (Z.to_nat (r * w + c) - length (f hi))%nat with (Z.to_nat ((r - 1) * w + c)) by nia.
          rewrite Hl. f_equal; f_equal; lia.
    - exists []. split; [reflexivity|]. split; [cbn; lia|lia].
  Qed.
End Loops.

(** a row of single elements *)
Lemma row_spec {A} (body : Z -> outcome A) (f : Z -> A) lo hi fuel : (forall i, lo <= i < hi -> body i = Ok (f i)) ->
  (Z.to_nat (hi - lo) < fuel)%nat ->
  exists l, for_up fuel lo hi (fun i => bind (body i) (fun v => Ok [v])) = Ok l /\ Z.of_nat (length l) = Z.max 0 (hi - lo) /\
    forall c, 0 <= c < hi - lo -> nth_error l (Z.to_nat c) = Some (f (lo + c)).
Proof.
  intros H Hf. destruct (for_up_spec 1 hi (fun i => bind (body i) (fun v => Ok [v])) (fun i => [f i]) fuel lo) as (l & E & L & G).
  - intros i Hi. rewrite H by exact Hi. split; reflexivity.
  - exact Hf.
  - lia.
  - exists l. split; [exact E|]. split; [lia|]. intros c Hc. specialize (G c 0 Hc ltac:(lia)). unfold at_row_col in G.
    replace (c * 1 + 0) with c in G by lia. exact G.
Qed.

(** *** decimal numbers *)
Lemma digit_char d : 0 <= d <= 9 -> is_digit (ascii_of_N (Z.to_N (48 + d))) d.
Proof. intros H. split; [exact H|]. rewrite N_ascii_embedding by lia. lia. Qed.
Lemma digits_str_decimal : forall fuel z, 0 <= z -> (Z.to_nat z < fuel)%nat -> decimal (digits_str fuel z) z.
Proof.
  induction fuel as [|fuel IH]; intros z Hz Hf; [lia|]. cbn [digits_str]. destruct (Z.ltb_spec z 10) as [L|L].
  - cbn [app]. rewrite Z.mod_small by lia. apply dec_one, digit_char. lia.
  - assert (M := Z.mod_pos_bound z 10 ltac:(lia)). rewrite (Z.div_mod z 10) at 3 by lia.
    apply dec_more; [|apply digit_char; lia]. apply IH; [apply Z.div_pos; lia|].
    assert (z / 10 < z) by (apply Z.div_lt; lia). assert (0 <= z / 10) by (apply Z.div_pos; lia). lia.
Qed.
Lemma to_string_decimal z : 0 <= z -> decimal (to_string z) z.
Proof. intros H. unfold to_string. destruct (Z.ltb_spec z 0); [lia|]. apply digits_str_decimal; lia. Qed.

(** *** pixel intensities over IEEE-754 doubles *)
Local Open Scope R_scope.
Lemma F_0f : F_fin (dofZ 0 : F64) = true /\ F2R64 (dofZ 0) = 0.
Proof. destruct (F_ofZ_correct 0 ltac:(cbn; lia)) as [E F]. split; [exact F|exact E]. Qed.
Lemma F_1f : F_fin (dofZ 1 : F64) = true /\ F2R64 (dofZ 1) = 1.
Proof. destruct (F_ofZ_correct 1 ltac:(cbn; lia)) as [E F]. split; [exact F|exact E]. Qed.
Lemma F_m1f : F_fin (dofZ (-1) : F64) = true /\ F2R64 (dofZ (-1)) = -1.
Proof. destruct (F_ofZ_correct (-1) ltac:(cbn; lia)) as [E F]. split; [exact F|exact E]. Qed.

(** the clamped occupancy, for any double at all *)
Lemma bound_fin (o : F64) : F_fin o = true -> F_fin (bound_value (dofZ 0) o (dofZ 1)) = true /\
  F2R64 (bound_value (dofZ 0) o (dofZ 1)) = Rmax 0 (Rmin 1 (F2R64 o)).
Proof.
  intros Fo. destruct F_0f as [F0 E0]. destruct F_1f as [F1 E1]. unfold bound_value, dmin, dmax.
  destruct (dlt o (dofZ 1)) eqn:L1.
  - apply (F_lt_fin o _ Fo F1) in L1. rewrite E1 in L1. destruct (dlt (dofZ 0) o) eqn:L0.
    + apply (F_lt_fin _ o F0 Fo) in L0. rewrite E0 in L0. split; [exact Fo|]. rewrite Rmin_right, Rmax_right; lra.
    + apply (F_lt_fin_false _ o F0 Fo) in L0. rewrite E0 in L0. split; [exact F0|]. rewrite E0, Rmin_right, Rmax_left; lra.
  - apply (F_lt_fin_false o _ Fo F1) in L1. rewrite E1 in L1. assert (X : dlt (dofZ 0 : F64) (dofZ 1) = true) by reflexivity.
    rewrite X. split; [exact F1|]. rewrite E1, Rmin_left, Rmax_right; lra.
Qed.
Lemma bound_any (o : F64) : F_fin (bound_value (dofZ 0) o (dofZ 1)) = true /\ clamped o (F2R64 (bound_value (dofZ 0) o (dofZ 1))).
Proof.
  destruct F_0f as [F0 E0]. destruct F_1f as [F1 E1]. destruct o as [s|[]|s pl H|s m e H].
  - apply bound_fin. reflexivity.
  - split; [exact F0|exact E0].
  - split; [exact F1|exact E1].
  - assert (bound_value (dofZ 0) (B754_nan 53 1024 s pl H : F64) (dofZ 1) = dofZ 1) as -> by reflexivity. split; [exact F1|exact E1].
  - apply bound_fin. reflexivity.
Qed.
Lemma clamped_01 o v : clamped o v -> 0 <= v <= 1.
Proof.
  destruct o as [s|[]|s pl H|s m e H]; cbn [clamped]; intros ->; try lra;
  (split; [apply Rmax_l|apply Rmax_lub; [lra|apply Rmin_l]]).
Qed.
Lemma clamped_le a b v w : dle a b = true -> clamped a v -> clamped b w -> v <= w.
Proof.
  intros L Ca Cb. assert (A := clamped_01 _ _ Ca). assert (B := clamped_01 _ _ Cb).
  destruct (F_fin a) eqn:Fa; destruct (F_fin b) eqn:Fb.
  - apply (F_le_fin a b Fa Fb) in L. assert (v = Rmax 0 (Rmin 1 (F2R64 a))) by (destruct a; try discriminate Fa; exact Ca).
    assert (w = Rmax 0 (Rmin 1 (F2R64 b))) by (destruct b; try discriminate Fb; exact Cb). subst v w.
    apply Rle_max_compat_l. apply Rle_min_compat_l. exact L.
  - destruct b as [s|[]|s pl H|s m e H]; try discriminate Fb; cbn [clamped] in Cb; try lra.
    exfalso. destruct a as [sa|sa|sa pla Ha|sa ma ea Ha]; try discriminate Fa; try destruct sa; discriminate L.
  - destruct a as [s|[]|s pl H|s m e H]; try discriminate Fa; cbn [clamped] in Ca; try lra.
    + exfalso. destruct b as [sa|sa|sa pla Ha|sa ma ea Ha]; try discriminate Fb; try destruct sa; discriminate L.
    + exfalso. destruct b; discriminate L.
  - destruct a as [s|[]|s pl H|s m e H]; try discriminate Fa; cbn [clamped] in Ca; try lra.
    + destruct b as [sb|[]|sb plb Hb|sb mb eb Hb]; try discriminate Fb; try discriminate L; cbn [clamped] in Cb; lra.
    + exfalso. destruct b; discriminate L.
Qed.

(** the intensity of a value in [0, 1] *)
Definition shade (v : R) : Z := Ztrunc (rnd (255 * rnd (1 - v))).
Lemma shade_val (x : F64) : F_fin x = true -> 0 <= F2R64 x <= 1 ->
  exists y : F64, y = dmul (dofZ 255) (dsub (dofZ 1) x) /\ F_fin y = true /\ F2R64 y = rnd (255 * rnd (1 - F2R64 x)) /\ 0 <= F2R64 y <= 255.
Proof.
  intros Fx Bx. destruct F_1f as [F1 E1]. destruct (F_ofZ_correct 255 ltac:(cbn; lia)) as [E255 F255].
  assert (N1 : no_ovf (F2R64 (dofZ 1) - F2R64 x)) by (rewrite E1; apply no_ovf_1; lra).
  destruct (F_sub_correct (dofZ 1) x F1 Fx N1) as [Es Fs]. rewrite E1 in Es.
  assert (B1 : 0 <= rnd (1 - F2R64 x) <= 1) by (apply rnd_between; [apply fmt_0|apply fmt_1|lra]).
  assert (P : 0 <= 255 * rnd (1 - F2R64 x) <= 255) by lra.
  assert (f255 : fmt64 255) by (apply (fmt_IZR 255); cbn; lia).
  assert (N2 : no_ovf (F2R64 (dofZ 255) * F2R64 (dsub (dofZ 1) x))).
  { apply (no_ovf_le 255 _ f255).
    - apply Rle_lt_trans with (bpow radix2 1023); [|apply bpow1023_lt]. apply Rle_trans with (bpow radix2 8); [cbn; lra|apply bpow_le; lia].
    - rewrite E255, Es, Rabs_pos_eq; lra. }
  destruct (F_mul_correct (dofZ 255) (dsub (dofZ 1) x) F255 Fs N2) as [Em Fm]. rewrite E255, Es in Em.
  eexists. split; [reflexivity|]. split; [exact Fm|]. split; [exact Em|]. rewrite Em. apply rnd_between; [apply fmt_0|exact f255|exact P].
Qed.
Lemma shade_bounds v : 0 <= v <= 1 -> (0 <= shade v <= 255)%Z.
Proof.
  intros H. unfold shade. assert (B1 : 0 <= rnd (1 - v) <= 1) by (apply rnd_between; [apply fmt_0|apply fmt_1|lra]).
  assert (B2 : 0 <= rnd (255 * rnd (1 - v)) <= 255) by (apply rnd_between; [apply fmt_0|apply (fmt_IZR 255); cbn; lia|lra]).
  assert (A := Ztrunc_le 0 _ (proj1 B2)). assert (B := Ztrunc_le _ 255 (proj2 B2)). rewrite Ztrunc_IZR in A, B. lia.
Qed.
Lemma shade_antitone v w : v <= w -> (shade w <= shade v)%Z.
Proof. intros H. apply Ztrunc_le, rnd_le. assert (rnd (1 - w) <= rnd (1 - v)) by (apply rnd_le; lra). lra. Qed.
Lemma shade_half : shade (/ 2) = 127%Z.
Proof.
  unfold shade. replace (1 - / 2) with (/ 2) by lra. rewrite (rnd_id (/ 2)) by apply fmt_half.
  assert (rnd (255 * / 2) = 255 / 2) as ->.
  { replace (255 * / 2) with (255 / 2) by reflexivity. apply rnd_id. apply generic_format_FLT. exists (Float radix2 255 (-1)); cbn; [unfold F2R; cbn; lra|lia|lia]. }
  rewrite Ztrunc_floor by lra. apply Zfloor_imp. cbn. lra.
Qed.
Lemma rnd_err e x : (-1074 + 53 <= e)%Z -> Rabs x < bpow radix2 e -> Rabs (rnd x - x) <= / 2 * bpow radix2 (e - 53).
Proof.
  intros He Hx. eapply Rle_trans; [apply error_le_half_ulp; typeclasses eauto|]. apply Rmult_le_compat_l; [lra|].
  destruct (Req_dec x 0) as [->|N].
  - change fexp64 with (FLT_exp (-1074) 53); rewrite (@ulp_FLT_0 radix2 (-1074) 53 F_prec_gt_0). apply bpow_le. lia.
  - rewrite ulp_neq_0 by exact N. apply bpow_le. unfold cexp, fexp64, FLT_exp. assert (mag radix2 x <= e)%Z by (apply mag_le_bpow; assumption). lia.
Qed.
(** within one grey level (and a rounding error) of the exact intensity *)
Lemma shade_close v : 0 <= v <= 1 -> 255 * (1 - v) - 1 - bpow radix2 (-44) < IZR (shade v) <= 255 * (1 - v) + bpow radix2 (-44).
Proof.
  intros H. unfold shade. assert (B1 : 0 <= rnd (1 - v) <= 1) by (apply rnd_between; [apply fmt_0|apply fmt_1|lra]).
  assert (B2 : 0 <= rnd (255 * rnd (1 - v)) <= 255) by (apply rnd_between; [apply fmt_0|apply (fmt_IZR 255); cbn; lia|lra]).
  assert (A1 := rnd_err 1 (1 - v) ltac:(lia) ltac:(cbn; rewrite Rabs_pos_eq; lra)).
  assert (A2 := rnd_err 8 (255 * rnd (1 - v)) ltac:(lia) ltac:(cbn; rewrite Rabs_pos_eq; lra)).
  change (1 - 53)%Z with (-52)%Z in A1. change (8 - 53)%Z with (-45)%Z in A2.
  replace (bpow radix2 (-44)) with (2 * bpow radix2 (-45)) by (rewrite (bpow_plus_1 radix2 (-45)) || idtac; cbn; lra).
  replace (bpow radix2 (-52)) with (bpow radix2 (-45) / 128) in A1 by (cbn; lra).
  set (u := bpow radix2 (-45)) in *. apply Rabs_le_inv in A1. apply Rabs_le_inv in A2.
  rewrite Ztrunc_floor by lra. assert (L := Zfloor_lb (rnd (255 * rnd (1 - v)))). assert (U := Zfloor_ub (rnd (255 * rnd (1 - v)))).
  assert (0 < u) by apply bpow_gt_0. lra.
Qed.

Lemma intensity_known (o : F64) : deq o (dofZ (-1)) = false -> exists v, clamped o v /\ pgm_intensity o = Ok (shade v).
Proof.
  intros N. destruct (bound_any o) as [Fb Cb]. exists (F2R64 (bound_value (dofZ 0) o (dofZ 1))). split; [exact Cb|].
  assert (B := clamped_01 _ _ Cb). destruct (shade_val _ Fb B) as (y & Ey & Fy & Vy & By).
  unfold pgm_intensity, pgm_value. rewrite N, <- Ey, (F_trunc_correct y Fy), Vy. fold (shade (F2R64 (bound_value (dofZ 0) o (dofZ 1)))).
  assert (S := shade_bounds _ B). destruct (Z.leb_spec 0 (shade (F2R64 (bound_value (dofZ 0) o (dofZ 1))))); [|lia].
  destruct (Z.ltb_spec (shade (F2R64 (bound_value (dofZ 0) o (dofZ 1)))) 256); [reflexivity|lia].
Qed.
Lemma intensity_unknown (o : F64) : deq o (dofZ (-1)) = true -> pgm_intensity o = Ok 127%Z.
Proof. intros E. unfold pgm_intensity, pgm_value. rewrite E. reflexivity. Qed.

(** *** occupancy grid entries *)
Lemma entry_val (o : F64) : F_fin o = true -> 0 <= F2R64 o <= 1 ->
  grid_entry o = Ok (Ztrunc (rnd (F2R64 o * 100))) /\ (0 <= Ztrunc (rnd (F2R64 o * 100)) <= 100)%Z.
Proof.
  intros Fo Bo. destruct (F_ofZ_correct 100 ltac:(cbn; lia)) as [E1 F1]. destruct F_m1f as [Fm Em].
  assert (f100 : fmt64 100) by (apply (fmt_IZR 100); cbn; lia).
  assert (N2 : no_ovf (F2R64 o * F2R64 (dofZ 100))).
  { apply (no_ovf_le 100 _ f100).
    - apply Rle_lt_trans with (bpow radix2 1023); [|apply bpow1023_lt]. apply Rle_trans with (bpow radix2 8); [change (bpow radix2 8) with 256; lra|apply bpow_le; lia].
    - rewrite E1, Rabs_pos_eq; lra. }
  destruct (F_mul_correct o (dofZ 100) Fo F1 N2) as [Ep Fp]. rewrite E1 in Ep.
  assert (B : 0 <= rnd (F2R64 o * 100) <= 100) by (apply rnd_between; [apply fmt_0|exact f100|lra]).
  assert (A := Ztrunc_le 0 _ (proj1 B)). assert (A2 := Ztrunc_le _ 100 (proj2 B)). rewrite Ztrunc_IZR in A, A2. split; [|lia].
  unfold grid_entry. destruct (deq o (dofZ (-1))) eqn:Eq.
  - exfalso. apply (F_eq_fin o _ Fo Fm) in Eq. rewrite Em in Eq. lra.
  - unfold trunc_int. rewrite (F_trunc_correct _ Fp), Ep. cbn [to_int]. set (z := Ztrunc (rnd (F2R64 o * 100))) in *.
    assert (in_int z = true) as -> by (unfold in_int, int_min, int_max; apply andb_true_iff; split; apply Z.leb_le; lia).
    cbn [bind]. unfold int8. rewrite Z.mod_small by lia. destruct (Z.ltb_spec z (2 ^ 7)); [reflexivity|lia].
Qed.
Lemma entry_close v : 0 <= v <= 1 -> 100 * v - 1 - bpow radix2 (-47) < IZR (Ztrunc (rnd (v * 100))) <= 100 * v + bpow radix2 (-47).
Proof.
  intros H. assert (B : 0 <= rnd (v * 100) <= 100) by (apply rnd_between; [apply fmt_0|apply (fmt_IZR 100); cbn; lia|lra]).
  assert (A := rnd_err 7 (v * 100) ltac:(lia) ltac:(change (bpow radix2 7) with 128; rewrite Rabs_pos_eq; lra)). change (7 - 53)%Z with (-46)%Z in A.
  replace (bpow radix2 (-47)) with (/ 2 * bpow radix2 (-46)) by (cbn; lra).
  set (u := bpow radix2 (-46)) in *. apply Rabs_le_inv in A.
  rewrite Ztrunc_floor by lra. assert (L := Zfloor_lb (rnd (v * 100))). assert (U := Zfloor_ub (rnd (v * 100))). lra.
Qed.
Lemma entry_unknown (o : F64) : deq o (dofZ (-1)) = true -> grid_entry o = Ok (-1)%Z.
Proof. intros E. unfold grid_entry. rewrite E. reflexivity. Qed.

(** *** the float32 meta data *)
Definition rnd32 (x : R) : R := round radix2 (FLT_exp (-149) 24) ZnearestE x.
#[local] Instance fexp32_valid : Valid_exp (FLT_exp (-149) 24). Proof. apply FLT_exp_valid. reflexivity. Qed.
Lemma rnd32_err x : exists e d, Rabs e <= bpow radix2 (-24) /\ Rabs d <= bpow radix2 (-150) /\ rnd32 x = x * (1 + e) + d.
Proof.
  destruct (error_N_FLT radix2 (-149) 24 eq_refl (fun z => negb (Z.even z)) x) as (e & d & He & Hd & _ & E).
  exists e, d. split; [|split; [|exact E]].
  - eapply Rle_trans; [exact He|]. right. rewrite bpow_plus. change (bpow radix2 1) with 2. change (- (24))%Z with (-24)%Z. field.
  - eapply Rle_trans; [exact Hd|]. right. change (-149)%Z with (-150 + 1)%Z. rewrite bpow_plus. change (bpow radix2 1) with 2. field.
Qed.
(** no overflow below 2^127 *)
Lemma rnd32_small x : Rabs x <= bpow radix2 127 -> Rabs (rnd32 x) < bpow radix2 128.
Proof.
  intros H. apply Rle_lt_trans with (bpow radix2 127); [|apply bpow_lt; lia]. unfold rnd32. apply abs_round_le_generic; [typeclasses eauto|typeclasses eauto| |exact H].
  apply generic_format_FLT_bpow; [reflexivity|lia].
Qed.
Lemma normalize32 m e s : Rabs (F2R (Float radix2 m e)) <= bpow radix2 127 ->
  F2R32 (binary_normalize 24 128 eq_refl eq_refl mode_NE m e s) = rnd32 (F2R (Float radix2 m e)) /\
  is_finite 24 128 (binary_normalize 24 128 eq_refl eq_refl mode_NE m e s) = true.
Proof.
  intros H. assert (C := binary_normalize_correct 24 128 eq_refl eq_refl mode_NE m e s).
  rewrite Rlt_bool_true in C by (apply (rnd32_small _ H)). destruct C as (C1 & C2 & _). split; [exact C1|exact C2].
Qed.
Lemma f64_to_f32_correct (x : F64) : F_fin x = true -> Rabs (F2R64 x) <= bpow radix2 127 ->
  F2R32 (f64_to_f32 x) = rnd32 (F2R64 x) /\ is_finite 24 128 (f64_to_f32 x) = true.
Proof.
  intros Fx H. destruct x as [s|s|s pl P|s m e P]; try discriminate Fx.
  - split; [|reflexivity]. cbn. unfold rnd32. rewrite round_0; [reflexivity|typeclasses eauto].
  - assert (E : F2R64 (B754_finite 53 1024 s m e P) = F2R (Float radix2 (if s then Zneg m else Zpos m) e)) by (destruct s; reflexivity).
    rewrite E in *. apply normalize32. exact H.
Qed.
Lemma int_to_f32_correct z : (Z.abs z <= 2 ^ 31)%Z -> F2R32 (int_to_f32 z) = rnd32 (IZR z) /\ is_finite 24 128 (int_to_f32 z) = true.
Proof.
  intros H. assert (E : F2R (Float radix2 z 0) = IZR z) by (unfold F2R; cbn; ring).
  destruct (normalize32 z 0 false) as [A B].
  - rewrite E. rewrite <- abs_IZR. apply Rle_trans with (IZR (2 ^ 31)); [apply IZR_le; exact H|]. change (IZR (2 ^ 31)) with (bpow radix2 31). apply bpow_le. lia.
  - rewrite E in A. split; [exact A|exact B].
Qed.
Lemma rnd32_le_bpow x e : (-149 <= e)%Z -> Rabs x <= bpow radix2 e -> Rabs (rnd32 x) <= bpow radix2 e.
Proof. intros He H. unfold rnd32. apply abs_round_le_generic; [typeclasses eauto|typeclasses eauto| |exact H]. apply generic_format_FLT_bpow; [reflexivity|exact He]. Qed.

(** the published position: minus the published resolution times the origin, up to three roundings *)
Lemma position_correct (scale : F64) o : F_fin scale = true -> Rabs (F2R64 scale) <= bpow radix2 64 -> (Z.abs o <= 2 ^ 31)%Z ->
  is_finite 24 128 (info_position scale o) = true /\
  F2R32 (info_position scale o) = rnd32 (- F2R32 (info_resolution scale) * rnd32 (IZR o)) /\
  F2R32 (info_resolution scale) = rnd32 (F2R64 scale) /\ is_finite 24 128 (info_resolution scale) = true.
Proof.
  intros Fs Hs Ho. destruct (f64_to_f32_correct scale Fs) as [Er Fr].
  { eapply Rle_trans; [exact Hs|]. apply bpow_le. lia. }
  fold (info_resolution scale) in Er, Fr. destruct (int_to_f32_correct o Ho) as [Eo Fo].
  assert (Br : Rabs (F2R32 (info_resolution scale)) <= bpow radix2 64) by (rewrite Er; apply rnd32_le_bpow; [lia|exact Hs]).
  assert (Bo : Rabs (F2R32 (int_to_f32 o)) <= bpow radix2 31).
  { rewrite Eo. apply rnd32_le_bpow; [lia|]. rewrite <- abs_IZR. apply (IZR_le _ (2 ^ 31)). exact Ho. }
  assert (Eopp : F2R32 (b32_opp (info_resolution scale)) = - F2R32 (info_resolution scale)) by apply B2R_Bopp.
  assert (Fopp : is_finite 24 128 (b32_opp (info_resolution scale)) = true) by (unfold b32_opp; rewrite is_finite_Bopp; exact Fr).
  assert (C := Bmult_correct 24 128 eq_refl eq_refl binop_nan_pl32 mode_NE (b32_opp (info_resolution scale)) (int_to_f32 o)).
  fold F2R32 in C. change (B2R 24 128 (b32_opp (info_resolution scale))) with (F2R32 (b32_opp (info_resolution scale))) in C.
  change (B2R 24 128 (int_to_f32 o)) with (F2R32 (int_to_f32 o)) in C. rewrite Eopp in C.
  rewrite Rlt_bool_true in C.
  - destruct C as (C1 & C2 & _). rewrite Fopp, Fo in C2. split; [exact C2|]. split; [|split; [exact Er|exact Fr]]. rewrite <- Eo. exact C1.
  - apply rnd32_small. rewrite Rabs_mult, Rabs_Ropp. apply Rle_trans with (bpow radix2 64 * bpow radix2 31).
    + apply Rmult_le_compat; try apply Rabs_pos; assumption.
    + rewrite <- bpow_plus. apply bpow_le. lia.
Qed.
Lemma position_close (scale : F64) o : F_fin scale = true -> Rabs (F2R64 scale) <= bpow radix2 64 -> (Z.abs o <= 2 ^ 31)%Z ->
  Rabs (F2R32 (info_position scale o) + F2R32 (info_resolution scale) * IZR o) <=
    bpow radix2 (-22) * Rabs (F2R32 (info_resolution scale) * IZR o) + bpow radix2 (-80).
Proof.
  intros Fs Hs Ho. destruct (position_correct scale o Fs Hs Ho) as (_ & E & Er & _). set (r := F2R32 (info_resolution scale)) in *.
  assert (Br : Rabs r <= bpow radix2 64) by (rewrite Er; apply rnd32_le_bpow; [lia|exact Hs]).
  destruct (rnd32_err (IZR o)) as (e1 & d1 & He1 & Hd1 & E1). destruct (rnd32_err (- r * rnd32 (IZR o))) as (e2 & d2 & He2 & Hd2 & E2).
  rewrite E, E2, E1.
  replace ((- r * (IZR o * (1 + e1) + d1)) * (1 + e2) + d2 + r * IZR o) with (- (r * IZR o) * (e1 + e2 + e1 * e2) + (- (r * d1) * (1 + e2) + d2)) by ring.
  eapply Rle_trans; [apply Rabs_triang|]. apply Rplus_le_compat.
  - rewrite Rabs_mult, Rabs_Ropp, Rmult_comm. apply Rmult_le_compat_r; [apply Rabs_pos|].
    replace (bpow radix2 (-22)) with (4 * bpow radix2 (-24)) by (cbn; lra). set (u := bpow radix2 (-24)) in *.
    assert (0 < u) by apply bpow_gt_0. assert (u <= 1) by (apply (bpow_le radix2 (-24) 0); lia).
    eapply Rle_trans; [apply Rabs_triang|]. rewrite Rabs_mult. assert (Rabs (e1 + e2) <= Rabs e1 + Rabs e2) by apply Rabs_triang.
    assert (Rabs e1 * Rabs e2 <= u * 1) by (apply Rmult_le_compat; try apply Rabs_pos; lra). lra.
  - eapply Rle_trans; [apply Rabs_triang|]. rewrite Rabs_mult, Rabs_Ropp, Rabs_mult.
    assert (A : Rabs r * Rabs d1 <= bpow radix2 64 * bpow radix2 (-150)) by (apply Rmult_le_compat; try apply Rabs_pos; assumption).
    rewrite <- bpow_plus in A. change (64 + -150)%Z with (-86)%Z in A.
    assert (B : Rabs (1 + e2) <= 2).
    { eapply Rle_trans; [apply Rabs_triang|]. rewrite Rabs_R1. assert (bpow radix2 (-24) <= 1) by (apply (bpow_le radix2 (-24) 0); lia). lra. }
    assert (A2 : Rabs r * Rabs d1 * Rabs (1 + e2) <= bpow radix2 (-86) * 2) by (apply Rmult_le_compat; try apply Rabs_pos; try assumption; apply Rmult_le_pos; apply Rabs_pos).
    assert (bpow radix2 (-150) <= bpow radix2 (-86)) by (apply bpow_le; lia).
    replace (bpow radix2 (-80)) with (64 * bpow radix2 (-86)); [assert (0 < bpow radix2 (-86)) by apply bpow_gt_0; lra|].
    change 64 with (bpow radix2 6). rewrite <- bpow_plus. reflexivity.
Qed.
