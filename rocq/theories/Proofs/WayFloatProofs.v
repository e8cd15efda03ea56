(** Ways in binary64: parts of a short way are short, whatever the doubles are. *)
From Coq Require Import Reals ZArith List Lia Lra Bool.
From Flocq Require Import Core IEEE754.BinarySingleNaN IEEE754.Binary IEEE754.Bits.
From Verif.Base Require Import Outcome Num F64Facts.
From Verif.Model Require Import MathUtils Geometry Sensor World.
From Verif.Spec Require Import WaySpec.
From Verif.Proofs Require Import NormFloatProofs TbmFloatProofs.
Import ListNotations.
Local Open Scope R_scope.

(** plus infinity or not a number *)
Definition bad (x : F64) : Prop := x = B754_infinity 53 1024 false \/ disnan x = true.
Definition good (x : F64) : Prop := F_fin x = true /\ 0 <= F2R64 x.

Lemma good_not_bad x : good x -> ~ bad x.
Proof. intros [F _] [->|H]; [discriminate F|]. rewrite (F_fin_nan x F) in H. discriminate. Qed.
Lemma bad_dle x c : bad x -> F_fin c = true -> dle x c = false.
Proof. intros [->|H] F; destruct c as [s|s|s p e|s m e Hb]; try discriminate F; try reflexivity; destruct x; try discriminate H; reflexivity. Qed.
Lemma bad_add_l x y : bad x -> good y \/ bad y -> bad (dadd x y).
Proof.
  intros [->|H] [[F _]|[->|H']].
  - destruct y as [s|s|s p e|s m e Hb]; try discriminate F; left; reflexivity.
  - left. reflexivity.
  - destruct y; try discriminate H'. right. reflexivity.
  - right. destruct x; try discriminate H. destruct y; reflexivity.
  - right. destruct x; try discriminate H. reflexivity.
  - right. destruct x; try discriminate H. destruct y; reflexivity.
Qed.
Lemma bad_add_r x y : good x \/ bad x -> bad y -> bad (dadd x y).
Proof.
  intros [[F _]|[->|H]] [->|H'].
  - destruct x as [s|s|s p e|s m e Hb]; try discriminate F; left; reflexivity.
  - right. destruct y; try discriminate H'. destruct x; try discriminate F; reflexivity.
  - left. reflexivity.
  - right. destruct y; try discriminate H'. reflexivity.
  - right. destruct x; try discriminate H. reflexivity.
  - right. destruct x; try discriminate H. reflexivity.
Qed.
Lemma bad_mul x : bad x -> bad (dmul x x).
Proof. intros [->|H]; [left; reflexivity|right]. destruct x; try discriminate H. reflexivity. Qed.

Lemma sign_neg (x : F64) : F_fin x = true -> Bsign 53 1024 x = true -> F2R64 x <= 0.
Proof.
  destruct x as [s|s|s p e|s m e Hb]; cbn; intros F E; try discriminate F; try lra. subst s. unfold F2R64. cbn.
  left. apply F2R_lt_0. cbn. lia.
Qed.
Lemma good_add x y : good x -> good y -> good (dadd x y) \/ bad (dadd x y).
Proof.
  intros [Fx Hx] [Fy Hy]. generalize (Bplus_correct 53 1024 eq_refl eq_refl binop_nan_pl64 mode_NE x y Fx Fy). intros H. ovf_case H.
  - left. destruct H as [H1 [H2 _]]. split; [exact H2|]. change (F2R64 (dadd x y)) with (B2R 53 1024 (Bplus 53 1024 eq_refl eq_refl binop_nan_pl64 mode_NE x y)). rewrite H1. apply rnd_ge; [apply fmt_0|fold (F2R64 x) (F2R64 y); lra].
  - destruct H as [H1 H2]. right. left. change (dadd x y) with (Bplus 53 1024 eq_refl eq_refl binop_nan_pl64 mode_NE x y).
    destruct (Bsign 53 1024 x) eqn:Sx.
    + exfalso. assert (A := sign_neg x Fx Sx). assert (B := sign_neg y Fy (eq_sym H2)).
      change (B2R 53 1024 x) with (F2R64 x) in E. change (B2R 53 1024 y) with (F2R64 y) in E. replace (F2R64 x + F2R64 y) with 0 in E by lra.
      assert (E' : fmax_bound <= Rabs (rnd 0)) by exact E. rewrite rnd_0, Rabs_R0 in E'. assert (Y := bpow_gt_0 radix2 1024). unfold fmax_bound in E'. lra.
    + destruct (Bplus 53 1024 eq_refl eq_refl binop_nan_pl64 mode_NE x y); cbn in H1; unfold binary_overflow in H1; cbn in H1; try discriminate H1. congruence.
Qed.
Lemma good_sq x : F_fin x = true -> good (dmul x x) \/ bad (dmul x x).
Proof.
  intros Fx. generalize (Bmult_correct 53 1024 eq_refl eq_refl binop_nan_pl64 mode_NE x x). intros H. ovf_case H.
  - left. destruct H as [H1 [H2 _]]. split; [change (F_fin (dmul x x)) with (is_finite 53 1024 (Bmult 53 1024 eq_refl eq_refl binop_nan_pl64 mode_NE x x)); rewrite H2; fold (F_fin x); now rewrite Fx|].
    change (F2R64 (dmul x x)) with (B2R 53 1024 (Bmult 53 1024 eq_refl eq_refl binop_nan_pl64 mode_NE x x)). rewrite H1. apply rnd_ge; [apply fmt_0|]. apply Rle_0_sqr.
  - right. left. change (dmul x x) with (Bmult 53 1024 eq_refl eq_refl binop_nan_pl64 mode_NE x x). rewrite xorb_nilpotent in H.
    destruct (Bmult 53 1024 eq_refl eq_refl binop_nan_pl64 mode_NE x x); cbn in H; unfold binary_overflow in H; cbn in H; try discriminate H. congruence.
Qed.
Lemma abs_kind (x : F64) : good (dabs x) \/ bad (dabs x).
Proof.
  destruct x as [s|s|s p e|s m e Hb]; try (right; left; reflexivity); try (right; right; reflexivity).
  - left. split; [reflexivity|]. cbn. lra.
  - left. destruct (F_dabs_correct (B754_finite 53 1024 s m e Hb)) as [E F]. split; [rewrite F; reflexivity|rewrite E; apply Rabs_pos].
Qed.

(** sums of magnitudes *)
Notation sum_abs xs a := (fold_left (fun t x => dadd t (dabs x)) xs a).
Lemma sum_kind (xs : list F64) : forall a, good a \/ bad a -> good (sum_abs xs a) \/ bad (sum_abs xs a).
Proof.
  induction xs as [|x xs IH]; intros a H; cbn [fold_left]; [exact H|]. apply IH.
  destruct H as [H|H]; [|right; apply bad_add_l; [exact H|apply abs_kind]].
  destruct (abs_kind x) as [K|K]; [now apply good_add|right; apply bad_add_r; auto].
Qed.
Lemma sum_bad (xs : list F64) : forall a, bad a -> bad (sum_abs xs a).
Proof. induction xs as [|x xs IH]; intros a H; cbn [fold_left]; [exact H|]. apply IH, bad_add_l; [exact H|apply abs_kind]. Qed.
Lemma sum_good_start (xs : list F64) a : good a \/ bad a -> good (sum_abs xs a) -> good a.
Proof. intros [H|H] K; [exact H|]. exfalso. apply (good_not_bad _ K). now apply sum_bad. Qed.
Lemma sum_grows (xs : list F64) : forall a, good (sum_abs xs a) -> good a -> F2R64 a <= F2R64 (sum_abs xs a).
Proof.
  induction xs as [|x xs IH]; intros a K H; cbn [fold_left] in *; [lra|].
  assert (G : good (dadd a (dabs x))).
  { apply (sum_good_start xs); [|exact K]. destruct (abs_kind x) as [L|L]; [now apply good_add|right; apply bad_add_r; auto]. }
  eapply Rle_trans; [|apply IH; [exact K|exact G]]. rewrite (F_add_fin _ _ (proj1 G)). apply rnd_ge; [apply F_fmt|].
  destruct (F_dabs_correct x) as [E _]. rewrite E. assert (X := Rabs_pos (F2R64 x)). lra.
Qed.
Lemma sum_mono (xs : list F64) : forall a b, good a -> good b -> F2R64 a <= F2R64 b -> good (sum_abs xs b) ->
  good (sum_abs xs a) /\ F2R64 (sum_abs xs a) <= F2R64 (sum_abs xs b).
Proof.
  induction xs as [|x xs IH]; intros a b Ha Hb L K; cbn [fold_left] in *; [auto|].
  assert (G : good (dadd b (dabs x))).
  { apply (sum_good_start xs); [|exact K]. destruct (abs_kind x) as [M|M]; [now apply good_add|right; apply bad_add_r; auto]. }
  assert (Eb := F_add_fin _ _ (proj1 G)). destruct (F_add_fin_args _ _ (proj1 G)) as [_ Fx].
  destruct (F_dabs_correct x) as [E _]. assert (X := Rabs_pos (F2R64 x)).
  assert (O : no_ovf (F2R64 a + F2R64 (dabs x))).
  { unfold no_ovf. assert (B := F_abs_lt (dadd b (dabs x))). rewrite Eb in B. destruct Ha as [_ Ha].
    rewrite Rabs_pos_eq in B |- * by (apply rnd_ge; [apply fmt_0|lra]). eapply Rle_lt_trans; [|exact B]. apply rnd_le. lra. }
  destruct (F_add_correct a (dabs x) (proj1 Ha) Fx O) as [Ea Fa]. destruct Ha as [Ha1 Ha2].
  apply IH; auto.
  - split; [exact Fa|]. rewrite Ea. apply rnd_ge; [apply fmt_0|lra].
  - rewrite Ea, Eb. apply rnd_le. lra.
Qed.
Lemma good_0 : good (dofZ 0).
Proof. destruct F_zero as [Z0 Z1]. split; [exact Z1|rewrite Z0; lra]. Qed.

(** the parts of a finite sum *)
Lemma sum_parts (xs ys : list F64) : good (sum_abs (xs ++ ys) (dofZ 0)) ->
  (good (sum_abs xs (dofZ 0)) /\ F2R64 (sum_abs xs (dofZ 0)) <= F2R64 (sum_abs (xs ++ ys) (dofZ 0))) /\
  (good (sum_abs ys (dofZ 0)) /\ F2R64 (sum_abs ys (dofZ 0)) <= F2R64 (sum_abs (xs ++ ys) (dofZ 0))).
Proof.
  rewrite fold_left_app. intros K.
  assert (G : good (sum_abs xs (dofZ 0))) by (apply (sum_good_start ys); [apply sum_kind; left; apply good_0|exact K]).
  split; [split; [exact G|now apply sum_grows]|]. apply sum_mono; auto; [apply good_0|]. destruct F_zero as [-> _]. apply G.
Qed.

Lemma way_coords (ds : list (pose F64)) : forall a, let w := fold_left (fun w d => mkPose (dadd (px w) (dabs (px d))) (dadd (py w) (dabs (py d))) (dadd (pth w) (dabs (pth d)))) ds a in
  px w = sum_abs (map (@px F64) ds) (px a) /\ py w = sum_abs (map (@py F64) ds) (py a) /\ pth w = sum_abs (map (@pth F64) ds) (pth a).
Proof. induction ds as [|d ds IH]; intros a; cbn [fold_left map]; [auto|]. apply IH. Qed.

Lemma dle_mono (u v c : F64) : good u -> good v -> F_fin c = true -> F2R64 u <= F2R64 v -> dle v c = true -> dle u c = true.
Proof. intros [Fu _] [Fv _] Fc L H. apply F_le_fin; auto. apply F_le_fin in H; auto. lra. Qed.

(** x x + y y is monotone *)
Lemma norm_good x y : good x \/ bad x -> good y \/ bad y -> good (dadd (dmul x x) (dmul y y)) -> good x /\ good y /\ good (dmul x x) /\ good (dmul y y).
Proof.
  intros Hx Hy K.
  assert (SX : good (dmul x x) \/ bad (dmul x x)) by (destruct Hx as [[F _]|B]; [now apply good_sq|right; now apply bad_mul]).
  assert (SY : good (dmul y y) \/ bad (dmul y y)) by (destruct Hy as [[F _]|B]; [now apply good_sq|right; now apply bad_mul]).
  destruct SX as [SX|SX]; [|exfalso; apply (good_not_bad _ K); now apply bad_add_l]. destruct SY as [SY|SY]; [|exfalso; apply (good_not_bad _ K); apply bad_add_r; auto].
  destruct Hx as [Hx|Hx]; [|exfalso; apply (good_not_bad _ SX); now apply bad_mul]. destruct Hy as [Hy|Hy]; [|exfalso; apply (good_not_bad _ SY); now apply bad_mul]. auto.
Qed.
Lemma sq_mono a b : good a -> good b -> F2R64 a <= F2R64 b -> good (dmul b b) -> good (dmul a a) /\ F2R64 (dmul a a) <= F2R64 (dmul b b).
Proof.
  intros [Fa Ha] [Fb Hb] L [K1 K2]. assert (SQ : F2R64 a * F2R64 a <= F2R64 b * F2R64 b) by nra. assert (P : 0 <= F2R64 a * F2R64 a) by nra.
  assert (Eb : F2R64 (dmul b b) = rnd (F2R64 b * F2R64 b)).
  { generalize (Bmult_correct 53 1024 eq_refl eq_refl binop_nan_pl64 mode_NE b b). intros H. ovf_case H; [exact (proj1 H)|].
    exfalso. change (dmul b b) with (Bmult 53 1024 eq_refl eq_refl binop_nan_pl64 mode_NE b b) in K1.
    destruct (Bmult 53 1024 eq_refl eq_refl binop_nan_pl64 mode_NE b b); cbn in H, K1; unfold binary_overflow in H; cbn in H; try discriminate K1; discriminate H. }
  assert (O : no_ovf (F2R64 a * F2R64 a)).
  { unfold no_ovf. assert (B := F_abs_lt (dmul b b)). rewrite Eb in B. rewrite Rabs_pos_eq in B |- * by (apply rnd_ge; [apply fmt_0|lra]). eapply Rle_lt_trans; [|exact B]. now apply rnd_le. }
  destruct (F_mul_correct a a Fa Fa O) as [Ea F]. split; [split; [exact F|rewrite Ea; apply rnd_ge; [apply fmt_0|exact P]]|]. rewrite Ea, Eb. now apply rnd_le.
Qed.
Lemma add_mono a b c d : good a -> good b -> good c -> good d -> F2R64 a <= F2R64 c -> F2R64 b <= F2R64 d -> good (dadd c d) ->
  good (dadd a b) /\ F2R64 (dadd a b) <= F2R64 (dadd c d).
Proof.
  intros [Fa Ha] [Fb Hb] Hc Hd L1 L2 [K1 K2]. assert (Ec := F_add_fin _ _ K1).
  assert (O : no_ovf (F2R64 a + F2R64 b)).
  { unfold no_ovf. assert (B := F_abs_lt (dadd c d)). rewrite Ec in B. rewrite Rabs_pos_eq in B |- * by (apply rnd_ge; [apply fmt_0|lra]). eapply Rle_lt_trans; [|exact B]. apply rnd_le. lra. }
  destruct (F_add_correct a b Fa Fb O) as [Ea F]. split; [split; [exact F|rewrite Ea; apply rnd_ge; [apply fmt_0|lra]]|]. rewrite Ea, Ec. apply rnd_le. lra.
Qed.

Theorem way_growing (ds1 ds2 : list (pose F64)) : short (ds1 ++ ds2) = true -> short ds1 = true /\ short ds2 = true.
Proof.
  assert (F2 : F_fin (dlit 1 2 : F64) = true) by (vm_cast_no_check (eq_refl true)). assert (F5 : F_fin (dlit 1 5 : F64) = true) by (vm_cast_no_check (eq_refl true)).
  unfold short. intros H. apply andb_true_iff in H as [H1 H2]. revert H1 H2. generalize (dlit 1 2 : F64) (dlit 1 5 : F64) F2 F5. clear F2 F5. intros c2 c5 F2 F5 H1 H2.
  destruct (way_coords (ds1 ++ ds2) (mkPose (dofZ 0) (dofZ 0) (dofZ 0))) as (X & Y & T). fold (way (ds1 ++ ds2)) in X, Y, T.
  destruct (way_coords ds1 (mkPose (dofZ 0) (dofZ 0) (dofZ 0))) as (X1 & Y1 & T1). fold (way ds1) in X1, Y1, T1.
  destruct (way_coords ds2 (mkPose (dofZ 0) (dofZ 0) (dofZ 0))) as (X2 & Y2 & T2). fold (way ds2) in X2, Y2, T2.
  cbn [px py pth] in *. rewrite map_app in X, Y, T.
  assert (KX := sum_kind (map (@px F64) ds1 ++ map (@px F64) ds2) (dofZ 0) (or_introl good_0)). assert (KY := sum_kind (map (@py F64) ds1 ++ map (@py F64) ds2) (dofZ 0) (or_introl good_0)).
  assert (KT := sum_kind (map (@pth F64) ds1 ++ map (@pth F64) ds2) (dofZ 0) (or_introl good_0)).
  assert (GT : good (pth (way (ds1 ++ ds2)))) by (rewrite T in *; destruct KT as [KT|KT]; [exact KT|rewrite (bad_dle _ _ KT F5) in H2; discriminate]).
  rewrite <- X in KX. rewrite <- Y in KY.
  assert (GN : good (dadd (dmul (px (way (ds1 ++ ds2))) (px (way (ds1 ++ ds2)))) (dmul (py (way (ds1 ++ ds2))) (py (way (ds1 ++ ds2)))))).
  { set (x := px (way (ds1 ++ ds2))) in *. set (y := py (way (ds1 ++ ds2))) in *.
    assert (SX : good (dmul x x) \/ bad (dmul x x)) by (destruct KX as [[F _]|B]; [now apply good_sq|right; now apply bad_mul]).
    assert (SY : good (dmul y y) \/ bad (dmul y y)) by (destruct KY as [[F _]|B]; [now apply good_sq|right; now apply bad_mul]).
    assert (Q : good (dadd (dmul x x) (dmul y y)) \/ bad (dadd (dmul x x) (dmul y y))).
    { destruct SX as [SX|SX]; [|right; now apply bad_add_l]. destruct SY as [SY|SY]; [now apply good_add|right; apply bad_add_r; auto]. }
    destruct Q as [Q|Q]; [exact Q|]. rewrite (bad_dle _ _ Q F2) in H1. discriminate. }
  destruct (norm_good _ _ KX KY GN) as (GX & GY & GXX & GYY).
  assert (PX := sum_parts (map (@px F64) ds1) (map (@px F64) ds2)). rewrite <- X in PX. destruct (PX GX) as [[A1 A2] [A3 A4]]. rewrite <- X1 in A1, A2. rewrite <- X2 in A3, A4.
  assert (PY := sum_parts (map (@py F64) ds1) (map (@py F64) ds2)). rewrite <- Y in PY. destruct (PY GY) as [[B1 B2] [B3 B4]]. rewrite <- Y1 in B1, B2. rewrite <- Y2 in B3, B4.
  assert (PT := sum_parts (map (@pth F64) ds1) (map (@pth F64) ds2)). rewrite <- T in PT. destruct (PT GT) as [[C1 C2] [C3 C4]]. rewrite <- T1 in C1, C2. rewrite <- T2 in C3, C4.
  assert (FIN : forall w : pose F64, good (px w) -> F2R64 (px w) <= F2R64 (px (way (ds1 ++ ds2))) -> good (py w) -> F2R64 (py w) <= F2R64 (py (way (ds1 ++ ds2))) ->
    good (pth w) -> F2R64 (pth w) <= F2R64 (pth (way (ds1 ++ ds2))) -> (dle (dadd (dmul (px w) (px w)) (dmul (py w) (py w))) c2 && dle (pth w) c5)%bool = true).
  { intros w W1 W2 W3 W4 W5 W6. destruct (sq_mono _ _ W1 GX W2 GXX) as [Q1 Q2]. destruct (sq_mono _ _ W3 GY W4 GYY) as [Q3 Q4].
    destruct (add_mono _ _ _ _ Q1 Q3 GXX GYY Q2 Q4 GN) as [Q5 Q6]. apply andb_true_iff. split; [apply (dle_mono _ _ c2 Q5 GN F2 Q6 H1)|apply (dle_mono _ _ c5 W5 GT F5 W6 H2)]. }
  split; apply FIN; assumption.
Qed.
