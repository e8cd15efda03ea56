(** Proofs about the fixed-step hill climbing matcher. *)
From Coq Require Import ZArith List Bool Lia Reals Lra.
From Flocq Require Import Core IEEE754.Binary IEEE754.Bits.
From Verif.Base Require Import Outcome Num F64Facts OrdLaws.
From Verif.Model Require Import MathUtils Geometry PlainMap Sensor Matchers.
Import ListNotations.
Local Open Scope Z_scope.
Local Open Scope outcome_scope.

Section Fixed.
  Context {D : Type} {ops : DOps D}.
  Variable score : pose D -> D.
  Variable deg : D.

  (** the step sizes of the line search: 16 dd, 8 dd, 4 dd, 2 dd, dd *)
  Definition line_ok (dd : D) : Prop :=
    (dmul (dofZ 16) dd = dd /\ dlt dd dd = false /\ deq dd dd = true) \/
    exists r1 r2 r3, let r0 := dmul (dofZ 16) dd in
      r1 = ddiv r0 (dofZ 2) /\ r2 = ddiv r1 (dofZ 2) /\ r3 = ddiv r2 (dofZ 2) /\ ddiv r3 (dofZ 2) = dd /\
      (dlt dd r0 = true /\ dlt dd r1 = true /\ dlt dd r2 = true /\ dlt dd r3 = true /\ dlt dd dd = false) /\
      (deq r0 dd = false /\ deq r1 dd = false /\ deq r2 dd = false /\ deq r3 dd = false /\ deq dd dd = true).

  Lemma hf_line_spec dd cur a best prob : line_ok dd ->
    (hf_line score 5 cur a dd (dmul (dofZ 16) dd) best prob = Ok (dd, best, prob) /\ deq dd dd = true) \/
    (exists r, let p := hf_shift cur r r a in
       hf_line score 5 cur a dd (dmul (dofZ 16) dd) best prob = Ok (r, p, score p) /\ dlt prob (score p) = true /\ deq r dd = false).
  Proof.
    intros [(E & L & Q)|(r1 & r2 & r3 & E1 & E2 & E3 & E4 & (L0 & L1 & L2 & L3 & L4) & (Q0 & Q1 & Q2 & Q3 & Q4))].
    - left. rewrite E. cbn [hf_line]. rewrite L. auto.
    - cbn [hf_line]. rewrite L0, <- E1, L1, <- E2, L2, <- E3, L3, E4, L4.
      set (r0 := dmul (dofZ 16) dd) in *.
      destruct (dlt prob (score (hf_shift cur r0 r0 a))) eqn:T0; [right; exists r0; auto|].
      destruct (dlt prob (score (hf_shift cur r1 r1 a))) eqn:T1; [right; exists r1; auto|].
      destruct (dlt prob (score (hf_shift cur r2 r2 a))) eqn:T2; [right; exists r2; auto|].
      destruct (dlt prob (score (hf_shift cur r3 r3 a))) eqn:T3; [right; exists r3; auto|].
      left. auto.
  Qed.

  Definition dir_result cur prob (res : Z * D * D) : Prop :=
    let '(a, dd, diff) := res in
    (dd = dofZ 0 /\ diff = dofZ 1) \/
    (dd = (if a mod 3 =? 2 then deg else hf_dt) /\ diff = dsub prob (score (hf_shift cur deg hf_dt a))).

  Lemma hf_direction_spec cur prob : dir_result cur prob (hf_direction score deg cur prob).
  Proof.
    unfold hf_direction. generalize [0; 1; 2; 3; 4; 5]. intros l.
    assert (G : forall l st, dir_result cur prob st -> dir_result cur prob (fold_left (fun st action =>
      let '(na, dd, bd) := st in
      let diff := dsub prob (score (hf_shift cur deg hf_dt action)) in
      if dlt diff bd then (action, (if action mod 3 =? 2 then deg else hf_dt), diff) else st) l st)).
    { clear l. induction l as [|a l IH]; intros [[na dd] bd] H; [exact H|]. cbn [fold_left]. apply IH.
      destruct (dlt _ bd); [|exact H]. right. split; reflexivity. }
    apply G. left. split; reflexivity.
  Qed.

  Lemma hf_shift_step cur a dd : dd = (if a mod 3 =? 2 then deg else hf_dt) -> hf_shift cur dd dd a = hf_shift cur deg hf_dt a.
  Proof.
    intros ->. unfold hf_shift. pose proof (Z.mod_pos_bound a 3 ltac:(lia)).
    destruct (Z.eqb_spec (a mod 3) 0) as [->|]; [reflexivity|]. destruct (Z.eqb_spec (a mod 3) 1) as [->|]; [reflexivity|].
    destruct (Z.eqb_spec (a mod 3) 2); [reflexivity|lia].
  Qed.

  Hypothesis ok0 : line_ok (dofZ 0).
  Hypothesis ok1 : line_ok deg.
  Hypothesis ok2 : line_ok hf_dt.
  Hypothesis le01 : dle (dofZ 0) (dofZ 1 : D) = true.

  (** an invariant of the search *)
  Variable I : pose D -> D -> Prop.
  Hypothesis I_line : forall best prob p, I best prob -> dlt prob (score p) = true -> I p (score p).
  Hypothesis I_move : forall best prob p, I best prob -> dle (dofZ 0) (dsub prob (score p)) = false ->
    I p (dsub prob (dsub prob (score p))).

  Lemma hf_loop_spec : forall k fuel sh best prob, (k <= fuel)%nat -> 2 ^ 32 - sh <= Z.of_nat k -> 0 <= sh < 2 ^ 32 -> I best prob ->
    exists sh' best' prob', hf_loop score deg fuel sh best prob = Ok (sh', best', prob') /\ I best' prob' /\ 0 <= sh' < 2 ^ 32.
  Proof.
    induction k as [|k IH]; intros fuel sh best prob Hk Hsh Hr HI; [lia|].
    destruct fuel as [|fuel]; [lia|]. cbn [hf_loop].
    destruct (Z.ltb_spec 0 sh) as [Hp|Hp]; [|exists sh, best, prob; auto].
    assert (NEXT : forall b p, I b p -> exists sh' best' prob', hf_loop score deg fuel (u32 (sh + 1)) b p = Ok (sh', best', prob') /\ I best' prob' /\ 0 <= sh' < 2 ^ 32).
    { intros b p Hb. unfold u32. destruct (Z.eq_dec (sh + 1) (2 ^ 32)) as [E|E].
      - rewrite E, Z.mod_same by lia. exists 0, b, p. split; [destruct fuel; reflexivity|]. split; [exact Hb|lia].
      - rewrite Z.mod_small by lia. apply IH; try lia; auto. }
    pose proof (hf_direction_spec best prob) as HD. destruct (hf_direction score deg best prob) as [[a dd] diff].
    assert (OK : line_ok dd).
    { destruct HD as [[-> _]|[-> _]]; [exact ok0|]. destruct (a mod 3 =? 2); assumption. }
    destruct (hf_line_spec dd best a best prob OK) as [[HL Q]|(r & HL & T & Q)]; rewrite HL; cbn [bind]; rewrite Q.
    - destruct (dle (dofZ 0) diff) eqn:Hd; [exists sh, best, prob; auto|].
      destruct HD as [[_ ->]|[Hdd ->]]; [rewrite le01 in Hd; discriminate|].
      rewrite (hf_shift_step _ _ _ Hdd). apply NEXT. apply I_move with best; assumption.
    - apply NEXT. apply I_line with best prob; assumption.
  Qed.

  Lemma hf_process_spec fuel sh init : 0 <= sh < 2 ^ 32 -> 2 ^ 32 - sh <= Z.of_nat fuel -> I init (score init) ->
    exists best prob sh', hf_process score deg fuel sh init = Ok (pose_sub best init, prob, best, sh') /\ I best prob /\ 0 <= sh' < 2 ^ 32.
  Proof.
    intros Hs Hf HI. destruct (hf_loop_spec fuel fuel sh init (score init) ltac:(lia) ltac:(lia) Hs HI) as (sh' & b & p & E & H & H').
    exists b, p, sh'. unfold hf_process. rewrite E. auto.
  Qed.
End Fixed.

(** ** exact reals *)
Lemma line_ok_R dd : (0 <= dd)%R -> line_ok dd.
Proof.
  intros H. destruct (Req_dec dd 0) as [->|N].
  - left. cbn. split; [lra|]. split; [apply R_lt_false; lra|apply R_eq_true; reflexivity].
  - right. exists (8 * dd)%R, (4 * dd)%R, (2 * dd)%R. cbn. repeat split; try field;
      try (apply R_lt_true; lra); try (apply R_lt_false; lra); try (apply R_eq_false; lra); try (apply R_eq_true; lra).
Qed.

(** ** binary64 *)
(** math_utils.h:53-55: [deg2rad(0.5)], M_PI being the double nearest to pi *)
Definition F_deg_half : F64 := ddiv (dmul (dlit 1 2) (dlit 884279719003555 281474976710656)) (dofZ 180).

Definition F_eq_bits (a b : F64) : bool := (bits_of_b64 a =? bits_of_b64 b).
Lemma F_eq_bits_eq a b : F_eq_bits a b = true -> a = b.
Proof.
  unfold F_eq_bits. intros H. apply Z.eqb_eq in H.
  rewrite <- (binary_float_of_bits_of_binary_float 52 11 eq_refl eq_refl eq_refl a).
  rewrite <- (binary_float_of_bits_of_binary_float 52 11 eq_refl eq_refl eq_refl b).
  unfold bits_of_b64 in H. now rewrite H.
Qed.

Definition line_okb (dd : F64) : bool :=
  let r0 := dmul (dofZ 16) dd in let r1 := ddiv r0 (dofZ 2) in let r2 := ddiv r1 (dofZ 2) in let r3 := ddiv r2 (dofZ 2) in
  F_eq_bits (ddiv r3 (dofZ 2)) dd &&
  (dlt dd r0 && dlt dd r1 && dlt dd r2 && dlt dd r3 && negb (dlt dd dd)) &&
  (negb (deq r0 dd) && negb (deq r1 dd) && negb (deq r2 dd) && negb (deq r3 dd) && deq dd dd).
Lemma line_okb_ok dd : line_okb dd = true -> line_ok dd.
Proof.
  unfold line_okb, line_ok. intros H. right. repeat rewrite andb_true_iff in H. repeat rewrite negb_true_iff in H.
  do 3 eexists. cbv zeta. do 3 (split; [reflexivity|]). split; [apply F_eq_bits_eq; apply H|].
  split; repeat split; apply H.
Qed.
Lemma line_ok_F_deg : line_ok F_deg_half.
Proof. apply line_okb_ok. vm_compute. reflexivity. Qed.
Lemma line_ok_F_dt : line_ok (hf_dt : F64).
Proof. apply line_okb_ok. vm_compute. reflexivity. Qed.
Lemma line_ok_F_0 : line_ok (dofZ 0 : F64).
Proof. left. split; [apply F_eq_bits_eq; vm_compute; reflexivity|]. split; vm_compute; reflexivity. Qed.

(** rounding error of a sum of two numbers of the unit interval *)
Lemma rnd_err_1 x : (-1 <= x <= 1)%R -> (Rabs (rnd x - x) <= bpow radix2 (-54))%R.
Proof.
  intros H. destruct (Req_dec (Rabs x) 1) as [E|E].
  - assert (F : fmt64 x).
    { assert (x = 1 \/ x = -1)%R as [->| ->].
      { destruct (Rle_or_lt 0 x); [left; rewrite Rabs_pos_eq in E by lra; lra|right; rewrite Rabs_left in E by lra; lra]. }
      - apply fmt_1.
      - replace (-1)%R with (- (1))%R by lra. apply fmt_opp, fmt_1. }
    rewrite (rnd_id _ F). replace (x - x)%R with 0%R by lra. rewrite Rabs_R0. apply bpow_ge_0.
  - assert (Hx : (Rabs x < bpow radix2 0)%R).
    { cbn. assert (Rabs x <= 1)%R by (apply Rabs_le; lra). lra. }
    destruct (Req_dec x 0) as [->|N].
    { rewrite rnd_0. replace (0 - 0)%R with 0%R by lra. rewrite Rabs_R0. apply bpow_ge_0. }
    eapply Rle_trans; [apply error_le_half_ulp; apply FLT_exp_valid; reflexivity|].
    rewrite ulp_neq_0 by auto. unfold cexp. change (/2)%R with (bpow radix2 (-1)). rewrite <- bpow_plus. apply bpow_le.
    assert (mag radix2 x <= 0)%Z by (apply mag_le_bpow; auto). unfold fexp64, FLT_exp. lia.
Qed.

Definition unit_score (score : pose F64 -> F64) : Prop :=
  forall p, F_fin (score p) = true /\ (0 <= F2R64 (score p) <= 1)%R.

Definition I_F (score : pose F64 -> F64) (init : pose F64) (best : pose F64) (prob : F64) : Prop :=
  F_fin prob = true /\ (0 <= F2R64 prob <= 1)%R /\ (F2R64 (score init) <= F2R64 prob)%R /\ (Rabs (F2R64 prob - F2R64 (score best)) <= bpow radix2 (-53))%R.

Lemma bpow_53_54 : (bpow radix2 (-53) = bpow radix2 (-54) + bpow radix2 (-54))%R.
Proof. change (-53) with (1 + -54). rewrite bpow_plus. change (bpow radix2 1) with 2%R. lra. Qed.

Lemma rnd_1_54 x : (x <= 1 + bpow radix2 (-54))%R -> (rnd x <= 1)%R.
Proof.
  intros H. apply Rle_trans with (rnd (1 + bpow radix2 (-54))); [now apply rnd_le|].
  set (y := (1 + bpow radix2 (-54))%R).
  assert (P : (0 < bpow radix2 (-54))%R) by apply bpow_gt_0.
  assert (S : (succ radix2 fexp64 1 = 1 + bpow radix2 (-52))%R).
  { rewrite succ_eq_pos by lra. f_equal. rewrite ulp_neq_0 by lra. unfold cexp. f_equal.
    rewrite (mag_unique radix2 1 1); [reflexivity|]. rewrite Rabs_pos_eq by lra. cbn. lra. }
  assert (B : (bpow radix2 (-52) = 4 * bpow radix2 (-54))%R) by (change (-52) with (2 + -54); rewrite bpow_plus; cbn; lra).
  apply round_N_le_midp; [typeclasses eauto|apply fmt_1|]. rewrite S, B. unfold y. lra.
Qed.

Lemma I_F_move score init best prob p : unit_score score -> I_F score init best prob ->
  dle (dofZ 0) (dsub prob (score p)) = false -> I_F score init p (dsub prob (dsub prob (score p))).
Proof.
  intros HU (Fp & Bp & Lp & _) Hd. destruct (HU p) as [Fs Bs].
  destruct (F_sub_correct prob (score p) Fp Fs) as [E1 F1]; [apply no_ovf_1; lra|].
  set (d := dsub prob (score p)) in *.
  destruct (F_ofZ_correct 0 ltac:(cbn; lia)) as [E0 F0].
  assert (Hneg : (F2R64 d < 0)%R).
  { destruct (Rlt_or_le (F2R64 d) 0) as [H|H]; [exact H|exfalso].
    assert (dle (dofZ 0) d = true) by (apply (F_le_fin _ _ F0 F1); rewrite E0; exact H). congruence. }
  assert (Hd1 : (-1 <= F2R64 d)%R).
  { rewrite E1. apply (rnd_ge (-1)); [|lra]. replace (-1)%R with (- (1))%R by lra. apply fmt_opp, fmt_1. }
  assert (Er1 : (Rabs (F2R64 d - (F2R64 prob - F2R64 (score p))) <= bpow radix2 (-54))%R) by (rewrite E1; apply rnd_err_1; lra).
  apply Rabs_le_inv in Er1.
  assert (P : (0 < bpow radix2 (-54))%R) by apply bpow_gt_0.
  assert (P1 : (bpow radix2 (-54) <= 1)%R) by (change 1%R with (bpow radix2 0); apply bpow_le; lia).
  destruct (F_sub_correct prob d Fp F1) as [E2 F2].
  { apply (no_ovf_le (bpow radix2 1)); [apply fmt_bpow; lia|eapply Rlt_trans; [|apply bpow1023_lt]; apply bpow_lt; lia|].
    change (bpow radix2 1) with 2%R. apply Rabs_le. lra. }
  assert (Hge : (F2R64 prob <= F2R64 (dsub prob d))%R) by (rewrite E2; apply rnd_ge; [apply F_fmt|lra]).
  assert (Hle : (F2R64 (dsub prob d) <= 1)%R) by (rewrite E2; apply rnd_1_54; lra).
  assert (Er2 : (Rabs (F2R64 (dsub prob d) - F2R64 (score p)) <= bpow radix2 (-53))%R).
  { destruct (Rle_or_lt (F2R64 prob - F2R64 d) 1) as [H|H].
    - assert (E : (Rabs (F2R64 (dsub prob d) - (F2R64 prob - F2R64 d)) <= bpow radix2 (-54))%R) by (rewrite E2; apply rnd_err_1; lra).
      apply Rabs_le_inv in E. rewrite bpow_53_54. apply Rabs_le. lra.
    - assert (E : (F2R64 (dsub prob d) = 1)%R).
      { apply Rle_antisym; [exact Hle|]. rewrite E2. apply rnd_ge; [apply fmt_1|lra]. }
      rewrite E, bpow_53_54. apply Rabs_le. lra. }
  split; [exact F2|]. split; [lra|]. split; [lra|exact Er2].
Qed.

Lemma I_F_line score init best prob p : unit_score score -> I_F score init best prob ->
  dlt prob (score p) = true -> I_F score init p (score p).
Proof.
  intros HU (Fp & Bp & Lp & _) Hd. destruct (HU p) as [Fs Bs]. apply (F_lt_fin _ _ Fp Fs) in Hd.
  split; [exact Fs|]. split; [exact Bs|]. split; [lra|]. replace (_ - _)%R with 0%R by lra. rewrite Rabs_R0. apply bpow_ge_0.
Qed.

Lemma I_F_init score init : unit_score score -> I_F score init init (score init).
Proof.
  intros HU. destruct (HU init) as [Fs Bs]. split; [exact Fs|]. split; [exact Bs|]. split; [lra|].
  replace (_ - _)%R with 0%R by lra. rewrite Rabs_R0. apply bpow_ge_0.
Qed.
