(** Scores in binary64: every estimate is NaN or in [0, 1]. *)
From Coq Require Import Reals ZArith List Bool Lia Lra.
From Flocq Require Import Core IEEE754.BinarySingleNaN IEEE754.Binary IEEE754.Bits.
From Verif.Base Require Import Outcome Num F64Facts.
From Verif.Model Require Import MathUtils Geometry Grid PlainMap LazyMap Cells Sensor ScanAdder Histogram AreaEstimator Pyramid World Config WholeSlam Spe Matchers WholeMatcher Impact.
From Verif.Spec Require Import CellSpec WholeSpec.
From Verif.Proofs Require Import GridNumProofs CellProofs TbmFloatProofs AreaRange CompareProofs SpeProofs WholeProofs WholeObs.
Import ListNotations.
Local Open Scope R_scope.

(** NaN, or nonnegative (possibly infinite) *)
Definition nw (x : F64) : Prop := disnan x = true \/ nneg x.
Lemma nan_add_l (x y : F64) : disnan x = true -> disnan (dadd x y) = true.
Proof. destruct x; try discriminate. intros _. destruct y; reflexivity. Qed.
Lemma nan_add_r (x y : F64) : disnan y = true -> disnan (dadd x y) = true.
Proof. destruct y; try discriminate. intros _. destruct x; reflexivity. Qed.
Lemma nan_div_l (x y : F64) : disnan x = true -> disnan (ddiv x y) = true.
Proof. destruct x; try discriminate. intros _. destruct y; reflexivity. Qed.
Lemma nan_sub_l (x y : F64) : disnan x = true -> disnan (dsub x y) = true.
Proof. destruct x; try discriminate. intros _. destruct y; reflexivity. Qed.
Lemma sign_0 (z : F64) : F_fin z = true -> 0 <= F2R64 z -> Bsign 53 1024 z = true -> F2R64 z = 0.
Proof. intros F P Q. assert (A := F_sign_true _ Q). fold (F2R64 z) in A. lra. Qed.
Lemma rnd0_no : ~ bpow radix2 1024 <= Rabs (rnd 0).
Proof. rewrite rnd_0, Rabs_R0. apply Rlt_not_le, bpow_gt_0. Qed.

Lemma mul_fin (x y : F64) : F_fin x = true -> F_fin y = true -> 0 <= F2R64 x -> 0 <= F2R64 y -> nneg (dmul x y).
Proof.
  intros F F' P P'. assert (Q : 0 <= F2R64 x * F2R64 y) by (apply Rmult_le_pos; assumption).
  generalize (Bmult_correct 53 1024 eq_refl eq_refl binop_nan_pl64 mode_NE x y). intros H. ovf_case H.
  - right. destruct H as [H1 [H2 _]]. split.
    + unfold F_fin in *. rewrite F, F' in H2. exact H2.
    + change (F2R64 (dmul x y)) with (B2R 53 1024 (Binary.Bmult 53 1024 eq_refl eq_refl binop_nan_pl64 mode_NE x y)). rewrite H1.
      apply (rnd_ge 0); [apply fmt_0|exact Q].
  - left. apply B2FF_ovf in H. fold (F2R64 x) (F2R64 y) in E.
    assert (X : xorb (Bsign 53 1024 x) (Bsign 53 1024 y) = false).
    { destruct (Bsign 53 1024 x) eqn:Sx, (Bsign 53 1024 y) eqn:Sy; try reflexivity; exfalso; apply rnd0_no.
      - rewrite (sign_0 x F P Sx), Rmult_0_l in E. exact E.
      - rewrite (sign_0 y F' P' Sy), Rmult_0_r in E. exact E. }
    rewrite X in H. exact H.
Qed.
Lemma mul_nw (x y : F64) : nw x -> nw y -> nw (dmul x y).
Proof.
  intros [X|X] Y; [left; now apply nan_mul_l|]. destruct Y as [Y|Y]; [left; now apply nan_mul_r|].
  destruct X as [->|[F P]], Y as [->|[F' P']].
  - right. left. reflexivity.
  - destruct y as [s|s|s pl h|s m e h]; try discriminate F'; [left; reflexivity|]. destruct s; [|right; left; reflexivity].
    exfalso. assert (Z := sign_0 (B754_finite 53 1024 true m e h) eq_refl P' eq_refl). unfold F2R64 in Z. cbn in Z. apply F2R_neq_0 in Z; [exact Z|discriminate].
  - destruct x as [s|s|s pl h|s m e h]; try discriminate F; [left; reflexivity|]. destruct s; [|right; left; reflexivity].
    exfalso. assert (Z := sign_0 (B754_finite 53 1024 true m e h) eq_refl P eq_refl). unfold F2R64 in Z. cbn in Z. apply F2R_neq_0 in Z; [exact Z|discriminate].
  - right. now apply mul_fin.
Qed.
Lemma add_nw (x y : F64) : nw x -> nw y -> nw (dadd x y).
Proof. intros [X|X] [Y|Y]; [left; now apply nan_add_l|left; now apply nan_add_l|left; now apply nan_add_r|right; now apply add_nneg]. Qed.
Lemma div_nw (x y : F64) : nw x -> nw y -> deq y (dofZ 0) = false -> nw (ddiv x y).
Proof.
  intros [X|X] Y NZ; [left; now apply nan_div_l|]. destruct Y as [Y|Y]; [left; now apply nan_div_r|].
  destruct Y as [->|[F' P']].
  - destruct (div_inf x X) as [N|N]; [left; exact N|right; right]. destruct N as [A B]. unfold in01 in B. split; [exact A|lra].
  - assert (NE : F2R64 y <> 0).
    { intros C. destruct (F_ofZ_correct 0 ltac:(cbn; lia)) as [Z0 ZF]. assert (deq y (dofZ 0) = true) by (apply F_eq_fin; auto; congruence). congruence. }
    destruct X as [->|[F P]].
    + destruct y as [s|s|s pl h|s m e h]; try discriminate F'; [exfalso; apply NE; reflexivity|]. destruct s; [|right; left; reflexivity].
      exfalso. apply NE. exact (sign_0 (B754_finite 53 1024 true m e h) eq_refl P' eq_refl).
    + assert (Q : 0 <= F2R64 x / F2R64 y) by (apply Rmult_le_pos; [exact P|left; apply Rinv_0_lt_compat; lra]).
      right. generalize (Bdiv_correct 53 1024 eq_refl eq_refl binop_nan_pl64 mode_NE x y NE). intros H. ovf_case H.
      * right. destruct H as [H1 [H2 _]]. split.
        -- unfold F_fin in *. rewrite F in H2. exact H2.
        -- change (F2R64 (ddiv x y)) with (B2R 53 1024 (Binary.Bdiv 53 1024 eq_refl eq_refl binop_nan_pl64 mode_NE x y)). rewrite H1.
           apply (rnd_ge 0); [apply fmt_0|exact Q].
      * left. apply B2FF_ovf in H. fold (F2R64 x) (F2R64 y) in E.
        assert (X : xorb (Bsign 53 1024 x) (Bsign 53 1024 y) = false).
        { destruct (Bsign 53 1024 x) eqn:Sx, (Bsign 53 1024 y) eqn:Sy; try reflexivity; exfalso.
          - apply rnd0_no. rewrite (sign_0 x F P Sx) in E. unfold Rdiv in E. rewrite Rmult_0_l in E. exact E.
          - apply NE. exact (sign_0 y F' P' Sy). }
        rewrite X in H. exact H.
Qed.
Lemma sub_nw (b t : F64) : dle b t = true -> nw (dsub t b).
Proof.
  intros L. destruct (fin_or t) as [N|[[s ->]|F]]; [left; now apply nan_sub_l| |].
  - destruct s; [|destruct b as [s|s|s pl h|s m e h]; try (right; left; reflexivity); try (left; reflexivity)].
    + destruct b as [s|s|s pl h|s m e h]; try destruct s; try discriminate L; left; reflexivity.
    + destruct s; [right; left; reflexivity|left; reflexivity].
  - destruct (fin_or b) as [N|[[s ->]|F']]; [left; now apply nan_sub_r| |].
    + destruct s; [destruct t as [s|s|s pl h|s m e h]; try discriminate F; right; left; reflexivity|].
      exfalso. destruct t as [s|s|s pl h|s m e h]; try discriminate F; try destruct s; discriminate L.
    + apply F_le_fin in L; [|assumption|assumption]. right.
      generalize (Bminus_correct 53 1024 eq_refl eq_refl binop_nan_pl64 mode_NE t b F F'). intros H. ovf_case H.
      * right. destruct H as [H1 [H2 _]]. split; [exact H2|].
        change (F2R64 (dsub t b)) with (B2R 53 1024 (Binary.Bminus 53 1024 eq_refl eq_refl binop_nan_pl64 mode_NE t b)). rewrite H1.
        apply (rnd_ge 0); [apply fmt_0|]. fold (F2R64 t) (F2R64 b). lra.
      * left. destruct H as [H1 H2]. apply B2FF_ovf in H1. fold (F2R64 t) (F2R64 b) in E.
        assert (Sx : Bsign 53 1024 t = false).
        { destruct (Bsign 53 1024 t) eqn:St; [|reflexivity]. exfalso. apply rnd0_no.
          assert (A := F_sign_true _ St). fold (F2R64 t) in A.
          assert (B : 0 <= F2R64 b).
          { destruct (Bsign 53 1024 b) eqn:Sb; [discriminate H2|]. apply F_sign_false. exact Sb. }
          replace (F2R64 t - F2R64 b) with 0 in E by lra. exact E. }
        rewrite Sx in H1. exact H1.
Qed.

(** a total and the total weight it belongs to *)
Definition sinv (t w : F64) : Prop := disnan t = true \/ disnan w = true \/ mean_inv t w.
Lemma sinv_0 : sinv (dofZ 0) (dofZ 0).
Proof. right. right. left. destruct (F_ofZ_correct 0 ltac:(cbn; lia)) as [Z0 ZF]. rewrite Z0. split; [exact ZF|]. split; [exact ZF|lra]. Qed.
Lemma inf_add_r (y : F64) : nneg y -> dadd y (Binf false : F64) = Binf false.
Proof. intros [->|[F P]]; [reflexivity|]. destruct y; cbn; try discriminate; reflexivity. Qed.
Lemma inf_add_l (y : F64) : nneg y -> dadd (Binf false : F64) y = Binf false.
Proof. intros [->|[F P]]; [reflexivity|]. destruct y; cbn; try discriminate; reflexivity. Qed.
Lemma mean_nneg t w : mean_inv t w -> nneg t /\ nneg w.
Proof.
  intros [(A & B & C)|(-> & [->|(A & B)])].
  - split; right; (split; [assumption|lra]).
  - split; left; reflexivity.
  - split; [right; split; assumption|left; reflexivity].
Qed.
Lemma mean_add t w t' w' : mean_inv t w -> mean_inv t' w' -> mean_inv (dadd t t') (dadd w w').
Proof.
  intros H H'. destruct (mean_nneg _ _ H) as [Nt Nw]. destruct (mean_nneg _ _ H') as [Nt' Nw']. destruct H' as [(A & B & C)|(-> & D)].
  - now apply mean_inv_step.
  - right. rewrite inf_add_r by exact Nw. split; [reflexivity|]. destruct (add_nneg _ _ Nt Nt') as [E|E]; [left; exact E|right; exact E].
Qed.
Lemma sinv_add t w t' w' : sinv t w -> sinv t' w' -> sinv (dadd t t') (dadd w w').
Proof.
  intros [H|[H|H]]; [left; now apply nan_add_l|right; left; now apply nan_add_l|].
  intros [H'|[H'|H']]; [left; now apply nan_add_r|right; left; now apply nan_add_r|]. right. right. now apply mean_add.
Qed.
Lemma sinv_mul v w : nan01 v -> nw w -> sinv (dmul v w) w.
Proof.
  intros [V|[F P]] W; [left; now apply nan_mul_l|]. destruct W as [W|W]; [right; left; exact W|]. unfold in01 in P.
  destruct W as [->|[F' P']].
  - destruct (mul_nw v (Binf false)) as [N|N]; [right; right; split; [exact F|lra]|right; left; reflexivity|left; exact N|].
    right. right. right. split; [reflexivity|exact N].
  - right. right. left. assert (B : 0 <= F2R64 v * F2R64 w <= F2R64 w) by (split; [apply Rmult_le_pos; lra|rewrite <- (Rmult_1_l (F2R64 w)) at 2; apply Rmult_le_compat_r; lra]).
    assert (W := F_abs_lt w). rewrite Rabs_pos_eq in W by exact P'.
    destruct (F_mul_correct v w F F') as [E G]; [apply (no_ovf_le (F2R64 w)); [apply F_fmt|exact W|rewrite Rabs_pos_eq; lra]|].
    split; [exact G|]. split; [exact F'|]. rewrite E. apply rnd_between; [apply fmt_0|apply F_fmt|exact B].
Qed.
(** a factor of one *)
Lemma mul_one (x f : F64) : F_fin f = true -> F2R64 f = 1 -> disnan x = true -> disnan (dmul x f) = true.
Proof. intros _ _ H. now apply nan_mul_l. Qed.
Lemma sinv_factor t w f : F_fin f = true -> F2R64 f = 1 -> sinv t w -> sinv (dmul t f) w.
Proof.
  intros Ff Hf [H|[H|H]]; [left; now apply nan_mul_l|right; left; exact H|]. right. right.
  assert (N : forall x : F64, F_fin x = true -> F_fin (dmul x f) = true /\ F2R64 (dmul x f) = F2R64 x).
  { intros x Fx. destruct (F_mul_correct x f Fx Ff) as [E G].
    - rewrite Hf, Rmult_1_r. apply (no_ovf_le (Rabs (F2R64 x))); [apply fmt_abs, F_fmt|apply F_abs_lt|lra].
    - split; [exact G|]. rewrite E, Hf, Rmult_1_r. apply rnd_id, F_fmt. }
  destruct H as [(A & B & C)|(-> & D)].
  - left. destruct (N t A) as [E G]. rewrite G. auto.
  - right. split; [reflexivity|]. destruct D as [->|[A B]].
    + left. destruct f as [s|s|s pl h|s m e h]; try discriminate Ff; [unfold F2R64 in Hf; cbn in Hf; lra|]. destruct s; [|reflexivity].
      exfalso. assert (Z := F_sign_true (B754_finite 53 1024 true m e h) eq_refl). rewrite Hf in Z. lra.
    + right. destruct (N t A) as [E G]. rewrite G. auto.
Qed.
Lemma sinv_div t w : sinv t w -> deq w (dofZ 0) = false -> nan01 (ddiv t w).
Proof.
  intros [H|[H|H]] NZ; [left; now apply nan_div_l|left; now apply nan_div_r|]. destruct (proj2 (mean_div t w H NZ)) as [N|N]; [left; exact N|right; exact N].
Qed.

(** *** the estimators *)
Lemma area_nw (r : rect F64) : dle (bot r) (top r) = true -> dle (left r) (right r) = true -> nw (rect_area r).
Proof. intros A B. unfold rect_area, vside_len, hside_len. apply mul_nw; apply sub_nw; assumption. Qed.
Lemma mk_rect_inv (b t l r : F64) x : mk_rect b t l r = Ok x -> x = mkRect b t l r /\ dle b t = true /\ dle l r = true.
Proof. unfold mk_rect. destruct (dle b t), (dle l r); cbn [andb]; try discriminate. intros E. split; [congruence|auto]. Qed.
Lemma intersect_area (a b i : rect F64) : rect_intersect a b = Ok i -> nw (rect_area i).
Proof.
  assert (K : forall b t l r x, mk_rect b t l r = Ok x -> nw (rect_area x)).
  { intros b0 t l r x E. apply mk_rect_inv in E as (-> & A & B). apply area_nw; assumption. }
  unfold rect_intersect, intersect_rev. destruct (corner_analysis a b) as [n [[[x1 x2] x3] x4]]. destruct (corner_analysis b a) as [n' [[[y1 y2] y3] y4]].
  destruct n as [|[|[|[|[|n]]]]]; try discriminate; try apply K.
  destruct n' as [|[|[|[|[|n']]]]]; try discriminate; apply K.
Qed.
Lemma overlap_nw (a b : rect F64) v : dle (bot a) (top a) = true -> dle (left a) (right a) = true -> rect_overlap a b = Ok v -> nw v.
Proof.
  intros A B. unfold rect_overlap. destruct (deq (rect_area a) (dofZ 0)) eqn:Z; cbn [negb].
  - assert (W : forall c : bool, nw (if c then dofZ 1 else dofZ 0)).
    { intros c. right. right. destruct (F_ofZ_correct 0 ltac:(cbn; lia)) as [Z0 ZF]. destruct (F_ofZ_correct 1 ltac:(cbn; lia)) as [O0 OF].
      destruct c; [rewrite O0|rewrite Z0]; (split; [assumption|lra]). }
    destruct (negb _); [intros E; apply Ok_inj in E; rewrite <- E; apply W|]. destruct (_ && _)%bool; [|discriminate]. intros E; apply Ok_inj in E; rewrite <- E; apply W.
  - intros E. apply bind_Ok_inv in E as (i & Ei & E). apply Ok_inj in E. rewrite <- E. apply div_nw; [eapply intersect_area; eassumption|apply area_nw; assumption|exact Z].
Qed.

Section Estimators.
  Context {C : Type}.
  Variables (impact : C -> outcome F64) (m : omap F64 C).
  Hypothesis Himp : forall c v, cell_impact impact m c = Ok v -> f01 v.
  Lemma max_f01 : forall l b v, f01 b -> max_loop impact m l b = Ok v -> f01 v.
  Proof using Himp.
    induction l as [|c l IH]; intros b v Hb E; cbn [max_loop] in E; [apply Ok_inj in E; rewrite <- E; exact Hb|].
    apply bind_Ok_inv in E as (x & Ex & E). apply IH in E; [exact E|]. apply Himp in Ex. unfold dmax. destruct (dlt x b); assumption.
  Qed.
  Lemma mean_f01 : forall l t n t' n', (0 <= n)%Z -> (n + Z.of_nat (length l) <= 2 ^ 53)%Z -> F_fin t = true -> 0 <= F2R64 t <= IZR n ->
    mean_loop impact m l t n = Ok (t', n') -> (n <= n' <= 2 ^ 53)%Z /\ F_fin t' = true /\ 0 <= F2R64 t' <= IZR n'.
  Proof using Himp.
    induction l as [|c l IH]; intros t n t' n' Hn Hl F B E; cbn [mean_loop] in E.
    - apply Ok_inj in E. injection E as <- <-. cbn [length] in Hl. split; [lia|]. auto.
    - apply bind_Ok_inv in E as (x & Ex & E). apply Himp in Ex. destruct Ex as [Fx Bx]. unfold in01 in Bx. cbn [length] in Hl.
      assert (Fm : fmt64 (IZR (n + 1))) by (apply fmt_IZR; rewrite Z.abs_eq; lia).
      assert (S1 : 0 <= F2R64 t + F2R64 x <= IZR (n + 1)) by (rewrite plus_IZR; lra).
      destruct (F_add_correct t x F Fx) as [A B'].
      { apply (no_ovf_le (IZR (n + 1)) _ Fm).
        - apply Rle_lt_trans with (IZR (2 ^ 53)); [apply IZR_le; lia|]. change (IZR (2 ^ 53)) with (bpow radix2 53). unfold fmax_bound. apply bpow_lt. lia.
        - rewrite Rabs_pos_eq; lra. }
      apply IH in E; [destruct E as [E1 E2]; split; [lia|exact E2]|lia|lia|exact B'|]. rewrite A. apply rnd_between; [apply fmt_0|exact Fm|exact S1].
  Qed.
  Lemma vec_length : forall fuel r l, raster_to_vector fuel r = Ok l -> (length l <= fuel)%nat.
  Proof using Type.
    induction fuel as [|fuel IH]; intros r l; cbn [raster_to_vector]; destruct (raster_has_next r); try discriminate;
      try (intros E; apply Ok_inj in E; rewrite <- E; cbn; lia).
    destruct (raster_next r) as [c r']. intros E. apply bind_Ok_inv in E as (l' & El & E). apply Ok_inj in E. rewrite <- E. apply IH in El. cbn. lia.
  Qed.
  Lemma overlap_sinv (a : rect F64) : dle (bot a) (top a) = true -> dle (left a) (right a) = true -> forall l t w t' w', sinv t w ->
    overlap_loop impact m a l t w = Ok (t', w') -> sinv t' w'.
  Proof using Himp.
    intros A B. induction l as [|c l IH]; intros t w t' w' H E; cbn [overlap_loop] in E.
    - apply Ok_inj in E. injection E as <- <-. exact H.
    - apply bind_Ok_inv in E as (v & Ev & E). apply bind_Ok_inv in E as (bb & Eb & E). apply bind_Ok_inv in E as (x & Ex & E).
      apply IH in E; [exact E|]. apply sinv_add; [exact H|]. apply sinv_mul; [right; eapply Himp; eassumption|]. eapply overlap_nw; eassumption.
  Qed.
  Lemma f01_0 : f01 (dofZ 0).
  Proof using Type. destruct (F_ofZ_correct 0 ltac:(cbn; lia)) as [Z0 ZF]. split; [exact ZF|]. rewrite Z0. unfold in01. lra. Qed.
  Lemma observation_nan01 kind bound p (a : rect F64) v : (Z.of_nat bound <= 2 ^ 53)%Z -> dle (bot a) (top a) = true -> dle (left a) (right a) = true ->
    observation_prob impact kind bound m p a = Ok v -> nan01 v.
  Proof using Himp.
    intros Hb A B. unfold observation_prob. destruct kind.
    - unfold obstacle_pe. intros E. apply bind_Ok_inv in E as (c & _ & E). right. eapply Himp; eassumption.
    - unfold max_pe. intros E. apply bind_Ok_inv in E as (l & _ & E). right. eapply max_f01; [apply f01_0|eassumption].
    - unfold mean_pe. intros E. apply bind_Ok_inv in E as (l & El & E). apply bind_Ok_inv in E as ([t n] & En & E). apply Ok_inj in E. rewrite <- E. clear E.
      unfold area_cells in El. apply bind_Ok_inv in El as (r & _ & El). apply vec_length in El.
      destruct (F_ofZ_correct 0 ltac:(cbn; lia)) as [Z0 ZF].
      apply mean_f01 in En; [|lia|lia|exact ZF|rewrite Z0; lra]. destruct En as (Hn & Ft & Bt). destruct (n =? 0)%Z eqn:N; [right; apply f01_half|].
      apply Z.eqb_neq in N. right. destruct (F_ofZ_correct n) as [N0 NF]; [rewrite Z.abs_eq; lia|].
      apply div_between; [exact NF| |exact Ft|rewrite N0; exact Bt]. rewrite N0. apply IZR_lt. lia.
    - unfold overlap_pe. intros E. apply bind_Ok_inv in E as (l & _ & E). apply bind_Ok_inv in E as ([t w] & Ew & E). apply Ok_inj in E. rewrite <- E. clear E.
      apply overlap_sinv in Ew; [|assumption|assumption|apply sinv_0]. destruct (deq w (dofZ 0)) eqn:Z; cbn [negb]; [right; apply f01_half|]. now apply sinv_div.
  Qed.
End Estimators.

Lemma center_inv (a : rect F64) p r : move_center a p = Ok r -> dle (bot r) (top r) = true /\ dle (left r) (right r) = true.
Proof. unfold move_center. cbv zeta. intros E. apply mk_rect_inv in E as (-> & A & B). auto. Qed.
Definition unit_factor (s : scan_point F64) : Prop := F_fin (sp_factor s) = true /\ F2R64 (sp_factor s) = 1.
Lemma ex_filter {C} datan2 (m : omap F64 C) skip range p tp : forall raw i l, filter_loop datan2 m skip range p tp i raw = Ok l -> forall s, In s l -> In s raw.
Proof.
  induction raw as [|s raw IH]; intros i l; cbn [filter_loop].
  - intros E. apply Ok_inj in E. rewrite <- E. auto.
  - destruct (_ && _)%bool; [intros E x Hx; right; exact (IH _ _ E x Hx)|]. intros E. apply bind_Ok_inv in E as (q & _ & E). apply bind_Ok_inv in E as (c & _ & E).
    apply bind_Ok_inv in E as (r & Er & E). apply Ok_inj in E. rewrite <- E. intros x. destruct (should_skip _ _ _ _); [intros Hx; right; exact (IH _ _ Er x Hx)|].
    intros [->|Hx]; [now left|right; exact (IH _ _ Er x Hx)].
Qed.
Section Scores.
  Variables (dcos dsin : F64 -> F64) (datan2 : F64 -> F64 -> F64) (prob : point F64 -> rect F64 -> outcome F64) (area : rect F64).
  Hypothesis Hprob : forall o a v, dle (bot a) (top a) = true -> dle (left a) (right a) = true -> prob o a = Ok v -> nan01 v.
  Lemma estimate_sinv (w : Z -> outcome F64) p tp : (forall i x, w i = Ok x -> nw x) -> forall pts i t k t' k', (forall s, In s pts -> unit_factor s) -> sinv t k ->
    estimate_loop w (point_prob dcos dsin datan2 prob p tp false area) i pts t k = Ok (t', k') -> sinv t' k'.
  Proof using Hprob.
    intros HW. induction pts as [|s pts IH]; intros i t k t' k' HF H E; cbn [estimate_loop] in E.
    - apply Ok_inj in E. injection E as <- <-. exact H.
    - apply bind_Ok_inv in E as (v & Ev & E). apply bind_Ok_inv in E as (x & Ex & E).
      destruct (HF s (or_introl eq_refl)) as [F1 F2]. apply IH in E; [exact E|intros; apply HF; now right|]. apply sinv_add; [exact H|]. apply sinv_factor; [exact F1|exact F2|].
      apply sinv_mul; [|eapply HW; eassumption]. unfold point_prob in Ev. apply bind_Ok_inv in Ev as (o & _ & Ev). apply bind_Ok_inv in Ev as (r & Er & Ev).
      apply center_inv in Er as [R1 R2]. eapply Hprob; eassumption.
  Qed.
  Lemma scan_nan01 (w : Z -> outcome F64) p tp pts v : (forall i x, w i = Ok x -> nw x) -> (forall s, In s pts -> unit_factor s) ->
    estimate_scan dcos dsin datan2 prob w p tp false area pts = Ok (Some v) -> nan01 v.
  Proof using Hprob.
    intros Hw HF. unfold estimate_scan. intros E. apply bind_Ok_inv in E as ([t k] & Ew & E).
    apply estimate_sinv in Ew; [|exact Hw|exact HF|apply sinv_0]. destruct (deq k (dofZ 0)) eqn:Z; [discriminate|]. injection E as <-. now apply sinv_div.
  Qed.
End Scores.
(** the matcher's answer is one of the scores *)
Lemma pe_value {E} (en : enumerator F64 E) (obs : observers) (P : F64 -> Prop) score : (forall p, P (score p)) -> forall fuel e b pr t o e' b' pr' t' o', P pr ->
  pe_loop en score obs fuel e b pr t o = Ok (e', b', pr', t', o') -> P pr'.
Proof.
  intros HP. induction fuel as [|fuel IH]; intros e b pr t o e' b' pr' t' o' Hp; cbn [pe_loop]; destruct (e_has_next en e); try discriminate;
    try (intros X; apply Ok_inj in X; injection X as _ _ <- _ _; exact Hp).
  destruct (e_next en e b) as [p e1]. destruct (dlt pr (score p)); intros X; apply IH in X; auto.
Qed.
Lemma process_value {E} (en : enumerator F64 E) (obs : observers) (P : F64 -> Prop) score fuel e p r : (forall p, P (score p)) ->
  process_scan en score obs fuel e p = Ok r -> P (mr_prob r).
Proof.
  intros HS. unfold process_scan. intros Er. apply bind_Ok_inv in Er as ([[[[e1 b1] p1] t1] q1] & E1 & Er). apply Ok_inj in Er. rewrite <- Er. cbn [mr_prob].
  eapply (pe_value en obs P) in E1; [exact E1|exact HS|apply HS].
Qed.
