(** Observations made while a scan is added are acceptable to every cell class, for all beams, scales and settings (C94). *)
From Coq Require Import Reals ZArith List Bool Lia Lra.
From Flocq Require Import Core IEEE754.BinarySingleNaN IEEE754.Binary IEEE754.Bits.
From Verif.Base Require Import Outcome Num F64Facts.
From Verif.Model Require Import MathUtils Geometry Grid Cells Sensor ScanAdder Histogram AreaEstimator Config WholeSlam.
From Verif.Spec Require Import CellSpec WholeSpec.
From Verif.Proofs Require Import CompareProofs GridNumProofs AreaRange CellProofs TbmFloatProofs DriftProofs WholeProofs.
Import ListNotations.
Local Open Scope R_scope.

Notation Binf s := (B754_infinity 53 1024 s).
(** nonnegative, possibly +infinity *)
Definition nneg (x : F64) : Prop := x = Binf false \/ (F_fin x = true /\ 0 <= F2R64 x).

Lemma nan_dec (x : F64) : disnan x = true \/ disnan x = false. Proof. destruct (disnan x); auto. Qed.
Lemma nan_mul_l (x y : F64) : disnan x = true -> disnan (dmul x y) = true.
Proof. destruct x; try discriminate. intros _. destruct y; reflexivity. Qed.
Lemma nan_mul_r (x y : F64) : disnan y = true -> disnan (dmul x y) = true.
Proof. destruct y; try discriminate. intros _. destruct x; reflexivity. Qed.
Lemma nan_sub_r (x y : F64) : disnan y = true -> disnan (dsub x y) = true.
Proof. destruct y; try discriminate. intros _. destruct x; reflexivity. Qed.
Lemma nan_div_r (x y : F64) : disnan y = true -> disnan (ddiv x y) = true.
Proof. destruct y; try discriminate. intros _. destruct x; reflexivity. Qed.

Lemma fin_or (x : F64) : disnan x = true \/ (exists s, x = Binf s) \/ F_fin x = true.
Proof. destruct x as [s|s|s pl h|s m e h]; [right; right; reflexivity|right; left; exists s; reflexivity|left; reflexivity|right; right; reflexivity]. Qed.

Lemma nan01_mul x y : nan01 x -> nan01 y -> nan01 (dmul x y).
Proof.
  intros [X|X] Y; [left; apply nan_mul_l; exact X|]. destruct Y as [Y|Y]; [left; apply nan_mul_r; exact Y|]. right. apply f01_mul; assumption.
Qed.
Lemma nan01_sub1 x : nan01 x -> nan01 (dsub (dofZ 1) x).
Proof. intros [X|X]; [left; apply nan_sub_r; exact X|right; apply f01_sub1; exact X]. Qed.

(** ** rates *)
Lemma div_inf (a : F64) : nneg a -> nan01 (ddiv a (Binf false)).
Proof.
  intros [->|[F P]]; [left; reflexivity|]. right. destruct a as [s|s|s pl h|s m e h]; try discriminate F.
  - destruct s; (split; [reflexivity|]); unfold in01; cbn; lra.
  - destruct s; (split; [reflexivity|]); unfold in01; cbn; lra.
Qed.
Lemma div_between (a t : F64) : F_fin t = true -> 0 < F2R64 t -> F_fin a = true -> 0 <= F2R64 a <= F2R64 t -> f01 (ddiv a t).
Proof.
  intros FT PT Fa Ba. assert (B : 0 <= F2R64 a / F2R64 t <= 1).
  { split; [apply Rmult_le_pos; [lra|left; apply Rinv_0_lt_compat; lra]|]. apply Rmult_le_reg_r with (F2R64 t); [lra|].
    unfold Rdiv. rewrite Rmult_assoc, Rinv_l by lra. lra. }
  destruct (F_div_correct a t Fa) as [E F]; [lra|apply no_ovf_1; lra|].
  split; [exact F|]. unfold in01. rewrite E. apply rnd_between; [apply fmt_0|apply fmt_1|exact B].
Qed.
Lemma div_zero (a t : F64) : F_fin t = true -> F2R64 t = 0 -> F_fin a = true -> F2R64 a = 0 -> disnan (ddiv a t) = true.
Proof.
  intros FT T0 Fa A0. assert (Z : forall x : F64, F_fin x = true -> F2R64 x = 0 -> exists s, x = B754_zero 53 1024 s).
  { intros x F E. destruct x as [s|s|s pl h|s m e h]; try discriminate F; [exists s; reflexivity|]. exfalso. unfold F2R64 in E. cbn in E.
    assert (P := F2R_neq_0 radix2 (Float radix2 (SpecFloat.cond_Zopp s (Z.pos m)) e)). apply P; [|exact E]. destruct s; discriminate. }
  destruct (Z t FT T0) as [s ->]. destruct (Z a Fa A0) as [s' ->]. reflexivity.
Qed.
(** a between zero and the total *)
Lemma rate_between (a t : F64) : dle (dofZ 0) a = true -> dle a t = true -> nan01 (ddiv a t).
Proof.
  intros A B. destruct (fin_or t) as [N|[[s ->]|F]].
  - left. apply nan_div_r, N.
  - destruct s.
    + left. destruct a as [s|s|s pl h|s m e h]; try discriminate B. destruct s; [discriminate A|discriminate B].
    + apply div_inf. destruct (fin_or a) as [N|[[s ->]|Fa]].
      * exfalso. destruct a; try discriminate N; discriminate B.
      * destruct s; [discriminate A|left; reflexivity].
      * right. split; [exact Fa|]. assert (F0 : F_fin (dofZ 0 : F64) = true) by reflexivity. exact (proj1 (F_le_fin _ _ F0 Fa) A).
  - destruct (F_between_fin a t F A B) as [Fa Ba]. destruct (Rle_lt_or_eq_dec 0 (F2R64 t) ltac:(lra)) as [P|P].
    + right. apply div_between; assumption.
    + left. apply div_zero; auto; lra.
Qed.
Lemma rate_rest (a t : F64) : dle (dofZ 0) a = true -> dle a t = true -> nan01 (ddiv (dsub t a) t).
Proof.
  intros A B. destruct (fin_or t) as [N|[[s ->]|F]].
  - left. apply nan_div_r, N.
  - left. destruct a as [s'|s'|s' pl h|s' m e h]; destruct s; try discriminate A; try discriminate B; try destruct s'; try discriminate A; try discriminate B; reflexivity.
  - destruct (F_between_fin a t F A B) as [Fa Ba].
    assert (Bd : 0 <= F2R64 t - F2R64 a <= F2R64 t) by lra.
    destruct (F_sub_correct t a F Fa) as [E Fs].
    { apply (no_ovf_le (F2R64 t)); [apply F_fmt| |rewrite Rabs_pos_eq; lra]. eapply Rle_lt_trans; [apply Rle_abs|apply F_abs_lt]. }
    assert (Bs : 0 <= F2R64 (dsub t a) <= F2R64 t) by (rewrite E; apply rnd_between; [apply fmt_0|apply F_fmt|exact Bd]).
    destruct (Rle_lt_or_eq_dec 0 (F2R64 t) ltac:(lra)) as [P|P].
    + right. apply div_between; assumption.
    + left. apply div_zero; auto; lra.
Qed.
Lemma div_same_sign (a t : F64) : F_fin a = true -> F2R64 t <> 0 -> 0 <= F2R64 a / F2R64 t <= 1 -> f01 (ddiv a t).
Proof.
  intros Fa N B. destruct (F_div_correct a t Fa N) as [E F]; [apply no_ovf_1; lra|].
  split; [exact F|]. unfold in01. rewrite E. apply rnd_between; [apply fmt_0|apply fmt_1|exact B].
Qed.
Lemma rate_whole (t : F64) : nan01 (ddiv t t).
Proof.
  destruct (fin_or t) as [N|[[s ->]|F]].
  - left. apply nan_div_r, N.
  - left. destruct s; reflexivity.
  - destruct (Req_EM_T (F2R64 t) 0) as [Z|Z]; [left; apply div_zero; assumption|].
    right. apply div_same_sign; [exact F|exact Z|]. unfold Rdiv. rewrite Rinv_r by exact Z. lra.
Qed.
Lemma rate_half (t : F64) : nan01 (ddiv (ddiv t (dofZ 2)) t).
Proof.
  destruct (fin_or t) as [N|[[s ->]|F]].
  - left. apply nan_div_r, N.
  - left. destruct s; reflexivity.
  - destruct (F_ofZ_correct 2 ltac:(cbn; lia)) as [E2 F2].
    assert (Bd : Rabs (F2R64 t / 2) <= Rabs (F2R64 t)) by (unfold Rdiv; rewrite Rabs_mult, (Rabs_pos_eq (/ 2)) by lra; assert (Q := Rabs_pos (F2R64 t)); lra).
    destruct (F_div_correct t (dofZ 2) F) as [E Fh]; [rewrite E2; lra| |].
    { rewrite E2. apply (no_ovf_le (Rabs (F2R64 t))); [apply fmt_abs, F_fmt|apply F_abs_lt|exact Bd]. }
    rewrite E2 in E.
    destruct (Req_EM_T (F2R64 t) 0) as [Z|Z].
    + left. apply div_zero; auto. rewrite E, Z. replace (0 / 2) with 0 by lra. apply rnd_0.
    + right. apply div_same_sign; [exact Fh|exact Z|]. rewrite E.
      destruct (Rtotal_order (F2R64 t) 0) as [L|[L|L]]; [|contradiction|].
      * assert (Q : F2R64 t <= rnd (F2R64 t / 2) <= 0) by (apply rnd_between; [apply F_fmt|apply fmt_0|lra]).
        assert (I : / F2R64 t < 0) by (apply Rinv_lt_0_compat; exact L).
        assert (I' : F2R64 t * / F2R64 t = 1) by (apply Rinv_r; exact Z). unfold Rdiv at 1 3. split; nra.
      * assert (Q : 0 <= rnd (F2R64 t / 2) <= F2R64 t) by (apply rnd_between; [apply fmt_0|apply F_fmt|lra]).
        assert (I : 0 < / F2R64 t) by (apply Rinv_0_lt_compat; exact L).
        assert (I' : F2R64 t * / F2R64 t = 1) by (apply Rinv_r; exact Z). unfold Rdiv at 1 3. split; nra.
Qed.
Lemma chunk_rate beam (c : rect F64) occ l a : compute_chunk_area beam c occ l = Ok a -> nan01 (ddiv a (rect_area c)).
Proof.
  unfold compute_chunk_area. destruct l as [|i [|j [|k l]]]; try discriminate.
  - intros Q. apply Ok_inj in Q. rewrite <- Q. apply rate_half.
  - set (area := if xorb _ _ then _ else _). cbv zeta. fold area.
    destruct (dle (dofZ 0) area && dle area (rect_area c)) eqn:A; [|discriminate]. cbn [assert_ bind].
    apply andb_true_iff in A as [A1 A2].
    intros Q. apply Ok_inj in Q. rewrite <- Q. destruct (occ && _); [apply rate_rest|apply rate_between]; assumption.
Qed.

(** ** estimators *)
Lemma nan01_max x y : nan01 x -> nan01 y -> nan01 (dmax x y).
Proof. intros X Y. unfold dmax. destruct (dlt x y); assumption. Qed.
Lemma f01_half : f01 dhalf.
Proof. destruct CellProofs.F_half as [E F]. split; [exact F|]. unfold in01. rewrite E. lra. Qed.
Lemma estimate_chunk_ok (e : aoe F64) a t occ : occ_ok (ae_occ e) -> occ_ok (ae_empty e) -> nan01 (ddiv a t) -> occ_ok (estimate_chunk e a t occ).
Proof.
  intros [P Q] [P' Q'] R. unfold estimate_chunk. destruct occ; split; cbn [prob_occ est_quality]; try assumption.
  - apply nan01_max; assumption.
  - apply nan01_mul; [assumption|]. destruct (dlt _ _); [apply nan01_sub1|]; assumption.
Qed.
Lemma pierced_ok (e : aoe F64) beam c occ o : occ_ok (ae_occ e) -> occ_ok (ae_empty e) -> nan01 (ae_unknown e) -> estimate_pierced e beam c occ = Ok o -> occ_ok o.
Proof.
  intros HO HE HU. unfold estimate_pierced. destruct (find_intersections beam c occ) as [l| | |]; try discriminate. cbn [bind].
  assert (G : forall occ' l' o, (' chunk <- compute_chunk_area beam c occ' l' ;; Ok (estimate_chunk e chunk (rect_area c) occ'))%out = Ok o -> occ_ok o).
  { intros occ' l' o'. destruct (compute_chunk_area beam c occ' l') as [a| | |] eqn:E; try discriminate. cbn [bind]. intros Q. apply Ok_inj in Q. rewrite <- Q.
    apply estimate_chunk_ok; auto. eapply chunk_rate; eassumption. }
  destruct l as [|i [|j l]]; try apply G.
  destruct (negb occ) eqn:N.
  - intros Q. apply Ok_inj in Q. rewrite <- Q. split; cbn [prob_occ est_quality]; [apply HE|exact HU].
  - apply negb_false_iff in N. subst occ. destruct (segment_intersections c beam) as [rl| | |]; try discriminate. cbn [bind].
    destruct rl as [|a [|b [|d rl]]]; try discriminate; try apply G.
    intros Q. apply Ok_inj in Q. rewrite <- Q. apply estimate_chunk_ok; auto. apply rate_whole.
Qed.
Lemma aoe_ok_any (e : aoe F64) sh beam c occ o : occ_ok (ae_occ e) -> occ_ok (ae_empty e) -> nan01 (ae_unknown e) -> aoe_estimate e sh beam c occ = Ok (Some o) -> occ_ok o.
Proof.
  intros HO HE HU. unfold aoe_estimate. destruct (ensure_not_on_edge sh beam c) as [bm| | |]; try discriminate. cbn [bind].
  destruct (classify_segment bm c) as [p| | |]; try discriminate. cbn [bind].
  assert (P : forall occ', (' o <- estimate_pierced e bm c occ' ;; Ok (Some o))%out = Ok (Some o) -> occ_ok o).
  { intros occ'. destruct (estimate_pierced e bm c occ') as [o'| | |] eqn:E; try discriminate. cbn [bind]. intros Q. apply Some_inj in Q. rewrite <- Q. eapply pierced_ok; eauto. }
  destruct p; try discriminate; destruct occ; try discriminate; try apply P.
  intros Q. apply Some_inj in Q. rewrite <- Q. split; [apply HE|exact HU].
Qed.
Lemma occ01_ok o : occ01 o -> occ_ok o.
Proof. intros [A B]. split; right; assumption. Qed.
Lemma estimate_ok e sh nan beam c occ o : est01 e -> disnan nan = true -> estimate_with sh nan e beam c occ = Ok o -> occ_ok o.
Proof.
  intros H N. destruct e as [a b|a b]; cbn [estimate_with]; destruct H as [A B].
  - intros Q. apply Ok_inj in Q. rewrite <- Q. destruct occ; apply occ01_ok; assumption.
  - destruct (aoe_estimate _ _ _ _ _) as [r| | |] eqn:E; try discriminate. cbn [bind]. intros Q. apply Ok_inj in Q. rewrite <- Q. destruct r as [r|].
    + eapply aoe_ok_any; [| | |exact E]; cbn [ae_occ ae_empty ae_unknown]; try (apply occ01_ok; assumption). right. apply f01_half.
    + split; left; exact N.
Qed.

(** ** qualities *)
Lemma ofZ_pos (v : Z) : (0 < v)%Z -> (dofZ v : F64) = Binf false \/ (F_fin (dofZ v : F64) = true /\ 1 <= F2R64 (dofZ v)).
Proof.
  intros P. generalize (binary_normalize_correct 53 1024 F_prec_gt_0 F_prec_lt_emax mode_NE v 0 false).
  assert (HF : F2R (Float radix2 v 0) = IZR v) by (unfold F2R; simpl; ring).
  rewrite HF. intros H. assert (P1 : 1 <= IZR v) by (apply IZR_le; lia). ovf_case H.
  - right. destruct H as [H1 [H2 _]]. split; [exact H2|]. change (F2R64 (dofZ v)) with (B2R 53 1024 (Binary.binary_normalize 53 1024 F_prec_gt_0 F_prec_lt_emax mode_NE v 0 false)).
    rewrite H1. apply (rnd_ge 1 (IZR v)); [apply fmt_1|exact P1].
  - left. apply B2FF_ovf in H. rewrite Rlt_bool_false in H by lra. exact H.
Qed.
Lemma inv_f01 (v : Z) : (0 < v)%Z -> f01 (ddiv (dofZ 1) (dofZ v)).
Proof.
  intros P. destruct CellProofs.F_one as [E1 F1]. destruct (ofZ_pos v P) as [E|[F G]].
  - rewrite E. destruct (div_inf (dofZ 1)) as [N|H]; [right; split; [exact F1|rewrite E1; lra]| |exact H]. exfalso. revert N. clear. vm_compute. discriminate.
  - apply div_between; auto; rewrite ?E1; lra.
Qed.
Section Quality.
  Variables (dcos dsin dacos : F64 -> F64) (mpi : F64).
  Lemma omqe_f01 k pts h i q : omqe_reset dcos dsin dacos mpi k pts = Ok h -> omqe_quality mpi h pts i = Ok q -> f01 q.
  Proof.
    destruct k; cbn [omqe_reset].
    - intros Q. apply Ok_inj in Q. rewrite <- Q. cbn [omqe_quality]. intros Q'. apply Ok_inj in Q'. rewrite <- Q'. apply f01_1.
    - destruct (hist_reset dcos dsin dacos mpi 20 pts) as [hh| | |] eqn:E; try discriminate. cbn [bind]. intros Q. apply Ok_inj in Q. rewrite <- Q. cbn [omqe_quality].
      unfold ahr_weight. destruct (hist_value mpi hh pts (Z.to_nat i)) as [v| | |] eqn:V; try discriminate. cbn [bind].
      destruct (v =? 0)%Z eqn:V0; [discriminate|]. cbn [negb assert_ bind]. intros Q'. apply Ok_inj in Q'. rewrite <- Q'. apply inv_f01.
      apply Z.eqb_neq in V0. enough (0 <= v)%Z by lia. revert V. unfold hist_value. destruct (Z.to_nat i) as [|j]; [intros V; apply Ok_inj in V; lia|].
      destruct (nth_error _ _) as [a|]; try discriminate. destruct (hist_index _ _ _) as [kk| | |]; try discriminate. cbn [bind].
      destruct (nth_error (h_cols hh) kk) as [w|] eqn:W; try discriminate. intros V. apply Ok_inj in V. subst w.
      apply nth_error_In in W. destruct (hist_any _ _ _ _ _ _ _ E) as (_ & _ & _ & B & _). apply B. exact W.
  Qed.
End Quality.

(** ** blurring *)
Lemma ofZ_notnan (z : Z) : disnan (dofZ z : F64) = false.
Proof.
  generalize (binary_normalize_correct 53 1024 F_prec_gt_0 F_prec_lt_emax mode_NE z 0 false). intros H. ovf_case H.
  - destruct H as [_ [H2 _]]. apply F_fin_nan. exact H2.
  - apply B2FF_ovf in H. change (dofZ z : F64) with (Binary.binary_normalize 53 1024 F_prec_gt_0 F_prec_lt_emax mode_NE z 0 false). rewrite H. reflexivity.
Qed.
Lemma sq_nneg (x : F64) : disnan x = false -> nneg (dmul x x).
Proof.
  intros N. destruct (fin_or x) as [N'|[[s ->]|F]]; [congruence|left; destruct s; reflexivity|].
  generalize (Bmult_correct 53 1024 eq_refl eq_refl binop_nan_pl64 mode_NE x x). intros H. ovf_case H.
  - right. destruct H as [H1 [H2 _]]. split.
    + unfold F_fin in *. rewrite F in H2. exact H2.
    + change (F2R64 (dmul x x)) with (B2R 53 1024 (Binary.Bmult 53 1024 eq_refl eq_refl binop_nan_pl64 mode_NE x x)). rewrite H1.
      apply (rnd_ge 0); [apply fmt_0|]. apply Rle_0_sqr.
  - left. apply B2FF_ovf in H. rewrite xorb_nilpotent in H. exact H.
Qed.
Lemma add_nneg (x y : F64) : nneg x -> nneg y -> nneg (dadd x y).
Proof.
  intros [->|[F P]] [->|[F' P']].
  - left. reflexivity.
  - left. destruct y; try discriminate F'; reflexivity.
  - left. destruct x; try discriminate F; reflexivity.
  - generalize (Bplus_correct 53 1024 eq_refl eq_refl binop_nan_pl64 mode_NE x y F F'). intros H. ovf_case H.
    + right. destruct H as [H1 [H2 _]]. split; [exact H2|].
      change (F2R64 (dadd x y)) with (B2R 53 1024 (Binary.Bplus 53 1024 eq_refl eq_refl binop_nan_pl64 mode_NE x y)). rewrite H1.
      apply (rnd_ge 0); [apply fmt_0|]. fold (F2R64 x) (F2R64 y). lra.
    + left. destruct H as [H1 H2]. apply B2FF_ovf in H1.
      assert (Sx : Bsign 53 1024 x = false).
      { destruct (Bsign 53 1024 x) eqn:Sx; [|reflexivity]. exfalso. assert (A := F_sign_true _ Sx). symmetry in H2. assert (B := F_sign_true _ H2).
        fold (F2R64 x) (F2R64 y) in E. assert (X : F2R64 x = 0) by lra. assert (Y : F2R64 y = 0) by lra.
        rewrite X, Y in E. replace (0 + 0) with 0 in E by lra. rewrite round_0, Rabs_R0 in E by typeclasses eauto.
        assert (Q := bpow_gt_0 radix2 1024). lra. }
      rewrite Sx in H1. exact H1.
Qed.
Lemma cdist_nneg a b : nneg (cdist_sq a b : F64).
Proof. apply add_nneg; apply sq_nneg, ofZ_notnan. Qed.
Lemma blur_rate (x h : F64) : nneg x -> dlt x h = true -> f01 (ddiv x h).
Proof.
  intros X L. assert (Fx : F_fin x = true /\ 0 <= F2R64 x) by (destruct X as [->|X]; [destruct h as [s|s|s pl q|s m e q]; destruct s; discriminate L|exact X]).
  destruct Fx as [Fx Px]. destruct (fin_or h) as [N|[[s ->]|F]].
  - exfalso. destruct h; try discriminate N. destruct x; discriminate L.
  - destruct s; [exfalso; destruct x; try discriminate Fx; discriminate L|].
    destruct (div_inf x X) as [N|H]; [|exact H]. exfalso. destruct x as [s|s|s pl q|s m e q]; try discriminate Fx; discriminate N.
  - apply (F_lt_fin _ _ Fx F) in L. apply div_between; auto; lra.
Qed.

(** ** one beam *)
Lemma obs_good occ (o : occup F64) p q : occ_ok o -> f01 q -> fgood_obs (mkAoo occ o p q).
Proof.
  intros [P E] Q. unfold fgood_obs. cbn [a_occ a_quality]. unfold occ_valid.
  destruct P as [P|P]; [left; rewrite P; reflexivity|]. destruct E as [E|E]; [left; rewrite E; destruct (disnan (prob_occ o)); reflexivity|]. right. auto.
Qed.
Section Adder.
  Context {M : Type}.
  Variable map_update : M -> coord -> aoo F64 -> outcome M.
  Variable scale : F64.
  Variable estimate : segment F64 -> rect F64 -> bool -> outcome (occup F64).
  Variable quality : list (scan_point F64) -> Z -> outcome F64.
  Variables (range blur : F64) (datan2 : F64 -> F64 -> F64).
  Variable Inv : M -> Prop.
  Hypothesis Hupd : forall m c a m', Inv m -> fgood_obs a -> map_update m c a = Ok m' -> Inv m'.
  Hypothesis Hest : forall b c o r, estimate b c o = Ok r -> occ_ok r.

  Lemma free_obs_good beam q base obst od hd pt o : f01 q -> occ_ok base -> free_cell_obs scale estimate beam q base obst od hd pt = Ok o -> fgood_obs o.
  Proof using Hest.
    intros Q B. unfold free_cell_obs. destruct (world_cell_bounds scale pt) as [bn| | |]; try discriminate. cbn [bind].
    destruct (estimate beam bn false) as [oc| | |] eqn:E; try discriminate. cbn [bind]. apply Hest in E.
    destruct (dlt (cdist_sq pt obst) hd && dlt hd od) eqn:L; intros X; apply Ok_inj in X; rewrite <- X; apply obs_good; auto.
    apply andb_prop in L as [L _]. split; cbn [prob_occ est_quality]; [|apply E].
    apply nan01_mul; [apply B|]. apply nan01_sub1. right. apply blur_rate; [apply cdist_nneg|exact L].
  Qed.
  Lemma free_loop_inv beam q base obst od hd : f01 q -> occ_ok base -> forall pts m m',
    Inv m -> free_cells_loop map_update scale estimate beam q base obst od hd pts m = Ok m' -> Inv m'.
  Proof using Hupd Hest.
    intros Q B. induction pts as [|pt pts IH]; intros m m' I; cbn [free_cells_loop].
    - intros X. apply Ok_inj in X. rewrite <- X. exact I.
    - destruct (free_cell_obs scale estimate beam q base obst od hd pt) as [o| | |] eqn:E; try discriminate. cbn [bind].
      apply free_obs_good in E; auto. destruct (map_update m pt o) as [m1| | |] eqn:U; try discriminate. cbn [bind]. apply IH. eapply Hupd; eauto.
  Qed.
  Lemma handle_inv m occ q beam m' : Inv m -> f01 q -> handle_scan_point map_update scale estimate range blur m occ q beam = Ok m' -> Inv m'.
  Proof using Hupd Hest.
    intros I Q. unfold handle_scan_point. destruct (dlt _ _); [intros X; apply Ok_inj in X; rewrite <- X; exact I|].
    destruct (world_to_cell scale (sbeg beam)) as [rp| | |]; try discriminate. cbn [bind].
    destruct (world_to_cell scale (send beam)) as [op| | |]; try discriminate. cbn [bind].
    destruct (world_to_cells scale beam) as [pts| | |]; try discriminate. cbn [bind].
    destruct (rev pts) as [|back r]; try discriminate.
    destruct (world_cell_bounds scale back) as [bn| | |]; try discriminate. cbn [bind].
    destruct (estimate beam bn occ) as [base| | |] eqn:E; try discriminate. cbn [bind]. apply Hest in E.
    destruct (map_update m back _) as [m1| | |] eqn:U; try discriminate. cbn [bind].
    apply free_loop_inv; auto. eapply Hupd; [exact I| |exact U]. apply obs_good; assumption.
  Qed.
  Lemma append_loop_inv tp rp points sq : f01 sq -> (forall i q, quality points i = Ok q -> f01 q) -> forall fuel i l m m',
    Inv m -> append_loop map_update scale estimate quality range blur datan2 fuel tp rp points sq i l m = Ok m' -> Inv m'.
  Proof using Hupd Hest.
    intros Q HQ. induction fuel as [|fuel IH]; intros i l m m' I; cbn [append_loop]; destruct (i <=? l)%Z; try discriminate; try (intros X; apply Ok_inj in X; rewrite <- X; exact I).
    destruct (nth_error points (Z.to_nat i)) as [sp|]; try discriminate.
    destruct (sp_move_origin_tp datan2 rp tp sp) as [wp| | |]; try discriminate. cbn [bind].
    destruct (quality points i) as [q| | |] eqn:E; try discriminate. cbn [bind].
    destruct (handle_scan_point _ _ _ _ _ m _ _ _) as [m1| | |] eqn:H; try discriminate. cbn [bind]. apply IH.
    eapply handle_inv; [exact I| |exact H]. apply f01_mul; [exact Q|]. eapply HQ, E.
  Qed.
  Lemma append_scan_inv tr m p points sq margin m' : f01 sq -> (forall i q, quality points i = Ok q -> f01 q) ->
    Inv m -> append_scan map_update scale estimate quality range blur datan2 tr m p points sq margin = Ok m' -> Inv m'.
  Proof using Hupd Hest.
    intros Q HQ I. unfold append_scan. destruct points as [|x xs]; [intros X; apply Ok_inj in X; rewrite <- X; exact I|].
    destruct (to_size (dtrunc (dsub _ _))) as [l| | |]; try discriminate. cbn [bind].
    destruct (to_size (dtrunc margin)) as [i| | |]; try discriminate. cbn [bind]. apply append_loop_inv; assumption.
  Qed.
End Adder.
